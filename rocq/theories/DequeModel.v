(* Model of the work-stealing queue of one thread, src/thread.c:144-170 and
   804-859.

   The owner pushes at the bottom and pops from the bottom; any number of other
   threads steal from the top.  A step is one access to one shared word, so a list
   of events is a schedule; memory is sequentially consistent.  A task is four
   words (function, context, argument, queue, src/thread.c:140-145) that are copied
   one at a time, so a thief may read a task that is being overwritten. *)
From Coq Require Import List Arith NArith Bool.
From Verif Require Import Base.
Import ListNotations.

Definition THREADQ_SIZE : nat := 256.   (* src/thread.c:164 *)
Definition WORDS : nat := 4.            (* words of a task_t *)
Definition TAGS : N := 4294967296.      (* abp_tag_t is a uint32_t, src/thread.c:152 *)

Definition task := list N.

(* What the owner does next. *)
Inductive opc :=
| OIdle
(* push_bot, src/thread.c:804-811: [rest] words still to be stored from [addr] *)
| OPush (rest : list N) (addr : nat) (new_bot : nat) (tasks : list task)
(* pop_bot, src/thread.c:813-838 *)
| OLoad                                        (* old_bot = bot *)
| OStore (nb : nat)                            (* bot := new_bot *)
| ORead (nb : nat) (acc : list N)              (* copy the task *)
| OAge (nb : nat) (x : task)                   (* load the age *)
| OZero (nb : nat) (x : task) (top : nat) (tag : N)   (* bot := 0 *)
| OCas (nb : nat) (x : task) (top : nat) (tag : N)    (* compare and swap the age *)
| OReset (tag : N).                            (* store the age, return false *)

(* What a thief does next: pop_top, src/thread.c:841-859. *)
Inductive tpc :=
| TIdle
| TAge                                         (* load the age *)
| TBot (top : nat) (tag : N)                   (* load bot *)
| TRead (top : nat) (tag : N) (acc : list N)   (* copy the task *)
| TCas (top : nat) (tag : N) (x : task).       (* compare and swap the age *)

(* What callers see. *)
Inductive outcome :=
| Pushed (xs : list task)        (* push_bot returned *)
| Popped (x : task)              (* pop_bot returned true *)
| PopEmpty                       (* pop_bot returned false *)
| Stole (t : nat) (x : task)     (* pop_top returned true *)
| StealFailed (t : nat).         (* pop_top returned false *)

(* [log] is newest first.  [resets] counts the writes to the tag and [started t]
   is its value when thief t last loaded the age; the code has neither. *)
Record sys := Sys {
  mem : nat -> N; top : nat; tag : N; bot : nat;
  own : opc; thief : nat -> tpc; log : list outcome;
  resets : N; started : nat -> N }.

Definition init : sys :=
  Sys (fun _ => 0%N) 0 0%N 0 OIdle (fun _ => TIdle) [] 0%N (fun _ => 0%N).

Definition set_own (st : sys) (p : opc) : sys :=
  Sys (mem st) (top st) (tag st) (bot st) p (thief st) (log st) (resets st) (started st).
Definition set_thief (st : sys) (t : nat) (p : tpc) : sys :=
  Sys (mem st) (top st) (tag st) (bot st) (own st) (upd (thief st) t p) (log st) (resets st) (started st).
Definition set_bot (st : sys) (b : nat) : sys :=
  Sys (mem st) (top st) (tag st) b (own st) (thief st) (log st) (resets st) (started st).
Definition set_mem (st : sys) (a : nat) (w : N) : sys :=
  Sys (upd (mem st) a w) (top st) (tag st) (bot st) (own st) (thief st) (log st) (resets st) (started st).
Definition set_top (st : sys) (tp : nat) : sys :=
  Sys (mem st) tp (tag st) (bot st) (own st) (thief st) (log st) (resets st) (started st).
(* the owner writes top = 0 and a new tag *)
Definition reset_age (st : sys) (tg : N) : sys :=
  Sys (mem st) 0 tg (bot st) (own st) (thief st) (log st) (N.succ (resets st)) (started st).
Definition start_thief (st : sys) (t : nat) : sys :=
  Sys (mem st) (top st) (tag st) (bot st) (own st) (thief st) (log st) (resets st) (upd (started st) t (resets st)).
Definition emit (st : sys) (o : outcome) : sys :=
  Sys (mem st) (top st) (tag st) (bot st) (own st) (thief st) (o :: log st) (resets st) (started st).

Definition age_is (st : sys) (tp : nat) (tg : N) : bool := (top st =? tp) && (tag st =? tg)%N.

(* One step of the owner. *)
Definition own_step (st : sys) : sys :=
  match own st with
  | OIdle => st
  | OPush (w :: rest) a nb xs => set_own (set_mem st a w) (OPush rest (S a) nb xs)
  | OPush [] _ nb xs => emit (set_own (set_bot st nb) OIdle) (Pushed xs)
  | OLoad =>
    match bot st with
    | O => emit (set_own st OIdle) PopEmpty
    | S nb => set_own st (OStore nb)
    end
  | OStore nb => set_own (set_bot st nb) (ORead nb [])
  | ORead nb acc =>
    if length acc =? WORDS then set_own st (OAge nb acc)
    else set_own st (ORead nb (acc ++ [mem st (WORDS * nb + length acc)]))
  | OAge nb x =>
    if top st <? nb then emit (set_own st OIdle) (Popped x)
    else set_own st (OZero nb x (top st) (tag st))
  | OZero nb x tp tg =>
    if nb =? tp then set_own (set_bot st 0) (OCas nb x tp tg)
    else set_own (set_bot st 0) (OReset tg)
  | OCas nb x tp tg =>
    if age_is st tp tg
    then emit (set_own (reset_age st (N.modulo (tg + 1) TAGS)) OIdle) (Popped x)
    else set_own st (OReset tg)
  | OReset tg => emit (set_own (reset_age st (N.modulo (tg + 1) TAGS)) OIdle) PopEmpty
  end.

(* One step of thief [t]. *)
Definition thief_step (st : sys) (t : nat) : sys :=
  match thief st t with
  | TIdle => st
  | TAge => start_thief (set_thief st t (TBot (top st) (tag st))) t
  | TBot tp tg =>
    if bot st <=? tp then emit (set_thief st t TIdle) (StealFailed t)
    else set_thief st t (TRead tp tg [])
  | TRead tp tg acc =>
    if length acc =? WORDS then set_thief st t (TCas tp tg acc)
    else set_thief st t (TRead tp tg (acc ++ [mem st (WORDS * tp + length acc)]))
  | TCas tp tg x =>
    if age_is st tp tg then emit (set_thief (set_top st (S tp)) t TIdle) (Stole t x)
    else emit (set_thief st t TIdle) (StealFailed t)
  end.

(* A schedule: the owner calls push_bot or pop_bot, another thread calls pop_top,
   or one of them takes a step.  Calls of a busy thread do nothing. *)
Inductive event := CallPush (xs : list task) | CallPop | CallSteal (t : nat) | OwnStep | ThiefStep (t : nat).

Definition do_event (st : sys) (e : event) : res sys :=
  match e with
  | CallPush xs =>
    match own st with
    | OIdle =>
      if bot st + length xs <=? THREADQ_SIZE
      then Ok (set_own st (OPush (concat xs) (WORDS * bot st) (bot st + length xs) xs))
      else Fault
    | _ => Ok st
    end
  | CallPop => match own st with OIdle => Ok (set_own st OLoad) | _ => Ok st end
  | CallSteal t => match thief st t with TIdle => Ok (set_thief st t TAge) | _ => Ok st end
  | OwnStep => Ok (own_step st)
  | ThiefStep t => Ok (thief_step st t)
  end.

Fixpoint run (st : sys) (es : list event) : res sys :=
  match es with [] => Ok st | e :: es' => do! st <- do_event st e; run st es' end.
