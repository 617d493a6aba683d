(* Model of the attributes 'EVENT, 'LAST_EVENT and 'LAST_VALUE of signals: what is kept for
   them in the pieces of a signal ("nexuses"), the cached event flag, and the entry points
   of src/rt/model.c that read them.

   A value is a function of the position of an element.  How a new value of a nexus is
   found belongs to KernelModel and ResolveModel: here it is given. *)
From Coq Require Import List ZArith Arith Bool.
From Verif Require Import Base.
Import ListNotations.
Local Open Scope Z_scope.

(* src/rt/rt.h:30 *)
Definition TIME_HIGH : Z := 2 ^ 63 - 1.
(* delta_cycle_t: src/rt/rt.h:93-94 *)
Definition delta_cycle (i : Z) : Z := i mod 2 ^ 16.
Definition DELTA_CYCLE_MAX : Z := 2 ^ 16 - 1.

(* The fields of rt_nexus_t that matter: src/rt/structs.h:183-199 *)
Record nexus := Nexus { width : nat; last_event : Z; event_delta : Z }.

(* A signal: the chain of its pieces, the effective and the last value (both in
   shared.data, src/rt/model.c:1081-1089), SIG_F_CACHE_EVENT with NET_F_CACHE_EVENT and
   the membership in eventsigs, which are set together, and SIG_F_EVENT_FLAG; with the
   current time and delta cycle of the model.  src/rt/structs.h:204-231,
   src/rt/model.c:104-108 *)
Record state := State {
  chain : list nexus; eff : nat -> Z; lastv : nat -> Z; cache : bool; flag : bool;
  now : Z; iteration : Z }.

Definition with_chain (s : state) (c : list nexus) : state :=
  State c (eff s) (lastv s) (cache s) (flag s) (now s) (iteration s).
Definition with_flag (s : state) (c f : bool) : state :=
  State (chain s) (eff s) (lastv s) c f (now s) (iteration s).

(* setup_signal and model_new: src/rt/model.c:475, 1685-1719, for a signal whose pieces
   were cut while the design was elaborated; calculate_initial_value:
   src/rt/model.c:2085-2097 *)
Definition initial (widths : list nat) (v : nat -> Z) : state :=
  State (map (fun w => Nexus w TIME_HIGH DELTA_CYCLE_MAX) widths) v v false false 0 (-1).

(* clone_nexus: src/rt/model.c:1553-1583, the fields kept here; for splits of values,
   sources and the index see NexusModel *)
Fixpoint cut (off : nat) (l : list nexus) : list nexus :=
  match l with
  | [] => []
  | n :: l =>
      if (width n <=? off)%nat then n :: cut (off - width n) l
      else if (0 <? off)%nat then
        Nexus off (last_event n) (event_delta n)
        :: Nexus (width n - off) (last_event n) (event_delta n) :: l
      else n :: l
  end.

(* split_nexus: src/rt/model.c:1643-1683, as its effect on the chain: cuts where the slice
   begins and ends.  The short cuts of lines 1677-1680 are taken where there is nothing to
   cut. *)
Definition split_nexus (s : state) (off count : nat) : state :=
  with_chain s (cut (off + count) (cut off (chain s))).

(* The piece that begins at an offset, and those after it *)
Fixpoint from (off : nat) (l : list nexus) : list nexus :=
  match l with
  | [] => []
  | n :: l' => if Nat.eqb off 0 then l else from (off - width n) l'
  end.

Definition nexus_event (s : state) (n : nexus) : bool :=
  (last_event n =? now s) && (event_delta n =? iteration s).

(* Find the piece with an offset and width, and replace it *)
Fixpoint replace (off len : nat) (f : nexus -> res nexus) (l : list nexus) : res (list nexus) :=
  match l with
  | [] => Fault
  | n :: l =>
      if Nat.eqb off 0 then
        if Nat.eqb (width n) len then (do! n' <- f n; Ok (n' :: l)) else Fault
      else if (off <? width n)%nat then Fault
      else do! l' <- replace (off - width n) len f l; Ok (n :: l')
  end.

Definition write (off : nat) (vs : list Z) (v : nat -> Z) : nat -> Z :=
  fun i => if (off <=? i)%nat && (i <? off + length vs)%nat then nth (i - off) vs 0 else v i.
Definition copy (off len : nat) (src dst : nat -> Z) : nat -> Z :=
  fun i => if (off <=? i)%nat && (i <? off + len)%nat then src i else dst i.

(* notify_event: src/rt/model.c:2873-2882, with the assertion at line 2876; waking
   processes belongs to KernelModel *)
Definition notify_event (s : state) (n : nexus) : res nexus :=
  if nexus_event s n then Fault
  else Ok (Nexus (width n) (now s) (delta_cycle (iteration s))).

(* put_effective: src/rt/model.c:2897-2911, for the piece at [off] *)
Definition put_effective (s : state) (off : nat) (vs : list Z) : res state :=
  if forallb (fun i => eff s i =? nth (i - off) vs 0) (seq off (length vs))
  then (do! _ <- replace off (length vs) (fun n => Ok n) (chain s); Ok s)
  else
    do! c <- replace off (length vs) (notify_event s) (chain s);
    Ok (State c (write off vs (eff s)) (copy off (length vs) (eff s) (lastv s))
          (cache s) (flag s || cache s) (now s) (iteration s)).

Fixpoint updates (s : state) (us : list (nat * list Z)) : res state :=
  match us with
  | [] => Ok s
  | (off, vs) :: us => do! s <- put_effective s off vs; updates s us
  end.

(* sync_event_cache: src/rt/model.c:3216-3232 *)
Definition sync_event_cache (s : state) : res state :=
  if cache s then
    match chain s with
    | [] => Fault
    | n0 :: _ =>
        if nexus_event s n0 then (if flag s then Ok s else Fault)
        else Ok (with_flag s true false)
    end
  else Ok s.

(* The beginning of model_cycle: src/rt/model.c:3245-3253 *)
Inductive step := Delta | Advance (d : Z).
Definition begin_cycle (s : state) (st : step) : state :=
  match st with
  | Delta => State (chain s) (eff s) (lastv s) (cache s) (flag s) (now s) (iteration s + 1)
  | Advance d => State (chain s) (eff s) (lastv s) (cache s) (flag s) (now s + d) 0
  end.

(* The loop of x_test_net_event: src/rt/model.c:3989-3997 *)
Fixpoint any_event (s : state) (l : list nexus) (count : nat) : res bool :=
  if Nat.eqb count 0 then Ok false
  else
    match l with
    | [] => Fault
    | n :: l =>
        if nexus_event s n then Ok true
        else if (count <? width n)%nat then Fault
        else any_event s l (count - width n)
    end.

Definition total (l : list nexus) : nat := list_sum (map width l).

(* x_test_net_event: src/rt/model.c:3978-4007; the size of the signal is that of one
   element when it has a single element *)
Definition x_test_net_event (s : state) (off count : nat) : res (state * bool) :=
  let s := split_nexus s off count in
  do! r <- any_event s (from off (chain s)) count;
  if Nat.eqb (total (chain s)) 1 then
    if cache s then Fault else Ok (with_flag s true (flag s || r), r)
  else Ok (s, r).

(* S'EVENT in generated code: src/jit/jit-irgen.c:3345-3378 *)
Definition op_event (s : state) (off count : nat) : res (state * bool) :=
  if cache s then Ok (s, flag s) else x_test_net_event s off count.

(* The loop of x_last_event: src/rt/model.c:4107-4113 *)
Fixpoint min_last (s : state) (l : list nexus) (count : nat) (last : Z) : res Z :=
  if Nat.eqb count 0 then Ok last
  else
    match l with
    | [] => Fault
    | n :: l =>
        let last := if last_event n <=? now s then Z.min last (now s - last_event n) else last in
        if (count <? width n)%nat then Fault
        else min_last s l (count - width n) last
    end.

(* x_last_event: src/rt/model.c:4095-4116 *)
Definition x_last_event (s : state) (off count : nat) : res (state * Z) :=
  let s := split_nexus s off count in
  do! r <- min_last s (from off (chain s)) count TIME_HIGH;
  Ok (s, r).

(* S'LAST_VALUE: a pointer to the last value, no call; src/lower.c:1346-1357,
   nexus_last_value src/rt/model.c:1086-1089 *)
Definition last_value (s : state) (off count : nat) : list Z := map (lastv s) (seq off count).

(* What processes do to the pieces in the rest of a cycle: asking an attribute, or becoming
   sensitive to a slice and the like, which only splits *)
Inductive query := QEvent (off count : nat) | QLast (off count : nat) | QSplit (off count : nat).
Definition ask (s : state) (q : query) : res state :=
  match q with
  | QEvent off count => do! (s, _) <- op_event s off count; Ok s
  | QLast off count => do! (s, _) <- x_last_event s off count; Ok s
  | QSplit off count => Ok (split_nexus s off count)
  end.
Fixpoint asks (s : state) (qs : list query) : res state :=
  match qs with
  | [] => Ok s
  | q :: qs => do! s <- ask s q; asks s qs
  end.

(* A simulation cycle: model_cycle, src/rt/model.c:3241-3345 *)
Record cycle := Cycle { c_step : step; c_updates : list (nat * list Z); c_queries : list query }.
Definition run_cycle (s : state) (c : cycle) : res state :=
  do! s <- updates (begin_cycle s (c_step c)) (c_updates c);
  do! s <- sync_event_cache s;
  asks s (c_queries c).
Fixpoint run (s : state) (cs : list cycle) : res state :=
  match cs with
  | [] => Ok s
  | c :: cs => do! s <- run_cycle s c; run s cs
  end.
