(* Model of barriers, src/thread.c:1467-1494.

   A step is one access to a shared word of one thread; memory is sequentially
   consistent.  Spinning is a step that changes nothing. *)
From Coq Require Import List Arith NArith Bool.
From Verif Require Import Base.
Import ListNotations.

Definition INTS : N := 4294967296.   (* passed is 32 bits wide and is only compared *)

Inductive pc :=
| BIdle
| BLoad                  (* passed = b->passed *)
| BAdd (p : N)           (* fetch and add on b->reached *)
| BReset (p : N)         (* last thread: b->reached = 0 *)
| BPass (p : N)          (* last thread: b->passed = passed + 1 *)
| BSpin (p : N).         (* wait until b->passed differs *)

(* [entered t] and [left t] count the calls of barrier_wait that thread t began
   and completed; [arrived t] counts its fetch-and-adds and [gen] the stores to
   passed.  The code has none of the four. *)
Record sys := Sys {
  reached : nat; passed : N; pcs : nat -> pc;
  entered : nat -> nat; left : nat -> nat; arrived : nat -> nat; gen : nat }.

(* barrier_new, src/thread.c:1467-1472 *)
Definition init : sys :=
  Sys 0 0%N (fun _ => BIdle) (fun _ => 0) (fun _ => 0) (fun _ => 0) 0.

Definition set_pc (st : sys) (t : nat) (p : pc) : sys :=
  Sys (reached st) (passed st) (upd (pcs st) t p) (entered st) (left st) (arrived st) (gen st).
Definition bump (f : nat -> nat) (t : nat) : nat -> nat := upd f t (S (f t)).

(* barrier_wait, src/thread.c:1479-1494; [n] is b->count. *)
Definition step (n : nat) (st : sys) (t : nat) : sys :=
  match pcs st t with
  | BIdle => st
  | BLoad => set_pc st t (BAdd (passed st))
  | BAdd p =>
    Sys (S (reached st)) (passed st)
      (upd (pcs st) t (if reached st =? n - 1 then BReset p else BSpin p))
      (entered st) (left st) (bump (arrived st) t) (gen st)
  | BReset p =>
    Sys 0 (passed st) (upd (pcs st) t (BPass p)) (entered st) (left st) (arrived st) (gen st)
  | BPass p =>
    Sys (reached st) (N.modulo (p + 1) INTS) (upd (pcs st) t BIdle)
      (entered st) (bump (left st) t) (arrived st) (S (gen st))
  | BSpin p =>
    if (passed st =? p)%N then st
    else Sys (reached st) (passed st) (upd (pcs st) t BIdle)
           (entered st) (bump (left st) t) (arrived st) (gen st)
  end.

Inductive event := Call (t : nat) | Step (t : nat).

Definition do_event (n : nat) (st : sys) (e : event) : sys :=
  match e with
  | Call t =>
    match pcs st t with
    | BIdle => Sys (reached st) (passed st) (upd (pcs st) t BLoad)
                 (bump (entered st) t) (left st) (arrived st) (gen st)
    | _ => st
    end
  | Step t => step n st t
  end.

Definition run (n : nat) (st : sys) (es : list event) : sys := fold_left (do_event n) es st.
