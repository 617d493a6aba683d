(* When a driver of a signal is active: the transactions scheduled on it, as times, and the
   cycles in which they mature.  Nothing here refers to the model. *)
From Coq Require Import List ZArith Bool.
From Verif Require Import SigAttrSpec.
Import ListNotations.
Local Open Scope Z_scope.

(* An assignment schedules a transaction after a delay and discards some of the earlier
   transactions ([keep] says which of them stay: the rules are those of C07) and all of the
   later ones. *)
Record assignment := Assign { a_after : Z; a_keep : list bool; a_value : Z }.

Fixpoint kept (keep : list bool) (t : Z) (pend : list Z) : list Z :=
  match pend, keep with
  | x :: pend, k :: keep => if (x <? t) && k then x :: kept keep t pend else kept keep t pend
  | _, _ => []
  end.

(* The current time, the times of the pending transactions, whether one matured in this
   cycle, and when one last did *)
Record driver_spec := DSpec { d_now : Z; d_pend : list Z; d_active : bool; d_last : option Z }.

Definition sp_assign (d : driver_spec) (a : assignment) : driver_spec :=
  let t := d_now d + a_after a in
  DSpec (d_now d) (kept (a_keep a) t (d_pend d) ++ [t]) (d_active d) (d_last d).

Definition sp_begin (d : driver_spec) (n : next) : driver_spec :=
  let t := match n with NextDelta => d_now d | NextTime e => d_now d + e end in
  let mature := existsb (Z.eqb t) (d_pend d) in
  DSpec t (filter (fun x => negb (x =? t)) (d_pend d)) mature
        (if mature then Some t else d_last d).

(* A cycle: how it begins and the assignments executed in it, in order *)
Definition sp_cycle (d : driver_spec) (c : next * list assignment) : driver_spec :=
  fold_left sp_assign (snd c) (sp_begin d (fst c)).

(* Before the first cycle the processes run once. *)
Definition sp_start (asg : list assignment) : driver_spec :=
  fold_left sp_assign asg (DSpec 0 [] false None).

Definition sp_since (d : driver_spec) : Z :=
  match d_last d with Some t => d_now d - t | None => time_high end.

(* No pending transaction is passed over: a cycle at a later time comes only when nothing is
   due before it (C08, C09). *)
Definition sp_fair (d : driver_spec) (n : next) : Prop :=
  match n with
  | NextDelta => True
  | NextTime e => forall x, In x (d_pend d) -> d_now d + e <= x
  end.
Fixpoint sp_run (d : driver_spec) (cs : list (next * list assignment)) : driver_spec :=
  match cs with [] => d | c :: cs => sp_run (sp_cycle d c) cs end.
Fixpoint sp_runs (d : driver_spec) (cs : list (next * list assignment)) : Prop :=
  match cs with
  | [] => True
  | c :: cs => sp_fair d (fst c) /\ sp_runs (sp_cycle d c) cs
  end.

(* No delay is negative. *)
Definition nonneg (l : list assignment) : Prop := Forall (fun a => 0 <= a_after a) l.

(* A cycle in which no delayed assignment follows one without delay, unless a delayed one
   came first; this matters until the first cycle with a delayed assignment. *)
Definition unmixed (l : list assignment) : Prop :=
  match l with
  | [] => True
  | a :: _ => a_after a = 0 -> Forall (fun a => a_after a = 0) l
  end.
Definition delayed (l : list assignment) : Prop := Exists (fun a => 0 < a_after a) l.
Fixpoint unmixeds (ls : list (list assignment)) : Prop :=
  match ls with
  | [] => True
  | l :: ls => unmixed l /\ (delayed l \/ unmixeds ls)
  end.
