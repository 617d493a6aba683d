(* Specification of projected output waveforms: sortedness, preemption and the
   marking rule of IEEE 1076 section 10.5.2.2 ("updating a projected output
   waveform"), over lists of (time, value). *)
From Coq Require Import List NArith Bool Sorted.
Import ListNotations.
Open Scope N_scope.

Section Spec.
Context {V : Type} (eqv : V -> V -> bool).

Definition waveform := list (N * V).

Definition strictly_increasing (w : waveform) : Prop := StronglySorted N.lt (map fst w).

(* IEEE 1076: (a) all old transactions projected to occur at or after the new
   one are deleted; (b) for inertial delay with pulse rejection limit [r], an
   old transaction is marked if its time is less than T - r, or if it
   immediately precedes a marked transaction with the same value; unmarked
   transactions are deleted.  The new transaction is marked.  [lrm_marked]
   returns, for the list of old transactions before T followed by the new one,
   the marks of the old ones together with the surviving list. *)
Fixpoint lrm_marked (T r : N) (v : V) (w : waveform) : waveform * (bool * V) :=
  match w with
  | [] => ([(T, v)], (true, v))
  | (t, x) :: w' =>
    let '(kept, (succ_marked, succ_val)) := lrm_marked T r v w' in
    let marked := (t + r <? T) || (succ_marked && eqv x succ_val) in
    (if marked then (t, x) :: kept else kept, (marked, x))
  end.

Definition lrm_assign (T r : N) (v : V) (w : waveform) : waveform :=
  fst (lrm_marked T r v (filter (fun tv => fst tv <? T) w)).

(* The weaker contract of C06: what an assignment at time T with rejection
   limit r may do. *)
Definition preempts (T r : N) (v : V) (w w' : waveform) : Prop :=
  strictly_increasing w' /\
  In (T, v) w' /\
  (forall t x, In (t, x) w' -> (t, x) = (T, v) \/ (In (t, x) w /\ t < T)) /\
  (forall t x, In (t, x) w -> t + r < T -> In (t, x) w').

(* An ideal driver history: time, current value, future waveform.  Waking a
   driver at time t is legal if no transaction is overdue. *)
Inductive sop : Type :=
| SAssign (after reject : N) (v : V)
| SWake (t : N).

Definition legal (now : N) (w : waveform) (op : sop) : Prop :=
  match op with
  | SAssign after reject _ => reject <= after /\ now + after < 2 ^ 63
  | SWake t => now <= t /\ t < 2 ^ 63 /\ Forall (fun tv => t <= fst tv) w
  end.
End Spec.
Arguments sop : clear implicits.
