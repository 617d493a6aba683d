(* What the attributes of a signal say, in terms of the history of its values.

   A signal of [w] scalar elements has a value that is a function of the position.  A
   history lists the simulation cycles so far, the latest first: when the cycle was, and
   the value the signal had after its update phase.  Nothing here refers to the model. *)
From Coq Require Import List ZArith Bool.
Import ListNotations.
Local Open Scope Z_scope.

Definition value := nat -> Z.
Record moment := At { m_time : Z; m_delta : Z }.
Definition history := list (moment * value).

(* TIME'HIGH in femtoseconds *)
Definition time_high : Z := 2 ^ 63 - 1.

(* Two values agree on the [n] elements from position [a] *)
Definition same (a n : nat) (v v' : value) : bool :=
  forallb (fun i => v i =? v' i) (seq a n).

Definition current (init : value) (h : history) : value :=
  match h with [] => init | (_, v) :: _ => v end.

(* The latest cycle in which the slice changed, and the value before that cycle *)
Fixpoint last_change (a n : nat) (init : value) (h : history) : option (moment * value) :=
  match h with
  | [] => None
  | (m, v) :: h =>
      if same a n v (current init h) then last_change a n init h
      else Some (m, current init h)
  end.

(* S'EVENT: the value changed in the current cycle *)
Definition is_event (a n : nat) (init : value) (h : history) : bool :=
  match h with
  | [] => false
  | (_, v) :: h => negb (same a n v (current init h))
  end.

(* S'LAST_EVENT: the time since the latest change *)
Definition since_event (a n : nat) (init : value) (h : history) (now : Z) : Z :=
  match last_change a n init h with
  | Some (m, _) => now - m_time m
  | None => time_high
  end.

(* S'LAST_VALUE: the value before the latest change *)
Definition before_event (a n : nat) (init : value) (h : history) : list Z :=
  match last_change a n init h with
  | Some (_, v) => map v (seq a n)
  | None => map (current init h) (seq a n)
  end.

(* The history of a run, from what happens in each cycle: a delta cycle, or an advance of
   time, and new values for some elements. *)
Inductive next := NextDelta | NextTime (d : Z).
Definition after (m : moment) (n : next) : moment :=
  match n with
  | NextDelta => At (m_time m) (m_delta m + 1)
  | NextTime d => At (m_time m + d) 0
  end.
Definition assign (off : nat) (vs : list Z) (v : value) : value :=
  fun i => if (off <=? i)%nat && (i <? off + length vs)%nat then nth (i - off) vs 0 else v i.
Fixpoint assigns (us : list (nat * list Z)) (v : value) : value :=
  match us with
  | [] => v
  | (off, vs) :: us => assigns us (assign off vs v)
  end.
Definition moment_of (h : history) : moment :=
  match h with [] => At 0 (-1) | (m, _) :: _ => m end.
Fixpoint history_of (init : value) (cs : list (next * list (nat * list Z))) (h : history) : history :=
  match cs with
  | [] => h
  | (n, us) :: cs =>
      history_of init cs ((after (moment_of h) n, assigns us (current init h)) :: h)
  end.

(* Time moves forward, stays below TIME'HIGH, and fewer than 65536 delta cycles happen at
   any time. *)
Definition forward (n : next) : Prop :=
  match n with NextDelta => True | NextTime d => 0 < d end.
Fixpoint in_time (m : moment) (ns : list next) : Prop :=
  match ns with
  | [] => True
  | n :: ns =>
      forward n /\ m_time (after m n) < time_high /\ m_delta (after m n) < 65536 /\
      in_time (after m n) ns
  end.
