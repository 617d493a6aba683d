(* Signal values in memory.  Nothing here refers to the model. *)
From Coq Require Import List Arith NArith.
Import ListNotations.

Definition memory := nat -> N.
Definition inside (a n x : nat) : Prop := a <= x < a + n.
Definition disjoint (a b n : nat) : Prop := forall x, inside a n x -> inside b n x -> False.
Definition equal_at (m : memory) (a b n : nat) : Prop := forall i, i < n -> m (a + i) = m (b + i).
(* The bytes of the second place go to the first and those of the source to the second; all others
   stay. *)
Definition shifted (m : memory) (p1 p2 src n : nat) (m' : memory) : Prop :=
  (forall i, i < n -> m' (p1 + i) = m (p2 + i)) /\
  (forall i, i < n -> m' (p2 + i) = m (src + i)) /\
  (forall x, ~ inside p1 n x -> ~ inside p2 n x -> m' x = m x).
