(* What the marks are for: whether the traversal has met the object before. *)

From Coq Require Import NArith List Bool Arith.
Import ListNotations.

(* The answers to questions (traversal, object), in order. *)
Inductive answers : list (N * nat) -> list (N * nat) -> list bool -> Prop :=
| answers_nil before : answers before [] []
| answers_cons before q r rest rs :
    (r = true <-> In q before) -> answers (before ++ [q]) rest rs ->
    answers before (q :: rest) (r :: rs).

(* Traversals of one arena come one after the other, and fewer than 65536 are
   started from one to the next. *)
Fixpoint in_turn (last : N) (qs : list (N * nat)) : Prop :=
  match qs with
  | [] => True
  | (g, _) :: rest => (last <= g < last + 65536)%N /\ in_turn g rest
  end.

Definition one_after_another (qs : list (N * nat)) : Prop :=
  match qs with [] => True | (g, _) :: _ => in_turn g qs end.
