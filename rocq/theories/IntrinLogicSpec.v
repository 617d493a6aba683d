(* What the operators of STD_LOGIC_1164 return, beside the rules in IntrinSpec.v. *)
From Coq Require Import List ZArith NArith Arith Bool.
From Verif Require Import IntrinModel IntrinSpec IntrinLogicModel.
Import ListNotations.

Definition logic_rule (o : logic) : N -> N -> N := match o with And => and_rule | Or => or_rule | Xor => xor_rule end.

(* Element by element. *)
Fixpoint pairwise (f : N -> N -> N) (l r : list N) : list N :=
  match l, r with a :: l', b :: r' => f a b :: pairwise f l' r' | _, _ => [] end.

(* As [returns], with the range 1 to length. *)
Definition returns_to (s s' : st) (r : list N) : Prop :=
  untouched s s' /\ Z.to_nat (ar s' 0) + length r <= nx s' /\
  ar s' 1 = 1%Z /\ ar s' 2 = Z.of_nat (length r) /\ vec (mm s') (Z.to_nat (ar s' 0)) (length r) = r.

(* As [valid], for an array of any elements of one byte. *)
Definition bytes_valid (s : st) (i : nat) : Prop :=
  (- 2 ^ 31 <= ar s (i + 2) < 2 ^ 31)%Z /\ Forall (fun b => (b < 256)%N) (operand s i).
