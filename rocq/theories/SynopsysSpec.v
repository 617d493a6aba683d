(* What the operators of the Synopsys packages mean, beside IntrinSpec.v. *)
From Coq Require Import List ZArith NArith Arith Bool.
From Verif Require Import IntrinModel IntrinSpec.
Import ListNotations.

(* The number of warnings after an operator: one more for each operand that holds a
   metavalue. *)
Definition warned (L R : list N) (w : nat) : nat :=
  (if existsb meta L then 1 else 0) + (if existsb meta R then 1 else 0) + w.

(* "=": an operand with a metavalue is all 'X', and 'X' is equal to 'X'. *)
Definition syn_equal (signed : bool) (L R : list N) : bool :=
  match existsb meta L, existsb meta R with
  | true, true => true
  | false, false => (num signed L =? num signed R)%Z
  | _, _ => false
  end.

(* The sign of the shorter operand is '0' or '1', not 'L' or 'H'. *)
Definition strong_sign (L R : list N) : Prop :=
  (length L < length R -> hd 2%N L = 2%N \/ hd 2%N L = 3%N) /\ (length R < length L -> hd 2%N R = 2%N \/ hd 2%N R = 3%N).
