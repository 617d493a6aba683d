(* What sizes and changes of kind are for. *)

From Coq Require Import NArith List Bool Arith Relations.
Import ListNotations.

(* Kinds an object can go through, in either direction. *)
Definition related (changes : list (nat * nat)) : nat -> nat -> Prop :=
  clos_refl_sym_trans nat (fun a b => In (a, b) changes).
