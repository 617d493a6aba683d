(* The MT19937 generator as published: a sequence of 32-bit words given by its seed and a
   linear recurrence, and a tempering of each word.  Nothing here refers to the model. *)
From Coq Require Import ZArith.
Local Open Scope Z_scope.

Definition word (x : Z) : Prop := 0 <= x < 2 ^ 32.

(* One step of the recurrence: the upper bit of one word joined with the lower 31 bits of
   the next, shifted right, with the matrix added if a one was shifted out. *)
Definition joined (a b : Z) : Z := 2 ^ 31 * (a / 2 ^ 31) + b mod 2 ^ 31.
Definition twisted (y : Z) : Z :=
  Z.lxor (y / 2) (if y mod 2 =? 0 then 0 else 2567483615).

Definition mt_sequence (seed : Z) (x : nat -> Z) : Prop :=
  x 0%nat = seed mod 2 ^ 32 /\
  (forall i, (1 <= i < 624)%nat ->
     x i = (1812433253 * Z.lxor (x (i - 1)%nat) (x (i - 1)%nat / 2 ^ 30) + Z.of_nat i)
           mod 2 ^ 32) /\
  (forall k, x (k + 624)%nat = Z.lxor (x (k + 397)%nat) (twisted (joined (x k) (x (k + 1)%nat)))).

Definition tempered (y0 : Z) : Z :=
  let y1 := Z.lxor y0 (y0 / 2 ^ 11) in
  let y2 := Z.lxor y1 (Z.land (2 ^ 7 * y1) 2636928640) in
  let y3 := Z.lxor y2 (Z.land (2 ^ 15 * y2) 4022730752) in
  Z.lxor y3 (y3 / 2 ^ 18).
