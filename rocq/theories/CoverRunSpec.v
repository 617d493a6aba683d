(* What the coverage counters are to count. *)

From Coq Require Import ZArith NArith List Bool Arith.
From Verif Require Import Base.
Import ListNotations.

(* Positions in STD_ULOGIC ('U','X','0','1','Z','W','L','H','-'). *)
Definition is_undefined (v : N) : bool := (v =? 0)%N || (v =? 1)%N.
Definition is_0 (v : N) : bool := (v =? 2)%N.
Definition is_1 (v : N) : bool := (v =? 3)%N.
Definition is_Z (v : N) : bool := (v =? 4)%N.

(* A change that counts as one to '1' / to '0', with the options
   count-from-undefined and count-from-to-z. *)
Definition rises (undefined z : bool) (old new : N) : bool :=
  (is_0 old && is_1 new)
  || (undefined && is_undefined old && is_1 new)
  || (z && ((is_0 old && is_Z new) || (is_Z old && is_1 new))).
Definition falls (undefined z : bool) (old new : N) : bool :=
  (is_1 old && is_0 new)
  || (undefined && is_undefined old && is_0 new)
  || (z && ((is_1 old && is_Z new) || (is_Z old && is_0 new))).

(* How many of the events do that to element j of the signal. *)
Definition how_many (p : N -> N -> bool) (j : nat) (events : list (list N * list N)) : Z :=
  Z.of_nat (length (filter (fun e => p (nth j (fst e) 0%N) (nth j (snd e) 0%N)) events)).

(* A count that started at c after n more, kept in an int32_t. *)
Definition counted (c n : Z) : Z := Z.min (c + n) (2 ^ 31 - 1).

(* How many events give the signal the value with position p. *)
Definition entered (p : Z) (events : list Z) : Z :=
  Z.of_nat (length (filter (Z.eqb p) events)).
