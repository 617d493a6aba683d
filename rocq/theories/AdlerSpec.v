(* Adler-32 as a mathematical function of a byte string. *)
From Coq Require Import List NArith.
Import ListNotations.
Local Open Scope N_scope.

Definition is_byte (b : N) : Prop := b < 256.

Fixpoint total (l : list N) : N := match l with [] => 0 | b :: l' => b + total l' end.

(* One plus the sum of the bytes, modulo the largest prime below 2^16. *)
Definition sumA (l : list N) : N := (1 + total l) mod 65521.

(* The sum of all the values the first sum takes, modulo the same prime. *)
Definition sumB (l : list N) : N :=
  total (map (fun k => 1 + total (firstn k l)) (seq 1 (length l))) mod 65521.

(* The file format packs A above B. *)
Definition adler (l : list N) : N := sumA l * 65536 + sumB l.

(* [l] and [l'] differ in exactly one byte. *)
Definition one_byte_changed (l l' : list N) : Prop :=
  exists p b b' s, l = p ++ b :: s /\ l' = p ++ b' :: s /\ b <> b' /\ b < 256 /\ b' < 256.
