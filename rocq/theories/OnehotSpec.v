(* Functions on vectors of PSL (IEEE 1850).  Nothing here refers to the model. *)
From Coq Require Import List ZArith.
Import ListNotations.
Local Open Scope Z_scope.

Inductive ulogic := LU | LX | L0 | L1 | LZ | LW | LL | LH | LD.
(* A vector: its range and its elements from left to right *)
Record vector := { left : Z; right : Z; ascending : bool; elems : list ulogic }.
Definition well_formed (v : vector) : Prop :=
  Z.of_nat (length (elems v)) = Z.max 0 (if ascending v then right v - left v + 1 else left v - right v + 1).
Definition is_one (b : ulogic) : Prop := b = L1 \/ b = LH.
Definition is_meta (b : ulogic) : Prop := b = LU \/ b = LX \/ b = LZ \/ b = LW \/ b = LD.
(* The list has exactly n elements that are one *)
Inductive ones : list ulogic -> nat -> Prop :=
| ones_nil : ones [] 0
| ones_yes b l n : is_one b -> ones l n -> ones (b :: l) (S n)
| ones_no b l n : ~ is_one b -> ones l n -> ones (b :: l) n.
