(* What the digits of Verilog numbers mean. *)
From Coq Require Import List NArith Bool.
From Verif Require Import Base NumberModel.
Import ListNotations.
Open Scope N_scope.

Inductive logic := X | Z | L0 | L1.
Definition code (v : logic) : N := match v with X => 0 | Z => 1 | L0 => 2 | L1 => 3 end.
Definition defined (v : logic) : Prop := v = L0 \/ v = L1.

(* Bytes with any strength in the upper bits that hold the vector [v], most significant
   digit first. *)
Definition holds (bits : list N) (v : list logic) : Prop := map (fun b => b mod 4) bits = map code v.

(* [n] has exactly the digits [v], most significant first. *)
Definition has_digits (n : number) (v : list logic) : Prop :=
  number_width n = N.of_nat (length v) /\
  forall i, (i < length v)%nat ->
    number_bit n (N.of_nat i) = Ok (code (nth (length v - 1 - i) v X)).

(* Vectors of these kinds are kept. *)
Definition kept (v : list logic) : Prop :=
  (Forall defined v /\ (length v <= 32)%nat) \/ (length v <= 28)%nat \/ exists k, length v = (32 * k)%nat.

(* The value of a vector of 0 and 1. *)
Definition value (v : list logic) : N := fold_left (fun a d => 2 * a + match d with L1 => 1 | _ => 0 end) v 0.

(* ---- literals ---- *)

(* The digits a character stands for; [None]: not a digit of this radix. *)
Definition bin_digit (c : N) : option (list logic) :=
  match c with
  | 48 => Some [L0] | 49 => Some [L1] | 120 => Some [X] | 122 => Some [Z]
  | _ => None
  end.
Definition hex_digit (c : N) : option (list logic) :=
  match c with
  | 48 => Some [L0; L0; L0; L0] | 49 => Some [L0; L0; L0; L1]
  | 50 => Some [L0; L0; L1; L0] | 51 => Some [L0; L0; L1; L1]
  | 52 => Some [L0; L1; L0; L0] | 53 => Some [L0; L1; L0; L1]
  | 54 => Some [L0; L1; L1; L0] | 55 => Some [L0; L1; L1; L1]
  | 56 => Some [L1; L0; L0; L0] | 57 => Some [L1; L0; L0; L1]
  | 97 | 65 => Some [L1; L0; L1; L0] | 98 | 66 => Some [L1; L0; L1; L1]
  | 99 | 67 => Some [L1; L1; L0; L0] | 100 | 68 => Some [L1; L1; L0; L1]
  | 101 | 69 => Some [L1; L1; L1; L0] | 102 | 70 => Some [L1; L1; L1; L1]
  | 120 => Some [X; X; X; X] | 122 => Some [Z; Z; Z; Z]
  | _ => None
  end.

(* [spells r s v]: the characters [s], in which underscores do not count, spell [v]. *)
Inductive spells (digit : N -> option (list logic)) : list N -> list logic -> Prop :=
| sp_nil : spells digit [] []
| sp_digit c s d v : digit c = Some d -> spells digit s v -> spells digit (c :: s) (d ++ v)
| sp_under s v : spells digit s v -> spells digit (95 :: s) v.

(* [v] cut or filled up with zeros on the left to [w] digits. *)
Definition fit (w : nat) (v : list logic) : list logic :=
  skipn (length v - w) (repeat L0 (w - length v) ++ v).

Definition upper (c : N) : Prop := 65 <= c <= 70.
