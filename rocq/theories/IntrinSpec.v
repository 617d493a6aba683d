(* What the vector operators of IEEE.NUMERIC_STD and STD_LOGIC_1164 mean, on lists of
   std_ulogic values, leftmost element first. *)
From Coq Require Import List ZArith NArith Arith Bool.
From Verif Require Import IntrinModel.
Import ListNotations.

(* 'U' 'X' '0' '1' 'Z' 'W' 'L' 'H' '-' are 0 to 8. *)
Definition std_ulogic (b : N) : Prop := (b < 9)%N.
Definition high (b : N) : bool := (b =? 3)%N || (b =? 7)%N.
Definition low (b : N) : bool := (b =? 2)%N || (b =? 6)%N.
(* Not one of '0' '1' 'L' 'H'. *)
Definition meta (b : N) : bool := negb (high b || low b).
Definition the_X : N := 1.
Definition bit01 (h : bool) : N := if h then 3%N else 2%N.

(* The number a vector without metavalues stands for: UNSIGNED and, in two's complement,
   SIGNED. *)
Definition weight (b : N) : Z := if high b then 1 else 0.
Fixpoint uval (l : list N) : Z :=
  match l with [] => 0 | b :: l' => weight b * 2 ^ Z.of_nat (length l') + uval l' end%Z.
Definition sval (l : list N) : Z :=
  match l with [] => 0 | b :: l' => - weight b * 2 ^ Z.of_nat (length l') + uval l' end%Z.
Definition num (signed : bool) (l : list N) : Z := if signed then sval l else uval l.

Definition clean (l : list N) : Prop := Forall (fun b => b = bit01 true \/ b = bit01 false) l.

(* The result [r] of an operator on [l] and [r']: null if an operand is null, all 'X' if
   an operand holds a metavalue, otherwise '0' and '1' with the given value modulo a
   power of two. *)
Definition operator_result (n : nat) (v : Z) (l r' r : list N) : Prop :=
  if (length l =? 0) || (length r' =? 0) then r = []
  else if existsb meta (l ++ r') then r = repeat the_X n
  else length r = n /\ clean r /\ uval r = (v mod 2 ^ Z.of_nat n)%Z.

(* The ordering operators. *)
Definition relation (o : relop) (a b : Z) : bool :=
  match o with Less => a <? b | Greater => b <? a | Geq => b <=? a | Leq => a <=? b end%Z.

(* TO_01: 'L' and 'H' become '0' and '1'; one metavalue makes every element [x]. *)
Definition to01 (x : N) (l : list N) : list N :=
  if existsb meta l then repeat x (length l) else map (fun b => bit01 (high b)) l.

(* RESIZE: zeros are put in front, or elements dropped there; a SIGNED keeps its sign. *)
Definition resize_u (n : nat) (l : list N) : list N :=
  repeat 2%N (n - length l) ++ skipn (length l - n) l.
Definition resize_s (n : nat) (l : list N) : list N :=
  match n, l with
  | O, _ => []
  | _, [] => repeat 2%N n
  | S n', b :: l' => b :: repeat b (n' - length l') ++ skipn (length l' - n') l'
  end.

(* The tables of STD_LOGIC_1164, as rules. *)
Definition and_rule (a b : N) : N :=
  (if low a || low b then 2 else if (a =? 0) || (b =? 0) then 0 else if high a && high b then 3 else 1)%N.
Definition or_rule (a b : N) : N :=
  (if high a || high b then 3 else if (a =? 0) || (b =? 0) then 0 else if low a && low b then 2 else 1)%N.
Definition xor_rule (a b : N) : N :=
  if ((a =? 0) || (b =? 0))%N then 0%N else if meta a || meta b then 1%N else bit01 (xorb (high a) (high b)).
Definition x01_rule (b : N) : N := (if high b then 3 else if low b then 2 else 1)%N.

(* ---- calls ---- *)

(* The [n] elements from address [p]. *)
Definition vec (m : nat -> N) (p n : nat) : list N := map (fun i => m (p + i)) (seq 0 n).
(* The vector passed in three arguments: its address, its left bound and its length,
   which is complemented for a descending range. *)
Definition size_of (d : Z) : nat := Z.to_nat (if (d <? 0)%Z then Z.lnot d else d).
Definition operand (s : st) (i : nat) : list N := vec (mm s) (Z.to_nat (ar s i)) (size_of (ar s (i + 2))).
(* It lies in memory already in use, has a length that fits an int and holds std_ulogic. *)
Definition valid (s : st) (i : nat) : Prop :=
  Z.to_nat (ar s i) + size_of (ar s (i + 2)) <= nx s /\ (- 2 ^ 31 <= ar s (i + 2) < 2 ^ 31)%Z /\
  Forall std_ulogic (operand s i).

(* The call left alone the memory that was in use before and returned the vector [r],
   in memory in use after it, with the range length-1 downto 0. *)
Definition untouched (s s' : st) : Prop := nx s <= nx s' /\ forall a, a < nx s -> mm s' a = mm s a.
Definition returns (s s' : st) (r : list N) : Prop :=
  untouched s s' /\ Z.to_nat (ar s' 0) + length r <= nx s' /\
  size_of (ar s' 2) = length r /\ vec (mm s') (Z.to_nat (ar s' 0)) (length r) = r /\
  (ar s' 2 < 0)%Z /\ (r <> [] -> ar s' 1 = Z.of_nat (length r) - 1)%Z.
