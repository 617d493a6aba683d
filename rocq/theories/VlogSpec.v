(* Operators of Verilog on four-state values, as in IEEE 1364-2005, 5.1.  A vector is a list of
   bits, the least significant first.  Nothing here refers to the model. *)
From Coq Require Import List ZArith Bool.
Import ListNotations.
Local Open Scope Z_scope.

Inductive logic := LX | LZ | L0 | L1.
Definition known (b : logic) : bool := match b with L0 | L1 => true | _ => false end.
Definition all_known (l : list logic) : bool := forallb known l.

(* Tables 5-12 to 5-16 *)
Definition s_not (a : logic) : logic := match a with L0 => L1 | L1 => L0 | _ => LX end.
Definition s_and (a b : logic) : logic :=
  match a, b with L0, _ | _, L0 => L0 | L1, L1 => L1 | _, _ => LX end.
Definition s_or (a b : logic) : logic :=
  match a, b with L1, _ | _, L1 => L1 | L0, L0 => L0 | _, _ => LX end.
Definition s_xor (a b : logic) : logic :=
  match a, b with
  | L0, L0 | L1, L1 => L0 | L0, L1 | L1, L0 => L1 | _, _ => LX
  end.

(* The shorter operand is extended with zeros. *)
Definition extend (n : nat) (l : list logic) : list logic := l ++ repeat L0 (n - length l).
Definition wider (l r : list logic) : nat := Nat.max (length l) (length r).
Definition pairs (l r : list logic) : list (logic * logic) :=
  combine (extend (wider l r) l) (extend (wider l r) r).
Definition bitwise (f : logic -> logic -> logic) (l r : list logic) : list logic :=
  map (fun p => f (fst p) (snd p)) (pairs l r).

(* The number a vector without unknown bits stands for *)
Fixpoint number (l : list logic) : Z :=
  match l with
  | [] => 0
  | b :: l => (match b with L1 => 1 | _ => 0 end) + 2 * number l
  end.
(* A number in n bits *)
Fixpoint bits (n : nat) (z : Z) : list logic :=
  match n with
  | O => []
  | S n => (if Z.odd z then L1 else L0) :: bits n (z / 2)
  end.

(* Arithmetic: unknown altogether if a bit is *)
Definition s_add (l r : list logic) : list logic :=
  let n := wider l r in
  if all_known l && all_known r then bits n (number l + number r) else repeat LX n.
Definition s_neg (l : list logic) : list logic :=
  if all_known l then bits (length l) (- number l) else repeat LX (length l).

(* Relations *)
Definition of_bool (b : bool) : logic := if b then L1 else L0.
Definition s_less (l r : list logic) : logic :=
  if all_known l && all_known r then of_bool (number l <? number r) else LX.
(* Equality is decided by a difference between known bits. *)
Definition differ (p : logic * logic) : bool :=
  match p with (L0, L1) | (L1, L0) => true | _ => false end.
Definition s_equal (l r : list logic) : logic :=
  if existsb differ (pairs l r) then L0
  else if all_known l && all_known r then L1 else LX.
(* Case equality: all bits are the same. *)
Definition logic_eqb (a b : logic) : bool :=
  match a, b with LX, LX | LZ, LZ | L0, L0 | L1, L1 => true | _, _ => false end.
Definition s_case_equal (l r : list logic) : bool :=
  forallb (fun p => logic_eqb (fst p) (snd p)) (pairs l r).

(* Logical operators: a vector is true if a bit is one, false if all are zero. *)
Definition truth (l : list logic) : logic :=
  if existsb (logic_eqb L1) l then L1
  else if forallb (logic_eqb L0) l then L0 else LX.
Definition s_log_and (l r : list logic) : logic := s_and (truth l) (truth r).
Definition s_log_or (l r : list logic) : logic := s_or (truth l) (truth r).
Definition s_log_not (l : list logic) : logic := s_not (truth l).

(* Reduction *)
Definition s_and_reduce (l : list logic) : logic := fold_right s_and L1 l.
Definition s_or_reduce (l : list logic) : logic := fold_right s_or L0 l.
Definition s_xor_reduce (l : list logic) : logic := fold_right s_xor L0 l.

(* Drivers of equal strength on a wire: Z gives way, equal values stay, others conflict. *)
Definition s_wire2 (a b : logic) : logic :=
  match a, b with
  | LZ, x | x, LZ => x
  | L0, L0 => L0 | L1, L1 => L1 | _, _ => LX
  end.
Definition s_wire (l : list logic) : logic := fold_right s_wire2 LZ l.

(* A result may be less definite than another: x where that one has a value. *)
Definition vague (m s : logic) : Prop := m = LX \/ m = s.
(* All unknown bits of a vector are given some value. *)
Definition settles (a b : logic) : Prop := known b = true /\ (known a = true -> a = b).

(* A vector is written with the most significant bit first. *)
Definition written (l : list logic) : list logic := rev l.

(* The operators of two operands: & | && || === !== == != + - < > <= >= *)
Inductive binary := BAnd | BOr | BLogAnd | BLogOr | BCaseEq | BCaseNeq | BEq | BNeq
  | BPlus | BMinus | BLt | BGt | BLeq | BGeq.
Inductive value := VBits (l : list logic) | VBit (b : logic) | VBool (b : bool).
Definition s_sub (l r : list logic) : list logic :=
  let n := wider l r in
  if all_known l && all_known r then bits n (number l - number r) else repeat LX n.
Definition s_binary (op : binary) (l r : list logic) : value :=
  match op with
  | BAnd => VBits (bitwise s_and l r)
  | BOr => VBits (bitwise s_or l r)
  | BLogAnd => VBit (s_log_and l r)
  | BLogOr => VBit (s_log_or l r)
  | BCaseEq => VBool (s_case_equal l r)
  | BCaseNeq => VBool (negb (s_case_equal l r))
  | BEq => VBit (s_equal l r)
  | BNeq => VBit (s_not (s_equal l r))
  | BPlus => VBits (s_add l r)
  | BMinus => VBits (s_sub l r)
  | BLt => VBit (s_less l r)
  | BGt => VBit (s_less r l)
  | BLeq => VBit (s_not (s_less r l))
  | BGeq => VBit (s_not (s_less l r))
  end.
