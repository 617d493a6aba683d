(* What the predefined operators of VHDL mean on arrays and records (IEEE 1076-2008,
   5.3.2.4, 9.2.2, 9.2.3 and 9.2.4), independently of the code. *)
From Coq Require Import List ZArith Bool.
Import ListNotations.
Local Open Scope Z_scope.

(* A one-dimensional array: its bounds, whether the range ascends, and its elements from
   left to right. *)
Record arr (A : Type) := Arr { aleft : Z; aright : Z; ato : bool; adata : list A }.
Arguments Arr {A}.
Arguments aleft {A}.
Arguments aright {A}.
Arguments ato {A}.
Arguments adata {A}.

(* There is one element for each index, and the memory can be addressed. *)
Definition arr_ok {A} (a : arr A) : Prop :=
  Z.of_nat (length (adata a)) =
  Z.max 0 (if ato a then aright a - aleft a + 1 else aleft a - aright a + 1) /\
  Z.of_nat (length (adata a)) < 2 ^ 60.

(* The same index range with other elements. *)
Definition with_data {A B} (a : arr A) (d : list B) : arr B := Arr (aleft a) (aright a) (ato a) d.

(* ---- shift operators, 9.2.4 ---- *)

Inductive shift := SLL | SRL | SLA | SRA | ROL | ROR.

(* The basic operation, on a vector of at least one element; '0' or FALSE is 0. *)
Definition basic (s : shift) (v : list Z) : list Z :=
  let leftmost := hd 0 v in
  let rightmost := last v 0 in
  match s with
  | SLL => tl v ++ [0]
  | SLA => tl v ++ [rightmost]
  | ROL => tl v ++ [leftmost]
  | SRL => 0 :: removelast v
  | SRA => leftmost :: removelast v
  | ROR => rightmost :: removelast v
  end.

Definition opposite (s : shift) : shift :=
  match s with
  | SLL => SRL | SRL => SLL | SLA => SRA | SRA => SLA | ROL => ROR | ROR => ROL
  end.

(* "If R is 0 or L is a null array, the return value is L.  Otherwise, a basic shift
   operation replaces L R times.  If R is negative, the value is L op' -R." *)
Definition shifted (s : shift) (v : list Z) (n : Z) : list Z :=
  match v with
  | [] => []
  | _ =>
    if 0 <=? n then Nat.iter (Z.to_nat n) (basic s) v
    else Nat.iter (Z.to_nat (- n)) (basic (opposite s)) v
  end.

(* ---- matching operators, 9.2.3 ---- *)

Inductive logic9 := LU | LX | L0 | L1 | LZ | LW | LL | LH | LD.

(* What an element says: nothing set, don't care, unknown, or a bit. *)
Inductive meaning := Uninit | Dontcare | Unknown | Bit (b : bool).
Definition meaning_of (a : logic9) : meaning :=
  match a with
  | LU => Uninit
  | LD => Dontcare
  | L0 | LL => Bit false
  | L1 | LH => Bit true
  | LX | LZ | LW => Unknown
  end.
Definition bit9 (b : bool) : logic9 := if b then L1 else L0.

(* "?=": don't care matches anything, then U, then unknown. *)
Definition match_eq (a b : logic9) : logic9 :=
  match meaning_of a, meaning_of b with
  | Dontcare, _ | _, Dontcare => L1
  | Uninit, _ | _, Uninit => LU
  | Bit x, Bit y => bit9 (Bool.eqb x y)
  | _, _ => LX
  end.

(* "?<": it is an error if an operand is don't care, and the result is X. *)
Definition match_lt (a b : logic9) : logic9 :=
  match meaning_of a, meaning_of b with
  | Dontcare, _ | _, Dontcare => LX
  | Uninit, _ | _, Uninit => LU
  | Bit x, Bit y => bit9 (negb x && y)
  | _, _ => LX
  end.
Definition lt_error (a b : logic9) : bool :=
  match meaning_of a, meaning_of b with
  | Dontcare, _ | _, Dontcare => true
  | _, _ => false
  end.

(* The logical operators of STD_LOGIC_1164. *)
Definition not9 (a : logic9) : logic9 :=
  match meaning_of a with Uninit => LU | Bit x => bit9 (negb x) | _ => LX end.
Definition or9 (a b : logic9) : logic9 :=
  match meaning_of a, meaning_of b with
  | Bit true, _ | _, Bit true => L1
  | Uninit, _ | _, Uninit => LU
  | Bit false, Bit false => L0
  | _, _ => LX
  end.

Inductive matching := MEq | MNeq | MLt | MLe | MGt | MGe.

(* Of two elements, and whether the error for don't care is reported. *)
Definition matched (m : matching) (a b : logic9) : logic9 * bool :=
  match m with
  | MEq => (match_eq a b, false)
  | MNeq => (not9 (match_eq a b), false)
  | MLt => (match_lt a b, lt_error a b)
  | MLe => (or9 (match_lt a b) (match_eq a b), lt_error a b)
  | MGt => (not9 (or9 (match_lt a b) (match_eq a b)), lt_error a b)
  | MGe => (not9 (match_lt a b), lt_error a b)
  end.

(* Of two vectors of the same length: 0 if some elements do not match, otherwise U if
   some comparison gives U, otherwise X if one gives X, otherwise 1. *)
Definition logic9_eqb (a b : logic9) : bool :=
  match a, b with
  | LU, LU | LX, LX | L0, L0 | L1, L1 | LZ, LZ | LW, LW | LL, LL | LH, LH | LD, LD => true
  | _, _ => false
  end.
Definition has (v : logic9) (l : list logic9) : bool := existsb (logic9_eqb v) l.
Definition vector_match (a b : list logic9) : logic9 :=
  let l := map (fun p => match_eq (fst p) (snd p)) (combine a b) in
  if has L0 l then L0 else if has LU l then LU else if has LX l then LX else L1.

(* Of BIT, '0' < '1'. *)
Definition matched_bit (m : matching) (a b : bool) : bool :=
  match m with
  | MEq => Bool.eqb a b
  | MNeq => negb (Bool.eqb a b)
  | MLt => negb a && b
  | MLe => negb a || b
  | MGt => a && negb b
  | MGe => a || negb b
  end.

(* ---- ordering and equality, 9.2.3 ---- *)

(* "The relation < for discrete arrays": a null array is less than one that is not, and
   otherwise the leftmost elements decide, or the rest if they are equal. *)
Fixpoint less (l r : list Z) : bool :=
  match l, r with
  | [], [] => false
  | [], _ :: _ => true
  | _ :: _, [] => false
  | x :: l, y :: r => if x =? y then less l r else x <? y
  end.

Inductive rel := RLt | RLe | RGt | RGe.
Definition ordered (k : rel) (l r : list Z) : bool :=
  match k with
  | RLt => less l r
  | RLe => negb (less r l)
  | RGt => less r l
  | RGe => negb (less l r)
  end.

(* Values of composite types: an array has the lengths of its dimensions and its
   elements, the last index varying fastest. *)
Inductive value :=
| Scalar (z : Z)
| Array (dims : list nat) (elems : list value)
| Rec (fields : list value).

Definition product (dims : list nat) : nat := fold_right Nat.mul 1%nat dims.

(* The element at some position, counted from the left in each dimension. *)
Fixpoint position (dims idx : list nat) : option nat :=
  match dims, idx with
  | [], [] => Some O
  | d :: dims, i :: idx =>
    if Nat.ltb i d then
      match position dims idx with
      | Some k => Some (i * product dims + k)%nat
      | None => None
      end
    else None
  | _, _ => None
  end.
Definition element (dims : list nat) (elems : list value) (idx : list nat) : option value :=
  match position dims idx with Some k => nth_error elems k | None => None end.

(* "Two array values are equal if and only if for each element of the left operand there
   is a matching element of the right operand, and vice versa, and the matching elements
   are equal." *)
Inductive same : value -> value -> Prop :=
| same_scalar z : same (Scalar z) (Scalar z)
| same_record l r : Forall2 same l r -> same (Rec l) (Rec r)
| same_array d l d' r :
    (forall idx x, element d l idx = Some x ->
                   exists y, element d' r idx = Some y /\ same x y) ->
    (forall idx y, element d' r idx = Some y -> exists x, element d l idx = Some x) ->
    same (Array d l) (Array d' r).

(* Types: vectors have any length, arrays of more dimensions a given shape. *)
Inductive ty :=
| TScalar
| TVector (elem : ty)
| TShaped (dims : list nat) (elem : ty)
| TRec (fields : list ty).

Inductive of_type : ty -> value -> Prop :=
| of_scalar z : of_type TScalar (Scalar z)
| of_vector t l : Forall (of_type t) l -> Z.of_nat (length l) < 2 ^ 60 ->
                  of_type (TVector t) (Array [length l] l)
| of_shaped t dims l : dims <> [] -> Forall (of_type t) l -> length l = product dims -> Z.of_nat (length l) < 2 ^ 60 ->
                       of_type (TShaped dims t) (Array dims l)
| of_record ts l : Forall2 of_type ts l -> of_type (TRec ts) (Rec l).

(* How deep types are nested. *)
Fixpoint nesting (t : ty) : nat :=
  match t with
  | TScalar => 1
  | TVector t | TShaped _ t => S (nesting t)
  | TRec l => S (fold_right (fun t n => Nat.max (nesting t) n) O l)
  end%nat.

(* ---- logical operators, 9.2.2 ---- *)

Inductive logical := LAnd | LOr | LNand | LNor | LXor | LXnor.
Definition logic (k : logical) (a b : bool) : bool :=
  match k with
  | LAnd => a && b
  | LOr => a || b
  | LNand => negb (a && b)
  | LNor => negb (a || b)
  | LXor => xorb a b
  | LXnor => negb (xorb a b)
  end.

(* The unary operators: all elements, some element, an odd number of elements. *)
Definition reduced (k : logical) (l : list bool) : bool :=
  let all := forallb (fun b => b) l in
  let some := existsb (fun b => b) l in
  let odd := Nat.odd (length (filter (fun b => b) l)) in
  match k with
  | LAnd => all
  | LNand => negb all
  | LOr => some
  | LNor => negb some
  | LXor => odd
  | LXnor => negb odd
  end.

(* MAXIMUM and MINIMUM of an array, 5.3.2.4: an element at least, or at most, as large
   as the others; T'LOW or T'HIGH if there is none. *)
Definition extreme (maximum : bool) (low high : Z) (l : list Z) (v : Z) : Prop :=
  match l with
  | [] => v = if maximum then low else high
  | _ => In v l /\ Forall (fun x => if maximum then x <= v else v <= x) l
  end.
