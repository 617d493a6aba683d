(* Where the parts of a value lie in memory. *)
From Coq Require Import List ZArith Bool.
From Verif Require Import Base LayoutModel.
Import ListNotations.
Open Scope Z_scope.

(* ---- one layout ---- *)

Definition inside (p : part) (b : Z) : Prop := poffset p <= b < poffset p + psize p * prepeat p.

(* Every part is aligned and lies within the size and no byte is in two parts. *)
Definition layout_ok (l : layout) : Prop :=
  (forall i p, nth_error (lparts l) i = Some p ->
     (palign p | poffset p) /\ forall b, inside p b -> 0 <= b < lsize l) /\
  (forall i j p q b, nth_error (lparts l) i = Some p -> nth_error (lparts l) j = Some q ->
     inside p b -> inside q b -> i = j).

(* ---- whole values ---- *)

(* A way to place values: the size of each type, the offset of each field of a record,
   and how many elements of an array are stored in place (negative: it is a pointer with
   bounds). *)
Record placement := Placement {
  pl_size : ty -> Z; pl_offset : list ty -> nat -> Z; pl_count : ty -> Z }.

Definition atomic (P : placement) (t : ty) : Prop :=
  match t with
  | TInt _ _ | TReal => True
  | TArray _ _ => pl_count P t < 0
  | TRecord _ => False
  end.

(* [leaf P t path o a]: following [path] (indices of array elements and of record fields)
   in a value of type [t] placed at 0 leads to an object of atomic type [a] at [o]. *)
Inductive leaf (P : placement) : ty -> list nat -> Z -> ty -> Prop :=
| leaf_atom t : atomic P t -> leaf P t [] 0 t
| leaf_elem dims e i path o a : Z.of_nat i < pl_count P (TArray dims e) ->
    leaf P (elem_recur e) path o a ->
    leaf P (TArray dims e) (i :: path) (Z.of_nat i * pl_size P (elem_recur e) + o) a
| leaf_field fs i f path o a : nth_error fs i = Some f -> leaf P f path o a ->
    leaf P (TRecord fs) (i :: path) (pl_offset P fs i + o) a.

(* All objects lie inside the value, and no two of them share a byte. *)
Definition no_overlap (P : placement) (t : ty) : Prop :=
  (forall path o a, leaf P t path o a -> 0 <= o /\ o + pl_size P a <= pl_size P t) /\
  (forall path o a path' o' a' b, leaf P t path o a -> leaf P t path' o' a' ->
     o <= b < o + pl_size P a -> o' <= b < o' + pl_size P a' -> path = path').

(* Objects are at multiples of their size, pointers with bounds at multiples of 8. *)
Definition alignment (P : placement) (a : ty) : Z :=
  match a with TInt _ _ => pl_size P a | _ => 8 end.
Definition well_aligned (P : placement) (t : ty) : Prop :=
  forall path o a, leaf P t path o a -> (alignment P a | o).

(* No type in [t] has a null range. *)
Fixpoint no_null (t : ty) : Prop :=
  match t with
  | TInt low high => low <= high
  | TReal => True
  | TArray _ e => no_null e
  | TRecord fs => fold_right (fun f P => no_null f /\ P) True fs
  end.

(* The placement that readers of jit_layout_t use. *)
Definition layout_size (t : ty) : Z := match layout_of t with Ok l => lsize l | Fault => 0 end.
Definition layout_offset (fs : list ty) (k : nat) : Z :=
  match layout_of (TRecord fs) with
  | Ok l => match nth_error (lparts l) k with Some p => poffset p | None => 0 end
  | Fault => 0
  end.
Definition by_layout : placement := Placement layout_size layout_offset count_sub_elements.

(* The placement used by the generated code. *)
Definition by_code : placement :=
  Placement code_size code_offset (fun t => if const_bounds t then const_size t else -1).

(* ---- agreement ---- *)

(* A record that takes up a multiple of 8 bytes. *)
Definition packs (t : ty) : Prop := match t with TRecord _ => (8 | layout_size t) | _ => True end.

(* Types that the two placements treat alike: ranges are not null; an array that is
   stored in place has fewer than 2^31 elements and nothing open inside it; an open array
   does not have open arrays as elements; a record inside a record or array takes up a
   multiple of 8 bytes. *)
Fixpoint plain (t : ty) : Prop :=
  match t with
  | TInt low high => low <= high
  | TReal => True
  | TArray dims e =>
    if existsb is_open dims
    then match e with TArray _ _ => const_bounds e = true | _ => True end
    else const_bounds e = true /\ const_size t < 2 ^ 31 /\ plain e /\ packs (elem_recur e)
  | TRecord fs => fold_right (fun f P => (plain f /\ packs f) /\ P) True fs
  end.

(* Both placements have the same objects at the same places. *)
Definition same_places (t : ty) : Prop :=
  (forall path o a, leaf by_layout t path o a <-> leaf by_code t path o a) /\
  (forall path o a, leaf by_layout t path o a -> layout_size a = code_size a).

(* Signals: scalars, arrays of them (an open array not of open arrays) and records. *)
Fixpoint plain_signal (t : ty) : Prop :=
  match t with
  | TInt _ _ | TReal => True
  | TArray dims e => homogeneous e = true /\ (const_bounds e = true \/ existsb is_open dims = true /\ match e with TArray _ _ => False | _ => True end)
  | TRecord fs => fold_right (fun f P => plain_signal f /\ P) True fs
  end.

(* [v] can be stored in [s] bytes, with a sign or without. *)
Definition representable (signed : bool) (s v : Z) : Prop :=
  if signed then - 2 ^ (8 * s - 1) <= v < 2 ^ (8 * s - 1) else 0 <= v < 2 ^ (8 * s).
