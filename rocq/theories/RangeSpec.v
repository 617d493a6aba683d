(* Ranges of VHDL (IEEE 1076, 3.1, 3.2.1, 8.4, 8.5, 10.10): the values that belong to one, their
   number and order, and the places of the elements of an array.  Nothing here refers to the
   model. *)
From Coq Require Import List ZArith.
Import ListNotations.
Local Open Scope Z_scope.

Inductive direction := To | Downto.
Record range := Range { r_left : Z; r_right : Z; r_dir : direction }.

Definition belongs (r : range) (i : Z) : Prop :=
  match r_dir r with
  | To => r_left r <= i <= r_right r
  | Downto => r_right r <= i <= r_left r
  end.
Definition is_null (r : range) : Prop := forall i, ~ belongs r i.

(* The values from left to right *)
Definition size (r : range) : Z :=
  match r_dir r with
  | To => Z.max 0 (r_right r - r_left r + 1)
  | Downto => Z.max 0 (r_left r - r_right r + 1)
  end.
Definition nth_value (r : range) (k : Z) : Z :=
  match r_dir r with To => r_left r + k | Downto => r_left r - k end.
Definition values (r : range) : list Z :=
  map (fun k => nth_value r (Z.of_nat k)) (seq 0 (Z.to_nat (size r))).

(* The place of the element with index i, counted from the left *)
Definition place (r : range) (i : Z) : Z :=
  match r_dir r with To => i - r_left r | Downto => r_left r - i end.
(* Several dimensions: the last index varies fastest *)
Definition total (rs : list range) : Z := fold_right (fun r n => size r * n) 1 rs.
Fixpoint place_in (rs : list range) (is : list Z) : Z :=
  match rs, is with
  | r :: rs, i :: is => place r i * total rs + place_in rs is
  | _, _ => 0
  end.

(* A loop over a list of values; the body says if it leaves the loop. *)
Fixpoint run {S : Type} (body : S -> Z -> S * bool) (vs : list Z) (st : S) : S :=
  match vs with
  | [] => st
  | v :: vs => let '(st, leave) := body st v in if leave then st else run body vs st
  end.
