(* What the numbers of a coverage report mean. *)

From Coq Require Import ZArith List Bool.
From Verif Require Import CoverModel.
Import ListNotations.

(* The items in the scopes below s. *)
Fixpoint items_below (s : scope) : list item :=
  let 'Scope _ _ _ _ _ _ kids := s in flat_map (fun k => s_items k ++ items_below k) kids.

(* The same without the items directly in the scope of an instance. *)
Fixpoint reported_below (s : scope) : list item :=
  let 'Scope _ _ _ _ _ _ kids := s in
  flat_map (fun k => (if s_instance k then [] else s_items k) ++ reported_below k) kids.

(* The items below s that belong to the instance s itself: not in an instance
   below it. *)
Fixpoint own_items (s : scope) : list item :=
  let 'Scope _ _ _ _ _ _ kids := s in
  flat_map (fun k => if s_instance k then [] else s_items k ++ own_items k) kids.

(* All scopes below s. *)
Fixpoint scopes_below (s : scope) : list scope :=
  let 'Scope _ _ _ _ _ _ kids := s in flat_map (fun k => k :: scopes_below k) kids.

(* An item counts as covered when it was hit often enough, when it is
   excluded, or when it cannot be reached and the user asked not to count
   such items. *)
Definition hit_enough (it : item) : Prop := (0 < i_atleast it <= i_data it)%Z.
Definition excluded (it : item) : Prop := Z.testbit (i_flags it) 25 = true.
Definition not_reachable (it : item) : Prop :=
  (i_kind it = KToggle /\ i_data it < 0)%Z \/
  (i_kind it = KExpression /\ Z.testbit (i_flags it) 31 = true).

Definition covered (ignore : bool) (it : item) : Prop :=
  hit_enough it \/ excluded it \/ (ignore = true /\ not_reachable it).

(* n items of the list satisfy P. *)
Inductive number {A} (P : A -> Prop) : list A -> nat -> Prop :=
| number_nil : number P [] 0
| number_yes x l n : P x -> number P l n -> number P (x :: l) (S n)
| number_no x l n : ~ P x -> number P l n -> number P (x :: l) n.

(* Items that describe the same construct are next to each other, have the
   same kind, and the first of them records how many they are. *)
Inductive in_groups : list item -> Prop :=
| groups_nil : in_groups []
| groups_cons it r rest :
    i_consecutive it = Z.of_nat (S (length r)) ->
    (forall x, In x r -> i_kind x = i_kind it) ->
    in_groups rest ->
    in_groups ((it :: r) ++ rest).
