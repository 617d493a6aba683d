(* What it means that a coverage database survives being written and read. *)

From Coq Require Import ZArith NArith List Bool Arith.
From Verif Require Import CoverModel.
Import ListNotations.

(* A location names a file by its index in a table of the process, or none by
   65535. *)
Definition file_name (files : list (list N)) (l : loc) : option (list N) :=
  if (l_file l =? 65535)%Z then None else nth_error files (Z.to_nat (l_file l)).

(* Two locations, each with its table, are the same place. *)
Definition same_place (fa fb : list (list N)) (a b : loc) : Prop :=
  l_line a = l_line b /\ l_column a = l_column b /\
  l_line_delta a = l_line_delta b /\ l_column_delta a = l_column_delta b /\
  file_name fa a = file_name fb b /\ (l_file a = 65535%Z <-> l_file b = 65535%Z).

(* Expressions with two operands have the locations of these, in the bins 00, 01,
   10 and 11 (bits 3 to 6 of the flags). *)
Definition binary (it : item) : Prop :=
  exists i, (3 <= i <= 6)%Z /\ Z.testbit (i_flags it) i = true.

(* Expressions, states and user-defined points have a further name. *)
Definition named (it : item) : Prop :=
  i_kind it = KExpression \/ i_kind it = KState \/ i_kind it = KFunctional.

Record same_item (fa fb : list (list N)) (a b : item) : Prop := {
  si_kind : i_kind b = i_kind a;
  si_tag : i_tag b = i_tag a;
  si_data : i_data b = i_data a;
  si_flags : i_flags b = i_flags a;
  si_source : i_source b = i_source a;
  si_consecutive : i_consecutive b = i_consecutive a;
  si_atleast : i_atleast b = i_atleast a;
  si_metadata : i_metadata b = i_metadata a;
  si_ranges : i_ranges b = i_ranges a;
  si_hier : i_hier b = i_hier a;
  si_loc : same_place fa fb (i_loc a) (i_loc b);
  si_operands : binary a ->
    same_place fa fb (i_loc_lhs a) (i_loc_lhs b) /\ same_place fa fb (i_loc_rhs a) (i_loc_rhs b);
  si_func : named a -> i_func b = i_func a }.

(* Equal trees.  Only instances have the name of a block. *)
Inductive same_scope (fa fb : list (list N)) : scope -> scope -> Prop :=
| same_scope_intro t n h l l' b b' its its' kids kids' :
    same_place fa fb l l' ->
    (t = true -> b' = b) ->
    Forall2 (same_item fa fb) its its' ->
    Forall2 (same_scope fa fb) kids kids' ->
    same_scope fa fb (Scope t n h l b its kids) (Scope t n h l' b' its' kids').

(* A name of a file or an identifier: bytes, none of them zero; a single
   write of a name must fit the buffer. *)
Definition name_fits (n : list N) : Prop :=
  Forall (fun b => 0 < b < 256)%N n /\ (Z.of_nat (length n) < 61440)%Z.

(* An identifier of the writer: its name is not empty, and the process that
   reads gets the identifier from its name. *)
Definition ident_fits (names : ident -> list N) (intern : list N -> ident) (i : ident) : Prop :=
  name_fits (names i) /\ names i <> [] /\ intern (names i) = i.

(* The numbers fit the C types. *)
Definition int32 (v : Z) : Prop := (- 2 ^ 31 <= v < 2 ^ 31)%Z.
Definition int64 (v : Z) : Prop := (- 2 ^ 63 <= v < 2 ^ 63)%Z.

Record loc_fits (files : list (list N)) (l : loc) : Prop := {
  lf_line : (0 <= l_line l < 2 ^ 20)%Z;
  lf_column : (0 <= l_column l < 2 ^ 12)%Z;
  lf_ldelta : (0 <= l_line_delta l < 2 ^ 8)%Z;
  lf_cdelta : (0 <= l_column_delta l < 2 ^ 8)%Z;
  lf_file : l_file l = 65535%Z \/ (0 <= l_file l < Z.of_nat (length files))%Z }.

Record item_fits (ok : ident -> Prop) (files : list (list N)) (it : item) : Prop := {
  if_tag : int32 (i_tag it); if_data : int32 (i_data it); if_flags : int32 (i_flags it);
  if_source : int32 (i_source it); if_cons : int32 (i_consecutive it);
  if_atleast : int32 (i_atleast it); if_metadata : int64 (i_metadata it);
  if_count : (Z.of_nat (length (i_ranges it)) < 2 ^ 31)%Z;
  if_ranges : Forall (fun r => int64 (fst r) /\ int64 (snd r)) (i_ranges it);
  if_hier : ok (i_hier it);
  if_func : forall i, i_func it = Some i -> ok i;
  if_loc : loc_fits files (i_loc it);
  if_lhs : loc_fits files (i_loc_lhs it);
  if_rhs : loc_fits files (i_loc_rhs it) }.

Inductive scope_fits (ok : ident -> Prop) (files : list (list N)) : scope -> Prop :=
| scope_fits_intro t n h l b its kids :
    ok n -> ok h -> (forall i, b = Some i -> ok i) ->
    loc_fits files l -> (Z.of_nat (length its) < 2 ^ 31)%Z ->
    Forall (item_fits ok files) its -> Forall (scope_fits ok files) kids ->
    scope_fits ok files (Scope t n h l b its kids).

(* How many identifiers a scope mentions. *)
Fixpoint mentions (s : scope) : nat :=
  let 'Scope _ _ _ _ _ its kids := s in
  3 + 2 * length its + fold_right (fun k n => mentions k + n) 0 kids.
