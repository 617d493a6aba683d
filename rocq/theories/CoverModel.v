(* Coverage databases and the merging of them: src/cov/cov-data.c. *)

From Coq Require Import ZArith List Bool Arith.
From Verif Require Import Base.
Import ListNotations.

(* Interned identifiers (src/ident.c): equal exactly when the strings are, so
   a number stands for one. *)
Definition ident := nat.

(* loc_t, src/diag.h 30-44. *)
Record loc := Loc {
  l_line : Z; l_column : Z; l_line_delta : Z; l_column_delta : Z; l_file : Z }.

(* cover_item_kind_t, src/cov/cov-api.h 24-71. *)
Inductive item_kind := KStmt | KBranch | KToggle | KExpression | KState | KFunctional.

(* cover_item_t, src/cov/cov-api.h 96-150.  n_ranges is the length of the
   list of ranges. *)
Record item := Item {
  i_kind : item_kind;
  i_tag : Z;
  i_data : Z;
  i_flags : Z;
  i_source : Z;
  i_consecutive : Z;
  i_atleast : Z;
  i_metadata : Z;
  i_ranges : list (Z * Z);
  i_loc : loc;
  i_loc_lhs : loc;
  i_loc_rhs : loc;
  i_hier : ident;
  i_func : option ident }.

(* cover_scope_t, src/cov/cov-data.h 91-107.  Left out: the counters that
   number labels, the pragmas and sig_pos, which are not in the database. *)
Inductive scope := Scope
  (instance : bool)         (* type = CSCOPE_INSTANCE *)
  (name hier : ident)
  (l : loc)
  (block : option ident)
  (items : list item)
  (children : list scope).

Definition s_instance (s : scope) := let 'Scope t _ _ _ _ _ _ := s in t.
Definition s_name (s : scope) := let 'Scope _ n _ _ _ _ _ := s in n.
Definition s_hier (s : scope) := let 'Scope _ _ h _ _ _ _ := s in h.
Definition s_loc (s : scope) := let 'Scope _ _ _ l _ _ _ := s in l.
Definition s_block (s : scope) := let 'Scope _ _ _ _ b _ _ := s in b.
Definition s_items (s : scope) := let 'Scope _ _ _ _ _ i _ := s in i.
Definition s_children (s : scope) := let 'Scope _ _ _ _ _ _ c := s in c.

Definition with_items (s : scope) (items : list item) (children : list scope) :=
  let 'Scope t n h l b _ _ := s in Scope t n h l b items children.

Definition with_data (it : item) (d : Z) :=
  {| i_kind := i_kind it; i_tag := i_tag it; i_data := d; i_flags := i_flags it;
     i_source := i_source it; i_consecutive := i_consecutive it;
     i_atleast := i_atleast it; i_metadata := i_metadata it;
     i_ranges := i_ranges it; i_loc := i_loc it; i_loc_lhs := i_loc_lhs it;
     i_loc_rhs := i_loc_rhs it; i_hier := i_hier it; i_func := i_func it |}.

Definition INT_MAX : Z := 2147483647.
Definition INT_MIN : Z := -2147483648.

(* src/util.h 473-478 for int32_t operands: the largest value is given on
   any overflow, also on one below the range. *)
Definition saturate_add (a b : Z) : Z :=
  if ((INT_MIN <=? a + b) && (a + b <=? INT_MAX))%Z then (a + b)%Z else INT_MAX.

(* data & COV_FLAG_UNREACHABLE, the highest bit of an int32_t. *)
Definition unreachable (d : Z) : bool := (d <? 0)%Z.

(* cover_merge_one_item, src/cov/cov-data.c 721-748. *)
Definition merge_one (it : item) (d : Z) : item :=
  match i_kind it with
  | KStmt | KFunctional | KBranch | KState | KExpression =>
      with_data it (saturate_add (i_data it) d)
  | KToggle =>
      if unreachable (i_data it) || unreachable d
      then with_data it INT_MIN
      else with_data it (saturate_add (i_data it) d)
  end.

(* cover_update_counts, 752-763: what the run has counted is added to the
   items; an item whose tag has no counter reads outside the array. *)
Fixpoint update_items (counts : list Z) (its : list item) : res (list item) :=
  match its with
  | [] => Ok []
  | it :: rest =>
      match nth_error counts (Z.to_nat (i_tag it)) with
      | None => Fault
      | Some d => do! rest' <- update_items counts rest; Ok (merge_one it d :: rest')
      end
  end.

Fixpoint update_counts (counts : list Z) (s : scope) : res scope :=
  let 'Scope t n h l b its kids := s in
  do! its' <- update_items counts its;
  do! kids' <- (fix go (ks : list scope) : res (list scope) :=
                  match ks with
                  | [] => Ok []
                  | k :: ks' => do! k' <- update_counts counts k;
                                do! r <- go ks'; Ok (k' :: r)
                  end) kids;
  Ok (Scope t n h l b its' kids').

(* The test of cover_merge_scope, 1168: same path and same flags.  (That the
   kinds are equal too is an assertion.) *)
Definition same_item (a b : item) : bool :=
  (i_hier a =? i_hier b) && (i_flags a =? i_flags b)%Z.

(* The inner loop of cover_merge_scope, 1164-1183, in a build without
   assertions: `old` starts at position p of the array, is moved to the next
   element or, from the last one, to the first, and the loop ends after as
   many visits as there are elements.  When p is beyond the last element the
   loop reads outside the array: Fault.  (AREF at 1159 asserts p < count.)
   visits counts the visits that remain. *)
Fixpoint search (visits : nat) (olds : list item) (p : nat) (new : item) : res (option nat) :=
  match visits with
  | 0 => Ok None
  | S v =>
      match nth_error olds p with
      | None => Fault
      | Some o =>
          if same_item new o then Ok (Some p)
          else search v olds (if p =? length olds - 1 then 0 else S p) new
      end
  end.

Fixpoint replace {A} (l : list A) (p : nat) (x : A) : list A :=
  match l, p with
  | [], _ => []
  | _ :: r, 0 => x :: r
  | y :: r, S p' => y :: replace r p' x
  end.

(* The outer loop, 1156-1189, at new item i with n_added = added. *)
Fixpoint merge_items (news : list item) (i added : nat) (olds : list item) : res (list item) :=
  match news with
  | [] => Ok olds
  | new :: rest =>
      do! found <- search (length olds) olds (i - added) new;
      match found with
      | Some p =>
          match nth_error olds p with
          | Some o => merge_items rest (S i) added (replace olds p (merge_one o (i_data new)))
          | None => Fault
          end
      | None => merge_items rest (S i) (S added) (olds ++ [new])
      end
  end.

(* One round of the loop over the children of the new scope, 1191-1206: the
   first old child of the same name is merged with, or the new child is
   appended. *)
Fixpoint place (merge : scope -> res scope) (new : scope) (kids : list scope) : res (list scope) :=
  match kids with
  | [] => Ok [new]
  | c :: rest =>
      if s_name new =? s_name c then do! c' <- merge c; Ok (c' :: rest)
      else do! rest' <- place merge new rest; Ok (c :: rest')
  end.

(* cover_merge_scope, 1149-1207 (arguments in the other order). *)
Fixpoint merge_scope (new old : scope) : res scope :=
  let 'Scope _ _ _ _ _ nitems nkids := new in
  do! items <- merge_items nitems 0 0 (s_items old);
  do! kids <- (fix go (ns : list scope) (kids : list scope) : res (list scope) :=
                 match ns with
                 | [] => Ok kids
                 | n :: ns' => do! kids' <- place (merge_scope n) n kids; go ns' kids'
                 end) nkids (s_children old);
  Ok (with_items old items kids).

(* cover_data_t, src/cov/cov-data.h 63-74: what is in the file. *)
Record cover_db := Db {
  d_mask : Z; d_array_limit : Z; d_next_tag : Z; d_root : scope }.

(* cover_read_items, src/cov/cov-data.c 1119-1147, given what the file holds:
   the options of the command are added to the ones in the file. *)
Definition read_items (file : cover_db) (pre_mask : Z) : cover_db :=
  Db (Z.lor (d_mask file) pre_mask) (d_array_limit file) (d_next_tag file) (d_root file).

(* cover_merge_items, 1209-1237: cover_read_header (1030-1045) stores the
   header of the file into the data that is there already. *)
Definition merge_file (file data : cover_db) : res cover_db :=
  do! r <- merge_scope (d_root file) (d_root data);
  Ok (Db (d_mask file) (d_array_limit file) (d_next_tag file) r).

(* The loop over the files of the command line: merge_coverage_files, src/nvc.c
   1776-1824, and the same loop in coverage, 1660-1675. *)
Fixpoint merge_more (files : list cover_db) (data : cover_db) : res cover_db :=
  match files with
  | [] => Ok data
  | f :: rest => do! data' <- merge_file f data; merge_more rest data'
  end.

Definition merge_files (rpt_mask : Z) (first : cover_db) (files : list cover_db) : res cover_db :=
  merge_more files (read_items first rpt_mask).
