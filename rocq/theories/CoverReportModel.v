(* The totals of the coverage report by hierarchy: src/cov/cov-report.c. *)

From Coq Require Import ZArith List Bool Arith.
From Verif Require Import Base CoverModel.
Import ListNotations.

Definition COV_FLAG_EXCLUDED_BIT : Z := 25.     (* src/cov/cov-api.h 172 *)
Definition COV_FLAG_UNREACHABLE_BIT : Z := 31.  (* src/cov/cov-api.h 177 *)

(* What of the options and of the world the totals depend on: whether the
   mask has COVER_MASK_EXCLUDE_UNREACHABLE, report_item_limit, and which
   locations belong to a source file that can be opened
   (cover_file_for_scope, 154-205, gives no file for the others). *)
Record options := Options {
  o_unreachable : bool;
  o_limit : nat;
  o_source : loc -> bool }.

(* cover_bin_unreachable, 1020-1038.  (That a toggle item is also flagged
   is left out: nothing that is counted depends on it.) *)
Definition bin_unreachable (o : options) (it : item) : bool :=
  if o_unreachable o then
    match i_kind it with
    | KToggle => unreachable (i_data it)
    | KExpression => Z.testbit (i_flags it) COV_FLAG_UNREACHABLE_BIT
    | _ => false
    end
  else false.

(* cover_chain_t, 66-76: how many items the three lists of a kind hold. *)
Record chain := Chain { n_hits : nat; n_excl : nat; n_miss : nat }.

(* cover_stats_t, 42-55: total and hits of each kind (unsigned in C; here they do
   not wrap). *)
Definition stats := item_kind -> nat * nat.

(* cover_rpt_hier_ctx_t, 105-112, with the counter of skipped items. *)
Record ctx := Ctx {
  c_flat : stats;
  c_nested : stats;
  c_chains : item_kind -> chain;
  c_skipped : nat }.

Definition kind_eqb (a b : item_kind) : bool :=
  match a, b with
  | KStmt, KStmt | KBranch, KBranch | KToggle, KToggle
  | KExpression, KExpression | KState, KState | KFunctional, KFunctional => true
  | _, _ => false
  end.

Definition set {A} (f : item_kind -> A) (k : item_kind) (x : A) : item_kind -> A :=
  fun k' => if kind_eqb k' k then x else f k'.

Definition add_total (st : stats) (k : item_kind) : stats :=
  set st k (S (fst (st k)), snd (st k)).

Definition add_hit (st : stats) (k : item_kind) : stats :=
  set st k (fst (st k), S (snd (st k))).

(* A new context, 1375-1380 and 1426: all zero. *)
Definition empty : ctx :=
  Ctx (fun _ => (0, 0)) (fun _ => (0, 0)) (fun _ => Chain 0 0 0) 0.

Definition count_total (c : ctx) (k : item_kind) : ctx :=
  Ctx (add_total (c_flat c) k) (add_total (c_nested c) k) (c_chains c) (c_skipped c).

Definition count_hit (c : ctx) (k : item_kind) : ctx :=
  Ctx (add_hit (c_flat c) k) (add_hit (c_nested c) k) (c_chains c) (c_skipped c).

Definition with_chain (c : ctx) (k : item_kind) (ch : chain) : ctx :=
  Ctx (c_flat c) (c_nested c) (set (c_chains c) k ch) (c_skipped c).

Definition skip (c : ctx) : ctx :=
  Ctx (c_flat c) (c_nested c) (c_chains c) (S (c_skipped c)).

(* The body of the loop of cover_append_item_to_chain, 1130-1171, for one
   item; k is the kind of the first item.  The result says whether the item
   has been left out for the limit, in which case curr_item is advanced once
   more.  CHAIN_APPEND, 1040-1057: only the length of the list is kept; the
   change of `consecutive` is left out, because it is made to items the
   report has read already. *)
Definition append_one (o : options) (k : item_kind) (it : item) (c : ctx) : ctx * bool :=
  let c := count_total c k in
  let ch := c_chains c k in
  if ((i_atleast it <=? i_data it) && (0 <? i_atleast it))%Z then
    let c := count_hit c k in
    if o_limit o <? n_hits ch then (skip c, true)
    else (with_chain c k (Chain (S (n_hits ch)) (n_excl ch) (n_miss ch)), false)
  else if Z.testbit (i_flags it) COV_FLAG_EXCLUDED_BIT || bin_unreachable o it then
    let c := count_hit c k in
    if o_limit o <? n_excl ch then (skip c, true)
    else (with_chain c k (Chain (n_hits ch) (S (n_excl ch)) (n_miss ch)), false)
  else
    if o_limit o <? n_miss ch then (skip c, true)
    else (with_chain c k (Chain (n_hits ch) (n_excl ch) (S (n_miss ch))), false).

(* The loop, 1130-1171, with `steps` items left, the next being the first of
   `its`.  `pass` is the additional curr_item++. *)
Fixpoint append_loop (o : options) (k : item_kind) (steps : nat) (pass : bool)
    (its : list item) (c : ctx) : res ctx :=
  match steps with
  | 0 => Ok c
  | S n =>
      if pass then append_loop o k n false (tl its) c
      else
        match its with
        | [] => Fault
        | it :: r => let '(c', pass') := append_one o k it c in
                     append_loop o k n pass' r c'
        end
  end.

(* cover_report_hier_scope, 1181-1217, without the children: the items from
   position i on are `its`.  An item whose `consecutive` is zero would keep
   the loop where it is for ever, and a negative one leads before the array:
   Fault.  visits bounds the number of turns. *)
Fixpoint items_loop (o : options) (src : bool) (visits : nat) (its : list item) (c : ctx)
    : res ctx :=
  match its with
  | [] => Ok c
  | it :: r =>
      match visits with
      | 0 => Fault
      | S v =>
          if src then
            if (i_consecutive it <=? 0)%Z then Fault
            else
              let n := Z.to_nat (i_consecutive it) in
              do! c' <- append_loop o (i_kind it) n false its c;
              items_loop o src v (skipn n its) c'
          else items_loop o src v r c
      end
  end.

(* The sums of 1436-1448. *)
Definition add_stats (a b : stats) : stats :=
  fun k => (fst (a k) + fst (b k), snd (a k) + snd (b k)).

(* cover_report_hier_children, 1418-1455, with the recursion through
   cover_report_hier, 1365-1416 (which collects from the children alone), and
   cover_report_hier_scope.  What is printed is left out; so is `lvl`. *)
Fixpoint report_children (o : options) (s : scope) (c : ctx) : res ctx :=
  let 'Scope _ _ _ _ _ _ kids := s in
  (fix go (ks : list scope) (c : ctx) : res ctx :=
     match ks with
     | [] => Ok c
     | k :: ks' =>
         if s_instance k then
           do! sub <- report_children o k empty;
           go ks' (Ctx (c_flat c) (add_stats (c_nested c) (c_nested sub))
                       (c_chains c) (c_skipped c))
         else
           do! c' <- items_loop o (o_source o (s_loc k)) (length (s_items k)) (s_items k) c;
           do! c'' <- report_children o k c';
           go ks' c''
     end) kids c.

(* cover_report_hier, 1365-1416: the page of an instance shows the flat
   numbers, the row in the page of its parent the nested ones. *)
Definition report_hier (o : options) (s : scope) : res ctx := report_children o s empty.

(* The last cell of a row, cover_print_summary_table_row 1236-1243: the
   numbers of which the percentage is printed. *)
Definition average (st : stats) : nat * nat :=
  (fst (st KStmt) + fst (st KBranch) + fst (st KToggle) + fst (st KExpression)
     + fst (st KState) + fst (st KFunctional),
   snd (st KStmt) + snd (st KBranch) + snd (st KToggle) + snd (st KExpression)
     + snd (st KState) + fst (st KFunctional)).
