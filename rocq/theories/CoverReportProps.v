(* C65: the numbers of the coverage report by hierarchy. *)

From Coq Require Import ZArith List Bool Arith Lia.
From Verif Require Import Base CoverModel CoverReportModel CoverReportSpec CoverReportProofs.
Import ListNotations.

(* The page of an instance s: for every kind of item, the total and the hits
   of the instance are the numbers of its items and of its covered items; the
   nested ones are those of all items below it; the three lists on the page
   hold the items hit often enough, the ones excused, and the others; none is
   left out.  Missing from the full property: the items directly in the scope
   of an instance are in none of the numbers (C65_own_items_refuted); the
   limit on the number of items printed must not be exceeded
   (C65_limit_refuted); all source files must be found
   (C65_source_refuted); and items that belong together must be next to each
   other, which merging can destroy (C65_merged_refuted). *)
Theorem C65_totals_partial o s :
  (forall t, In t (scopes_below s) -> in_groups (s_items t) /\ o_source o (s_loc t) = true) ->
  (forall t, t = s \/ In t (scopes_below s) /\ s_instance t = true ->
     length (own_items t) <= o_limit o) ->
  exists c, report_hier o s = Ok c /\ c_skipped c = 0 /\
    forall k,
      number (fun it => i_kind it = k) (own_items s) (fst (c_flat c k)) /\
      number (fun it => i_kind it = k /\ covered (o_unreachable o) it) (own_items s)
             (snd (c_flat c k)) /\
      number (fun it => i_kind it = k) (reported_below s) (fst (c_nested c k)) /\
      number (fun it => i_kind it = k /\ covered (o_unreachable o) it) (reported_below s)
             (snd (c_nested c k)) /\
      number (fun it => i_kind it = k /\ hit_enough it) (own_items s)
             (n_hits (c_chains c k)) /\
      number (fun it => i_kind it = k /\ ~ hit_enough it /\ covered (o_unreachable o) it)
             (own_items s) (n_excl (c_chains c k)) /\
      number (fun it => i_kind it = k /\ ~ covered (o_unreachable o) it) (own_items s)
             (n_miss (c_chains c k)).
Proof.
  intros H1 H2.
  destruct (report_children_ok o s empty 0) as (c & E & A & SK).
  - split; [exact H1|]. intros t I T. apply H2. now right.
  - apply room_empty.
  - apply H2. now left.
  - exists c. split; [exact E|]. split; [exact SK|]. intros k.
    destruct (A k) as (A1 & A2 & A3 & A4 & A5 & A6 & A7). cbn in A1, A2, A3, A4, A5, A6, A7.
    rewrite A1, A2, A3, A4, A5, A6, A7.
    assert (K : forall it, of k it = true <-> i_kind it = k) by (intros; apply kind_eqb_spec).
    assert (N : forall b, negb b = true <-> ~ b = true) by (intros []; cbn; split; congruence).
    repeat split; apply cnt_number; intros it; rewrite ?andb_true_iff, ?K, ?N, ?hitb_spec,
      ?coveredb_spec; try reflexivity.
    assert (X := coveredb_spec o it). unfold coveredb in X. rewrite orb_true_iff, hitb_spec in X.
    tauto.
Qed.
Print Assumptions C65_totals_partial.

(* When no instance has items directly in its scope, the nested numbers are
   those of all items below s. *)
Theorem C65_all_below s :
  (forall t, In t (scopes_below s) -> s_instance t = true -> s_items t = []) ->
  reported_below s = items_below s.
Proof.
  revert s. apply (CoverProofs.scope_induction (fun s =>
    (forall t, In t (scopes_below s) -> s_instance t = true -> s_items t = []) ->
    reported_below s = items_below s)).
  intros t n h l b its kids IH H.
  assert (E : forall k, In k kids ->
    (if s_instance k then [] else s_items k) ++ reported_below k = s_items k ++ items_below k).
  { intros k I. rewrite IH.
    - destruct (s_instance k) eqn:T; [|reflexivity].
      rewrite (H k); [reflexivity| |exact T]. exact (in_below_self (Scope t n h l b its kids) k I).
    - exact I.
    - intros t' I'. apply H. exact (in_below_trans (Scope t n h l b its kids) k t' I I'). }
  clear IH H. cbn [reported_below items_below].
  induction kids as [|k ks IHk]; [reflexivity|]. cbn [flat_map].
  rewrite E by now left. f_equal. apply IHk. intros k' I. apply E. now right.
Qed.
Print Assumptions C65_all_below.

(* The last column of a row: it adds the kinds up, and is right when all
   functional items are covered. *)
Definition sum_kinds (f : item_kind -> nat) : nat :=
  f KStmt + f KBranch + f KToggle + f KExpression + f KState + f KFunctional.

Theorem C65_average_partial st :
  snd (st KFunctional) = fst (st KFunctional) ->
  average st = (sum_kinds (fun k => fst (st k)), sum_kinds (fun k => snd (st k))).
Proof. intros H. unfold average, sum_kinds. now rewrite H. Qed.
Print Assumptions C65_average_partial.

(* Examples. *)

Definition eloc := Loc 1 1 0 0 0.
Definition ex_item k d flags cons h := Item k 0 d flags 0 cons 1 0 [] eloc eloc eloc h None.
Definition ex_opts limit := Options true limit (fun _ => true).
Definition ex_proc :=
  Scope false 2 2 eloc None
    [ ex_item KStmt 3 0 1 20; ex_item KBranch 0 1 2 21; ex_item KBranch 5 2 1 21 ] [].
Definition ex_sig :=
  Scope false 3 3 eloc None
    [ ex_item KToggle 0 65536 2 30; ex_item KToggle 1 32768 1 30 ] [].
Definition ex_sub := Scope true 4 4 eloc (Some 8) []
  [ Scope false 5 5 eloc None
      [ ex_item KToggle INT_MIN 65536 2 50; ex_item KToggle INT_MIN 32768 1 50 ] [] ].
Definition ex_top := Scope true 1 1 eloc (Some 9) [] [ex_proc; ex_sig; ex_sub].

Lemma ex_groups : forall t, In t (scopes_below ex_top) ->
  in_groups (s_items t) /\ o_source (ex_opts 5) (s_loc t) = true.
Proof.
  cbn. intros t [<-|[<-|[<-|[<-|[]]]]]; (split; [|reflexivity]); cbn [s_items].
  - apply (groups_cons (ex_item KStmt 3 0 1 20) [] [ex_item KBranch 0 1 2 21; ex_item KBranch 5 2 1 21]);
      [reflexivity|intros x []|].
    apply (groups_cons (ex_item KBranch 0 1 2 21) [ex_item KBranch 5 2 1 21] []);
      [reflexivity|intros x [<-|[]]; reflexivity|constructor].
  - apply (groups_cons (ex_item KToggle 0 65536 2 30) [ex_item KToggle 1 32768 1 30] []);
      [reflexivity|intros x [<-|[]]; reflexivity|constructor].
  - constructor.
  - apply (groups_cons (ex_item KToggle INT_MIN 65536 2 50) [ex_item KToggle INT_MIN 32768 1 50] []);
      [reflexivity|intros x [<-|[]]; reflexivity|constructor].
Qed.

Example C65_example : exists c, report_hier (ex_opts 5) ex_top = Ok c /\
  map (c_flat c) [KStmt; KBranch; KToggle] = [(1, 1); (2, 1); (2, 1)] /\
  map (c_nested c) [KStmt; KBranch; KToggle] = [(1, 1); (2, 1); (4, 3)] /\
  c_chains c KBranch = Chain 1 0 1.
Proof. eexists. split; [vm_compute; reflexivity|]. vm_compute. auto. Qed.

Example C65_hypotheses :
  forall t, t = ex_top \/ In t (scopes_below ex_top) /\ s_instance t = true ->
    length (own_items t) <= o_limit (ex_opts 5).
Proof.
  intros t [->|[I T]]; [cbn; lia|].
  cbn in I. destruct I as [<-|[<-|[<-|[<-|[]]]]]; try discriminate T; cbn; lia.
Qed.

(* C65 fails: an item directly in the scope of an instance is in none of the
   numbers, neither on the page of the instance nor on that of its parent. *)
Theorem C65_own_items_refuted : exists o s it c,
  In it (items_below s) /\ i_kind it = KExpression /\
  (forall t, In t (scopes_below s) -> in_groups (s_items t)) /\
  report_hier o s = Ok c /\ c_nested c KExpression = (0, 0).
Proof.
  pose (it := ex_item KExpression 0 1 1 40).
  pose (inst := Scope true 4 4 eloc (Some 8) [it] []).
  exists (ex_opts 5), (Scope true 1 1 eloc (Some 9) [] [inst]), it. eexists.
  split; [now left|]. split; [reflexivity|].
  split; [|split; [vm_compute; reflexivity|reflexivity]].
  cbn. intros t [<-|[]]. apply (groups_cons it [] []); [reflexivity|intros x []|constructor].
Qed.
Print Assumptions C65_own_items_refuted.

(* C65 fails: beyond the limit every second item of a group is not counted,
   and the numbers depend on a limit meant for what is printed. *)
Theorem C65_limit_refuted : exists s c c',
  (forall t, In t (scopes_below s) -> in_groups (s_items t)) /\
  report_hier (ex_opts 1) s = Ok c /\ report_hier (ex_opts 5) s = Ok c' /\
  length (items_below s) = 5 /\
  c_nested c' KState = (5, 0) /\ c_nested c KState = (4, 0) /\ c_skipped c = 2.
Proof.
  pose (g := [ex_item KState 0 128 4 12; ex_item KState 0 128 3 13; ex_item KState 0 128 2 14;
              ex_item KState 0 128 1 15]).
  exists (Scope true 1 1 eloc (Some 9) []
            [Scope false 2 2 eloc None (ex_item KState 0 128 5 11 :: g) []]).
  eexists. eexists. split; [|split; [vm_compute; reflexivity|split; [vm_compute; reflexivity|]]].
  - cbn [scopes_below flat_map app]. intros t [<-|[]]. cbn [s_items].
    rewrite <- (app_nil_r (_ :: g)).
    apply groups_cons; [reflexivity| |constructor].
    intros x I. cbn in I. destruct I as [<-|[<-|[<-|[<-|[]]]]]; reflexivity.
  - vm_compute. auto.
Qed.
Print Assumptions C65_limit_refuted.

(* C65 fails: items of a scope whose source file is not found are not
   counted. *)
Theorem C65_source_refuted : exists o s c,
  (forall t, In t (scopes_below s) -> in_groups (s_items t)) /\
  length (items_below s) = 1 /\ report_hier o s = Ok c /\ c_nested c KStmt = (0, 0).
Proof.
  exists (Options true 5 (fun l => negb (l_file l =? 0)%Z)),
    (Scope true 1 1 eloc (Some 9) [] [Scope false 2 2 eloc None [ex_item KStmt 0 0 1 20] []]).
  eexists. split; [|split; [reflexivity|split; [vm_compute; reflexivity|reflexivity]]].
  cbn. intros t [<-|[]]. apply (groups_cons (ex_item KStmt 0 0 1 20) [] []);
    [reflexivity|intros x []|constructor].
Qed.
Print Assumptions C65_source_refuted.

(* C65 fails: the items of two states of a machine whose lowest state depends
   on a generic.  Each database is in order by itself, but merging appends
   the item the first does not have, and its group now leads behind the
   array. *)
Theorem C65_merged_refuted : exists o old new m,
  (forall t, In t (scopes_below old) -> in_groups (s_items t)) /\
  (forall t, In t (scopes_below new) -> in_groups (s_items t)) /\
  merge_scope new old = Ok m /\ report_hier o m = Fault.
Proof.
  pose (b := ex_item KState 1 128 1 12). pose (a := ex_item KState 1 128 2 11).
  pose (leaf := fun its => Scope false 2 2 eloc None its []).
  pose (top := fun its => Scope true 1 1 eloc (Some 9) [] [leaf its]).
  exists (ex_opts 5), (top [b]), (top [a; b]). eexists.
  split; [|split; [|split; [vm_compute; reflexivity|vm_compute; reflexivity]]].
  - cbn. intros t [<-|[]]. apply (groups_cons b [] []); [reflexivity|intros x []|constructor].
  - cbn. intros t [<-|[]]. apply (groups_cons a [b] []); [reflexivity| |constructor].
    intros x [<-|[]]. reflexivity.
Qed.
Print Assumptions C65_merged_refuted.

(* C65 fails: the last column counts every functional item as covered. *)
Theorem C65_average_refuted : exists o s c,
  report_hier o s = Ok c /\ c_nested c KFunctional = (1, 0) /\
  average (c_nested c) = (1, 1).
Proof.
  exists (ex_opts 5),
    (Scope true 1 1 eloc (Some 9) [] [Scope false 2 2 eloc None [ex_item KFunctional 0 0 1 20] []]).
  eexists. split; [vm_compute; reflexivity|]. split; reflexivity.
Qed.
Print Assumptions C65_average_refuted.
