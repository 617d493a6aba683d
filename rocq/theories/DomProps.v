(* C42: dominator sets are exact. *)
From Coq Require Import List Arith Bool Lia.
From Verif Require Import Base MaskModel MaskProofs MaskRun CfgModel DomModel DomSpec DomProofs.
Import ListNotations.

(* For every unit whose terminators name existing blocks: the flow graph is built, the
   passes over the blocks end, and then testing block [d] in the set of block [i] tells
   whether [d] lies on every path from where control enters the unit to [i]. *)
Theorem C42_dominators : forall u, unit_ok u ->
  exists c dom, mir_get_cfg u = Ok c /\ mir_dominator_tree (length u) c = Ok dom /\
    forall i d, i < length u -> d < length u ->
      exists b, mask_test (dom i) d = Ok b /\ (b = true <-> dominates u d i).
Proof.
  intros u U. destruct (get_cfg_is u U) as (c & E & C).
  destruct (dominator_tree_ok u U c C) as (dom & D & E2 & B & X).
  exists c, dom. split; [exact E|]. split; [exact E2|]. intros i d I Hd.
  exists (D i d). split; [|now apply X]. now apply (denotes_test (length u)).
Qed.
Print Assumptions C42_dominators.

(* What mir_get_cfg computes, block by block. *)
Theorem C42_flow_graph : forall u, unit_ok u -> exists c, mir_get_cfg u = Ok c /\
  forall i, i < length u ->
    (entry (c i) = true <-> enters u i) /\
    (forall j, j < ecount (cin (c i)) -> exists p, get_edge (cin (c i)) j = Ok p /\ goes u p i) /\
    (forall p, goes u p i -> exists j, j < ecount (cin (c i)) /\ get_edge (cin (c i)) j = Ok p) /\
    (forall j, j < ecount (cout (c i)) -> exists q, get_edge (cout (c i)) j = Ok q /\ goes u i q) /\
    (forall q, goes u i q -> exists j, j < ecount (cout (c i)) /\ get_edge (cout (c i)) j = Ok q).
Proof.
  intros u U. destruct (get_cfg_is u U) as (c & E & C). exists c. split; [exact E|]. intros i I.
  split; [now apply cfg_entry|].
  destruct C as (_ & R). destruct (R i) as (ps & os & P & O & IP & IO).
  assert (ACC : forall e l (Q : nat -> Prop), CfgProofs.elist_is e l -> (forall p, In p l <-> Q p) ->
    (forall j, j < ecount e -> exists p, get_edge e j = Ok p /\ Q p) /\
    (forall p, Q p -> exists j, j < ecount e /\ get_edge e j = Ok p)).
  { intros e l Q L IQ. pose proof (proj1 L) as LEN. split.
    - intros j J. destruct (CfgProofs.get_edge_ok e l j L) as (p & E1 & E2); [lia|].
      exists p. split; [exact E1|]. apply IQ. eapply nth_error_In; eauto.
    - intros p H. apply IQ, In_nth_error in H as (j & J).
      assert (JL : j < length l) by (apply nth_error_Some; congruence).
      exists j. split; [lia|]. destruct (CfgProofs.get_edge_ok e l j L JL) as (p' & E1 & E2). congruence. }
  destruct (ACC _ _ (fun p => goes u p i) P) as (A1 & A2).
  { intros p. rewrite IP. unfold goes. split.
    - intros (ts & _ & A & B). now exists ts.
    - intros (ts & A & B). exists ts. repeat split; try assumption. apply nth_error_Some. congruence. }
  destruct (ACC _ _ (fun q => goes u i q) O) as (A3 & A4).
  { intros p. rewrite IO. unfold goes. split.
    - intros (ts & _ & A & B). now exists ts.
    - intros (ts & A & B). now exists ts. }
  repeat split; assumption.
Qed.
Print Assumptions C42_flow_graph.

(* A process with a loop, a wait inside it, a join and two blocks nothing leads to; the
   blocks are not numbered in the order in which they run. *)
Definition demo : munit :=
  [ Goto [4]; Goto [3; 2]; Goto [5]; Goto [5]; Goto [1]; Goto [6; 4]; Wait 7; Goto [4]; Goto [9]; Goto [8] ].

Example demo_ok : unit_ok demo.
Proof. unfold unit_ok, demo. repeat constructor. Qed.

Example demo_dom :
  (do! c <- mir_get_cfg demo;
   do! dom <- mir_dominator_tree 10 c;
   Ok (map (fun i => filter (fun d => match mask_test (dom i) d with Ok b => b | Fault => false end) (seq 0 10))
           (seq 0 10)))
  = Ok [[0]; [1; 4]; [1; 2; 4]; [1; 3; 4]; [4]; [1; 4; 5]; [1; 4; 5; 6]; [7];
        [0; 1; 2; 3; 4; 5; 6; 7; 8; 9]; [0; 1; 2; 3; 4; 5; 6; 7; 8; 9]].
Proof. vm_compute. reflexivity. Qed.

(* ... and by hand: block 1 is on every path to block 6, block 3 is not. *)
Example demo_paths : dominates demo 1 6 /\ ~ dominates demo 3 6.
Proof.
  split.
  - destruct (C42_dominators demo demo_ok) as (c & dom & E1 & E2 & X).
    destruct (X 6 1) as (b & T & <-); [cbn; lia..|].
    vm_compute in E1. injection E1 as <-. vm_compute in E2. injection E2 as <-.
    vm_compute in T. congruence.
  - intros D. specialize (D [6; 5; 2; 1; 4; 0]). cbn in D.
    assert (P : path demo 6 [6; 5; 2; 1; 4; 0]).
    { apply path_go with 5; [apply path_go with 2; [apply path_go with 1; [apply path_go with 4;
        [apply path_go with 0; [apply path_enter; split; [cbn; lia|now left]|]|]|]|]|];
      eexists; (split; [reflexivity|cbn; tauto]). }
    specialize (D P). intuition discriminate.
Qed.
