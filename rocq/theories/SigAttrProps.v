(* C87: the attributes 'EVENT, 'LAST_EVENT and 'LAST_VALUE of signals *)
From Coq Require Import List ZArith Arith Bool Lia.
From Verif Require Import Base SigAttrSpec SigAttrModel SigAttrProofs.
Import ListNotations.
Local Open Scope Z_scope.

(* A run of cycles from the elaborated design: the signal in pieces, each with its elements,
   any updates and queries of any slices that are not null. *)
Definition runs (widths : list nat) (init : value) (cs : list cycle) (s : state) : Prop :=
  Forall (fun k => (0 < k)%nat) widths /\
  Forall (fun c => Forall (query_ok (list_sum widths)) (c_queries c)) cs /\
  in_time (At 0 (-1)) (map (fun c => nxt (c_step c)) cs) /\
  run (initial widths init) cs = Ok s.

Definition hist (init : value) (cs : list cycle) : history := history_of init (map what cs) [].

Lemma runs_inv : forall widths init cs s a b, runs widths init cs s ->
  boundary widths a -> boundary widths b -> (a <= b)%nat ->
  inv (list_sum widths) a b init (hist init cs) s /\ synced s.
Proof.
  intros widths init cs s a b (P & V & IT & R) A B L.
  destruct (initial_inv widths init a b P A B L) as [I SY].
  apply (run_inv cs _ _ _ _ _ _ _ I SY V IT R).
Qed.
Lemma bound0 : forall widths, boundary widths 0%nat.
Proof. intros widths. exists [], widths. split; reflexivity. Qed.
Lemma bound_end : forall widths, boundary widths (list_sum widths).
Proof. intros widths. exists widths, []. split; [rewrite app_nil_r; reflexivity|reflexivity]. Qed.

(* S'EVENT of a slice that begins and ends where the elaborated design had cut the signal,
   in particular of a whole signal: it is TRUE exactly when the value changed in this
   cycle.  Whatever was asked before and however the signal was split since, and with the
   cached flag. *)
Theorem C87_event_partial : forall widths init cs s a n, runs widths init cs s ->
  boundary widths a -> boundary widths (a + n) -> (0 < n)%nat ->
  exists s', op_event s a n = Ok (s', is_event a n init (hist init cs)).
Proof.
  intros widths init cs s a n R A B N.
  destruct (runs_inv widths init cs s a (a + n) R A B ltac:(lia)) as [I SY].
  assert (a + n <= list_sum widths)%nat as L
    by (destruct B as (l1 & l2 & -> & <-); rewrite list_sum_app; lia).
  destruct (test_ok _ _ _ _ _ _ a n I SY N L) as (s' & r & E & _ & _ & _ & X).
  exists s'. rewrite E, (X eq_refl eq_refl). reflexivity.
Qed.
Print Assumptions C87_event_partial.

Theorem C87_event_whole : forall widths init cs s, runs widths init cs s ->
  (0 < list_sum widths)%nat ->
  exists s', op_event s 0 (list_sum widths)
             = Ok (s', is_event 0 (list_sum widths) init (hist init cs)).
Proof.
  intros widths init cs s R N.
  apply (C87_event_partial widths init cs s 0 (list_sum widths) R (bound0 _) (bound_end _) N).
Qed.
Print Assumptions C87_event_whole.

(* For every slice an event is never missed, and no query reaches an assertion. *)
Theorem C87_event_not_missed : forall widths init cs s a n, runs widths init cs s ->
  (0 < n)%nat -> (a + n <= list_sum widths)%nat ->
  exists s' r, op_event s a n = Ok (s', r) /\
    (is_event a n init (hist init cs) = true -> r = true).
Proof.
  intros widths init cs s a n R N L.
  destruct (runs_inv widths init cs s 0 (list_sum widths) R (bound0 _) (bound_end _) ltac:(lia))
    as [I SY].
  destruct (test_ok _ _ _ _ _ _ a n I SY N L) as (s' & r & E & _ & _ & X & _).
  exists s', r. split; assumption.
Qed.
Print Assumptions C87_event_not_missed.

(* The assertions of the update phase about the cached flag hold as well. *)
Theorem C87_sync_ok : forall widths init cs s st us s', runs widths init cs s ->
  in_time (At 0 (-1)) (map (fun c => nxt (c_step c)) cs ++ [nxt st]) ->
  updates (begin_cycle s st) us = Ok s' -> exists s2, sync_event_cache s' = Ok s2.
Proof.
  intros widths init cs s st us s' R IT U.
  destruct (runs_inv widths init cs s 0 (list_sum widths) R (bound0 _) (bound_end _) ltac:(lia))
    as [I SY].
  assert (forall h cs, in_time (moment_of h) (map (fun c => nxt (c_step c)) cs ++ [nxt st]) ->
            in_time (moment_of (history_of init (map what cs) h)) [nxt st]) as IN.
  { clear. intros h cs. revert h. induction cs as [|c cs IH]; intros h H; [exact H|].
    cbn [map app in_time] in H. destruct H as (_ & _ & _ & H). cbn [map history_of what].
    apply IH. exact H. }
  apply (IN []) in IT. cbn [in_time] in IT. destruct IT as (F & TL & DL & _).
  destruct (begin_inv _ _ _ _ _ _ _ I F TL DL) as [I1 P1].
  destruct (updates_inv _ _ _ _ _ _ _ _ _ _ I1 P1 U) as [I2 P2].
  destruct (sync_inv _ _ _ _ _ _ I2 P2) as (s3 & E3 & _). exists s3. exact E3.
Qed.
Print Assumptions C87_sync_ok.

(* S'LAST_EVENT likewise *)
Theorem C87_last_event_partial : forall widths init cs s a n, runs widths init cs s ->
  boundary widths a -> boundary widths (a + n) ->
  exists s', x_last_event s a n = Ok (s', since_event a n init (hist init cs) (now s)).
Proof.
  intros widths init cs s a n R A B.
  destruct (runs_inv widths init cs s a (a + n) R A B ltac:(lia)) as [I SY].
  assert (a + n <= list_sum widths)%nat as L
    by (destruct B as (l1 & l2 & -> & <-); rewrite list_sum_app; lia).
  destruct (last_ok _ _ _ _ _ _ a n I SY L) as (s' & r & E & _ & _ & _ & X).
  exists s'. rewrite E, (X eq_refl eq_refl). reflexivity.
Qed.
Print Assumptions C87_last_event_partial.

Theorem C87_last_event_not_later : forall widths init cs s a n, runs widths init cs s ->
  (a + n <= list_sum widths)%nat ->
  exists s' r, x_last_event s a n = Ok (s', r) /\
    r <= since_event a n init (hist init cs) (now s).
Proof.
  intros widths init cs s a n R L.
  destruct (runs_inv widths init cs s 0 (list_sum widths) R (bound0 _) (bound_end _) ltac:(lia))
    as [I SY].
  destruct (last_ok _ _ _ _ _ _ a n I SY L) as (s' & r & E & _ & _ & X & _).
  exists s', r. split; assumption.
Qed.
Print Assumptions C87_last_event_not_later.

(* The time of the model is that of the last cycle, so the two theorems speak of NOW. *)
Theorem C87_now : forall widths init cs s, runs widths init cs s ->
  now s = m_time (moment_of (hist init cs)) /\
  forall i, eff s i = current init (hist init cs) i.
Proof.
  intros widths init cs s R.
  destruct (runs_inv widths init cs s 0 (list_sum widths) R (bound0 _) (bound_end _) ltac:(lia))
    as [I _].
  split; [rewrite (i_clk _ _ _ _ _ _ I); reflexivity|apply I].
Qed.
Print Assumptions C87_now.

(* S'LAST_VALUE of a slice that is still one piece of the signal, in particular of an element
   that the elaborated design had cut out or of a scalar signal, is its value before the
   latest change. *)
Theorem C87_last_value_partial : forall widths init cs s a n, runs widths init cs s ->
  boundary widths a -> boundary widths (a + n) ->
  (exists k, piece (chain s) a k /\ width k = n) ->
  last_value s a n = before_event a n init (hist init cs).
Proof.
  intros widths init cs s a n R A B (k & P & W).
  destruct (runs_inv widths init cs s a (a + n) R A B ltac:(lia)) as [I SY].
  pose proof (i_last _ _ _ _ _ _ I k P ltac:(lia)) as LV.
  replace (a + n - a)%nat with n in LV by lia.
  unfold last_value, before_event. destruct (last_change a n init (hist init cs)) as [[m v]|];
    apply map_ext_in; intros i IN; apply in_seq in IN; apply LV; lia.
Qed.
Print Assumptions C87_last_value_partial.

Theorem C87_last_value_scalar : forall init cs s, runs [1%nat] init cs s ->
  last_value s 0 1 = before_event 0 1 init (hist init cs).
Proof.
  intros init cs s R. apply (C87_last_value_partial [1%nat] init cs s 0 1 R (bound0 _) (bound_end _)).
  destruct (runs_inv _ init cs s 0 1 R (bound0 _) (bound_end _) ltac:(lia)) as [I _].
  destruct (one_piece (chain s) (i_pos _ _ _ _ _ _ I) (i_tot _ _ _ _ _ _ I)) as (k & E & W).
  exists k. split; [|exact W]. rewrite E. apply piece_cons. left. split; reflexivity.
Qed.
Print Assumptions C87_last_value_scalar.

(** ** What is not so *)

Definition zero : value := fun _ => 0.

(* A vector of two elements, never cut.  The first element changes; the second one, asked
   for the first time, is said to have an event and to have changed now. *)
Theorem C87_event_refuted : exists cs s,
  runs [2%nat] zero cs s /\
  is_event 1 1 zero (hist zero cs) = false /\
  since_event 1 1 zero (hist zero cs) (now s) = time_high /\
  (exists s', op_event s 1 1 = Ok (s', true)) /\
  (exists s', x_last_event s 1 1 = Ok (s', 0)).
Proof.
  eexists [Cycle Delta [] []; Cycle (Advance 5) [(0%nat, [1; 0])] []], _.
  split; [|split; [|split; [|split]]].
  - split; [repeat constructor|]. split; [repeat constructor|].
    split; [cbn; unfold time_high; lia|]. reflexivity.
  - reflexivity.
  - reflexivity.
  - eexists. reflexivity.
  - eexists. reflexivity.
Qed.
Print Assumptions C87_event_refuted.

(* An element of a vector that was never cut: when another element changes, its 'LAST_VALUE
   becomes its present value. *)
Theorem C87_last_value_refuted : exists cs s,
  runs [2%nat] zero cs s /\
  before_event 0 1 zero (hist zero cs) = [0] /\ last_value s 0 1 = [1].
Proof.
  eexists [Cycle Delta [] []; Cycle (Advance 5) [(0%nat, [1; 0])] [];
           Cycle (Advance 5) [(0%nat, [1; 1])] []], _.
  split; [|split].
  - split; [repeat constructor|]. split; [repeat constructor|].
    split; [cbn; unfold time_high; lia|]. reflexivity.
  - reflexivity.
  - reflexivity.
Qed.
Print Assumptions C87_last_value_refuted.

(* Asking for the event of an element cuts the signal, and so changes what S'LAST_VALUE of
   the whole signal is later.  Both runs have the same history. *)
Theorem C87_query_changes_refuted : exists cs cs' s s',
  runs [2%nat] zero cs s /\ runs [2%nat] zero cs' s' /\
  map (fun e => (fst e, map (snd e) [0; 1]%nat)) (hist zero cs) =
  map (fun e => (fst e, map (snd e) [0; 1]%nat)) (hist zero cs') /\
  before_event 0 2 zero (hist zero cs) = [1; 0] /\
  last_value s 0 2 = [1; 0] /\ last_value s' 0 2 = [0; 0].
Proof.
  eexists [Cycle Delta [] []; Cycle (Advance 5) [(0%nat, [1; 0])] [];
           Cycle (Advance 5) [(0%nat, [1; 1])] []],
          [Cycle Delta [] [QEvent 1 1]; Cycle (Advance 5) [(0%nat, [1])] [];
           Cycle (Advance 5) [(1%nat, [1])] []], _, _.
  split; [|split; [|split; [|split; [|split]]]].
  - split; [repeat constructor|]. split; [repeat constructor|].
    split; [cbn; unfold time_high; lia|]. reflexivity.
  - split; [repeat constructor|]. split; [repeat constructor; cbn; lia|].
    split; [cbn; unfold time_high; lia|]. reflexivity.
  - reflexivity.
  - reflexivity.
  - reflexivity.
  - reflexivity.
Qed.
Print Assumptions C87_query_changes_refuted.

(* A null slice of a vector of one element: asking for its event while the vector has one
   sets the cached flag to FALSE, and then the vector itself is said to have no event. *)
Theorem C87_null_slice_refuted : exists s s',
  runs [1%nat] zero [Cycle Delta [] []; Cycle (Advance 5) [(0%nat, [1])] []] s /\
  is_event 0 1 zero (hist zero [Cycle Delta [] []; Cycle (Advance 5) [(0%nat, [1])] []]) = true /\
  op_event s 0 0 = Ok (s', false) /\ op_event s' 0 1 = Ok (s', false).
Proof.
  eexists _, _. split; [|split; [|split]].
  - split; [repeat constructor|]. split; [repeat constructor|].
    split; [cbn; unfold time_high; lia|]. reflexivity.
  - reflexivity.
  - reflexivity.
  - reflexivity.
Qed.
Print Assumptions C87_null_slice_refuted.

(* With 65536 delta cycles at one time, an event in a later one is not seen: the number kept
   with it has 16 bits.  That many happen with --stop-delta=65536, which is stored in 16
   bits as well and so means no limit. *)
Theorem C87_delta_refuted : exists s s',
  run (initial [1%nat] zero)
    (repeat (Cycle Delta [] []) (Z.to_nat 65536) ++ [Cycle Delta [(0%nat, [1])] []]) = Ok s /\
  eff s 0%nat = 1 /\ lastv s 0%nat = 0 /\ op_event s 0 1 = Ok (s', false).
Proof.
  eexists _, _. split; [vm_compute; reflexivity|]. split; [reflexivity|].
  split; reflexivity.
Qed.
Print Assumptions C87_delta_refuted.

(* The hypotheses are met: a vector of three elements cut after the first, split again by
   queries, with a delta cycle and two later times. *)
Example signal_runs :
  let cs := [Cycle Delta [] [QEvent 2 1]; Cycle Delta [(0%nat, [7])] [QEvent 0 3; QLast 1 2];
             Cycle (Advance 10) [(1%nat, [4]); (0%nat, [7])] [];
             Cycle (Advance 3) [(2%nat, [5])] [QSplit 0 2]] in
  exists s, runs [1%nat; 2%nat] zero cs s /\
    boundary [1%nat; 2%nat] 1 /\ boundary [1%nat; 2%nat] 3 /\
    since_event 1 2 zero (hist zero cs) (now s) = 0 /\
    since_event 0 1 zero (hist zero cs) (now s) = 13 /\
    before_event 0 1 zero (hist zero cs) = [0].
Proof.
  cbv zeta. eexists. split; [|split; [|split; [|split; [|split]]]].
  - split; [repeat constructor|]. split; [repeat constructor; cbn; lia|].
    split; [cbn; unfold time_high; lia|]. reflexivity.
  - exists [1%nat], [2%nat]. split; reflexivity.
  - exists [1%nat; 2%nat], []. split; reflexivity.
  - reflexivity.
  - reflexivity.
  - reflexivity.
Qed.
