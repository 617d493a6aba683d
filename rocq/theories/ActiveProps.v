(* C88: S'ACTIVE and S'LAST_ACTIVE report the transactions that matured. *)
From Coq Require Import List ZArith Bool Lia.
From Verif Require Import Base SigAttrModel SigAttrSpec ActiveSpec ActiveModel ActiveProofs.
Import ListNotations.
Local Open Scope Z_scope.

(* A run: the assignments before the first cycle, the cycles, and the last cycle up to the
   moment of the question *)
Definition good_run (first : list assignment) (cs : list (next * list assignment)) : Prop :=
  nonneg first /\ Forall (fun c => nonneg (snd c)) cs /\
  in_time (At 0 (-1)) (map fst cs) /\ sp_runs (sp_start first) cs /\
  unmixeds (first :: map snd cs).
Definition model_run (v : Z) (first : list assignment) (cs : list (next * list assignment)) : res dstate :=
  do! s <- drives (dinitial v) first; drun s cs.
Definition spec_run (first : list assignment) (cs : list (next * list assignment)) : driver_spec :=
  sp_run (sp_start first) cs.

Lemma run_any v first cs : good_run first cs ->
  exists s, model_run v first cs = Ok s /\ (quiet s (spec_run first cs) \/ busy s (spec_run first cs)).
Proof.
  intros (N0 & N & IT & FR & U). unfold model_run, spec_run. cbn [unmixeds] in U. destruct U as (U0 & U).
  destruct (drives_ok first _ _ (initial_quiet v) N0 (fun _ => U0)) as (s & E & QB & T & I & _ & D).
  rewrite E. cbn [bind]. apply run_ok; try assumption.
  - intros F. destruct U as [X|X]; [|exact X]. rewrite (D (or_introl X)) in F. discriminate.
  - rewrite T, I. exact IT.
Qed.

Lemma drun_app cs1 : forall s cs2, drun s (cs1 ++ cs2) = (do! s <- drun s cs1; drun s cs2).
Proof.
  induction cs1 as [|[n l] cs1 IH]; intros s cs2; cbn [drun app]; [reflexivity|].
  destruct (drives (dbegin s n) l); cbn [bind]; [apply IH|reflexivity].
Qed.
Lemma sp_run_app cs1 : forall d cs2, sp_run d (cs1 ++ cs2) = sp_run (sp_run d cs1) cs2.
Proof. induction cs1; intros; cbn [sp_run app]; auto. Qed.
Lemma sp_runs_app cs1 : forall d cs2, sp_runs d (cs1 ++ cs2) <-> sp_runs d cs1 /\ sp_runs (sp_run d cs1) cs2.
Proof. induction cs1; intros; cbn [sp_runs sp_run app]; [tauto|]. rewrite IHcs1. tauto. Qed.
Lemma in_time_app ns1 : forall m ns2, in_time m (ns1 ++ ns2) -> in_time m ns1.
Proof. induction ns1; intros m ns2 H; cbn [in_time app] in *; [exact Logic.I|]. destruct H as (? & ? & ? & H). repeat split; eauto. Qed.
Lemma unmixeds_app l1 : forall l2, unmixeds (l1 ++ l2) -> unmixeds l1.
Proof. induction l1 as [|l l1 IH]; intros l2 H; cbn [unmixeds app] in *; [exact Logic.I|]. destruct H as (H & [D|X]); split; eauto. Qed.

(* In the last cycle, before any undelayed assignment of it (or always, if a delayed one came in an
   earlier cycle): what the attributes return is what the specification says. *)
Lemma last_quiet v first cs n l :
  good_run first (cs ++ [(n, l)]) ->
  Forall (fun a => 0 < a_after a) l \/ Exists delayed (first :: map snd cs) ->
  exists s, model_run v first (cs ++ [(n, l)]) = Ok s /\ quiet s (spec_run first (cs ++ [(n, l)])).
Proof.
  intros (N0 & N & IT & FR & U) Z. unfold model_run, spec_run. cbn [unmixeds] in U. destruct U as (U0 & U).
  destruct (drives_ok first _ _ (initial_quiet v) N0 (fun _ => U0)) as (s & E & QB & T & I & _ & D).
  fold (sp_start first) in QB. rewrite E. cbn [bind].
  assert (P : fast s = true -> unmixeds (map snd (cs ++ [(n, l)]))).
  { intros F. destruct U as [X|X]; [|exact X]. rewrite (D (or_introl X)) in F. discriminate. }
  assert (Z' : Forall (fun a => 0 < a_after a) l \/ fast s = false \/ Exists delayed (map snd cs)).
  { destruct Z as [Z|Z]; [auto|]. inversion Z as [? ? X|? ? X]; subst; auto. }
  assert (IT' : in_time (At (d_time s) (d_iter s)) (map fst (cs ++ [(n, l)]))) by (rewrite T, I; exact IT).
  clear - QB P Z' IT' N FR. revert s QB P Z' IT' N FR. generalize (sp_start first) as d.
  induction cs as [|[n0 l0] cs IH]; intros d s QB P Z IT N FR.
  - cbn [app map fst snd in_time sp_runs drun sp_run unmixeds sp_cycle] in *. unfold sp_cycle. cbn [fst snd].
    destruct IT as (FW & TL & DL & _). destruct FR as (FR & _). inversion N as [|? ? N1 N2]; subst. cbn [snd] in N1.
    destruct (begin_step s d n QB FW TL DL FR) as (Q1 & F1 & A1).
    destruct (drives_ok l _ _ Q1 N1 ltac:(rewrite F1; intros F; exact (proj1 (P F)))) as (s2 & E2 & QB2 & T2 & I2 & G & D2).
    rewrite E2. cbn [bind]. exists s2. split; [reflexivity|]. apply G.
    destruct Z as [Z|[Z|Z]]; [left; exact Z|right; rewrite F1; exact Z|inversion Z].
  - cbn [app map fst snd in_time sp_runs drun sp_run unmixeds] in *.
    destruct IT as (FW & TL & DL & IT). destruct FR as (FR & FRS). inversion N as [|? ? N1 N2]; subst. cbn [snd] in N1.
    destruct (begin_step s d n0 QB FW TL DL FR) as (Q1 & F1 & A1).
    destruct (drives_ok l0 _ _ Q1 N1 ltac:(rewrite F1; intros F; exact (proj1 (P F)))) as (s2 & E2 & QB2 & T2 & I2 & _ & D2).
    rewrite E2. cbn [bind]. apply IH; try assumption.
    + intros F. destruct (fast s) eqn:Fs.
      * destruct (proj2 (P eq_refl)) as [X|X]; [|exact X]. rewrite (D2 (or_introl X)) in F. discriminate.
      * rewrite (D2 (or_intror F1)) in F. discriminate.
    + destruct Z as [Z|[Z|Z]]; [left; exact Z| |].
      * right. left. apply D2. right. rewrite F1. exact Z.
      * inversion Z as [? ? X|? ? X]; subst; [|auto]. right. left. apply D2. left. exact X.
    + rewrite T2, I2, A1. exact IT.
Qed.

(* S'ACTIVE is TRUE exactly when a transaction of the driver matured in this cycle.  What is
   missing is a question after an undelayed assignment in the same cycle, and runs in which
   a delayed assignment followed one: see the refutations below. *)
Theorem C88_active_partial : forall v first cs n l,
  good_run first (cs ++ [(n, l)]) ->
  Forall (fun a => 0 < a_after a) l \/ Exists delayed (first :: map snd cs) ->
  exists s, model_run v first (cs ++ [(n, l)]) = Ok s /\
    nexus_active s = d_active (spec_run first (cs ++ [(n, l)])).
Proof.
  intros v first cs n l G Z. destruct (last_quiet v first cs n l G Z) as (s & E & Q).
  exists s. split; [exact E|]. exact (quiet_active _ _ Q).
Qed.

(* S'LAST_ACTIVE is the time since the last one that matured, TIME'HIGH if there is none. *)
Theorem C88_last_active_partial : forall v first cs n l,
  good_run first (cs ++ [(n, l)]) ->
  Forall (fun a => 0 < a_after a) l \/ Exists delayed (first :: map snd cs) ->
  exists s, model_run v first (cs ++ [(n, l)]) = Ok s /\
    nexus_last_active s = sp_since (spec_run first (cs ++ [(n, l)])).
Proof.
  intros v first cs n l G Z. destruct (last_quiet v first cs n l G Z) as (s & E & Q).
  exists s. split; [exact E|]. exact (quiet_last _ _ Q).
Qed.

(* The assertion on the fast path never fails, and a signal that was assigned without delay
   in a cycle is active in the next delta cycle, equal value or not. *)
Theorem C88_assigned_active : forall v first cs n l a l',
  good_run first (cs ++ [(n, l ++ [a]); (NextDelta, l')]) ->
  a_after a = 0 -> Forall (fun a => 0 < a_after a) l' ->
  exists s, model_run v first (cs ++ [(n, l ++ [a]); (NextDelta, l')]) = Ok s /\ nexus_active s = true.
Proof.
  intros v first cs n l a l' G A L'.
  assert (AP : cs ++ [(n, l ++ [a]); (NextDelta, l')] = (cs ++ [(n, l ++ [a])]) ++ [(NextDelta, l')])
    by (rewrite <- app_assoc; reflexivity).
  rewrite AP in *.
  destruct (C88_active_partial v first _ NextDelta l' G (or_introl L')) as (s & E & EA).
  exists s. split; [exact E|]. rewrite EA. unfold spec_run. rewrite !sp_run_app. cbn [sp_run].
  unfold sp_cycle at 1. cbn [fst snd].
  assert (FL : forall l d, d_active (fold_left sp_assign l d) = d_active d).
  { induction l0 as [|x l0 IH]; intros d; cbn [fold_left]; [reflexivity|]. rewrite IH. reflexivity. }
  rewrite FL. unfold sp_begin at 1. cbn [d_active]. unfold sp_cycle. cbn [fst snd].
  rewrite fold_left_app. cbn [fold_left]. unfold sp_assign at 1 3. cbn [d_pend d_now].
  rewrite existsb_app, A. cbn [existsb]. rewrite Z.add_0_r.
  replace (d_now (sp_assign _ a)) with (d_now (fold_left sp_assign l (sp_begin (sp_run (sp_start first) cs) n))) by reflexivity.
  rewrite Z.eqb_refl. rewrite orb_true_r. reflexivity.
Qed.
Theorem C88_no_fault : forall v first cs, good_run first cs -> exists s, model_run v first cs = Ok s.
Proof. intros v first cs G. destruct (run_any v first cs G) as (s & E & _). exists s. exact E. Qed.

(* The transactions still to come are those of the specification: nothing is lost or
   invented by the two paths. *)
Theorem C88_pending : forall v first cs n l,
  good_run first (cs ++ [(n, l)]) ->
  Forall (fun a => 0 < a_after a) l \/ Exists delayed (first :: map snd cs) ->
  exists s, model_run v first (cs ++ [(n, l)]) = Ok s /\
    w_next s = d_pend (spec_run first (cs ++ [(n, l)])) /\ fastqueued s = false.
Proof.
  intros v first cs n l G Z. destruct (last_quiet v first cs n l G Z) as (s & E & Q).
  exists s. split; [exact E|]. split; [exact (q_pend _ _ Q)|exact (q_queue _ _ Q)].
Qed.

Ltac good :=
  unfold good_run, nonneg, unmixed; cbn; unfold time_high;
  repeat match goal with
  | |- _ /\ _ => split
  | |- Forall _ _ => constructor
  | |- True => exact Logic.I
  | |- forall x, In x _ -> _ => let H := fresh "H" in intros ? H; vm_compute in H; intuition (subst; lia)
  | |- _ = 0 -> _ => intros
  | |- delayed ?l \/ _ => (left; solve [repeat (first [apply Exists_cons_hd; cbn; lia | apply Exists_cons_tl])]) || right
  end; cbn in *; try lia; auto.

(* In a cycle where the signal is not active, an undelayed assignment can make S'ACTIVE TRUE:
   the time of the assignment and the delta cycle of an earlier activity are compared with
   the present. *)
Definition refute_run : list (next * list assignment) :=
  [(NextDelta, [Assign 0 [] 1]); (NextDelta, []); (NextTime 10, []); (NextDelta, [Assign 0 [] 2])].
Theorem C88_active_too_early_refuted : exists v first cs s,
  good_run first cs /\ model_run v first cs = Ok s /\
  nexus_active s = true /\ d_active (spec_run first cs) = false.
Proof.
  exists 0, [], refute_run. eexists. split; [|split; [vm_compute; reflexivity|split; vm_compute; reflexivity]].
  unfold refute_run. good.
Qed.

(* In a cycle where it is active, two undelayed assignments of the value it has make
   S'ACTIVE FALSE. *)
Definition twice_run : list (next * list assignment) :=
  [(NextDelta, [Assign 0 [] 1]); (NextDelta, [Assign 0 [] 1; Assign 0 [] 1])].
Theorem C88_active_lost_refuted : exists v first cs s,
  good_run first cs /\ model_run v first cs = Ok s /\
  nexus_active s = false /\ d_active (spec_run first cs) = true.
Proof.
  exists 0, [], twice_run. eexists. split; [|split; [vm_compute; reflexivity|split; vm_compute; reflexivity]].
  unfold twice_run. good.
Qed.

(* Right after an undelayed assignment S'LAST_ACTIVE is zero, although nothing matured. *)
Theorem C88_last_active_refuted : exists v first cs s,
  good_run first cs /\ model_run v first cs = Ok s /\
  nexus_last_active s = 0 /\ sp_since (spec_run first cs) = time_high.
Proof.
  exists 0, [], [(NextTime 10, [Assign 0 [] 2])]. eexists.
  split; [|split; [vm_compute; reflexivity|split; vm_compute; reflexivity]].
  good.
Qed.

(* An undelayed assignment of the present value cancelled by a delayed one still makes the
   signal active in the next delta cycle. *)
Definition mixed_run : list (next * list assignment) :=
  [(NextTime 10, [Assign 0 [] 0; Assign 5 [false] 1]); (NextDelta, [])].
Theorem C88_mixed_refuted : exists v first cs s,
  sp_runs (sp_start first) cs /\ in_time (At 0 (-1)) (map fst cs) /\
  model_run v first cs = Ok s /\
  nexus_active s = true /\ d_active (spec_run first cs) = false.
Proof.
  exists 0, [], mixed_run. eexists.
  split; [|split; [|split; [vm_compute; reflexivity|split; vm_compute; reflexivity]]].
  - cbn. repeat split. intros x [].
  - cbn. unfold time_high. repeat split; lia.
Qed.

(* The hypotheses are met: a run through both paths, active in the last cycle by a delayed
   transaction while another is pending *)
Definition both_run : list (next * list assignment) :=
  [(NextDelta, [Assign 0 [] 1]); (NextDelta, []); (NextTime 10, [Assign 5 [] 2]);
   (NextDelta, [Assign 9 [true] 3; Assign 0 [] 4; Assign 5 [true] 3; Assign 9 [true; true] 1]);
   (NextDelta, []); (NextTime 5, [Assign 1 [true] 0])].
Example C88_both_good : good_run [Assign 0 [] 0] both_run.
Proof.
  unfold both_run. good.
Qed.
Example C88_both_result : exists s, model_run 7 [Assign 0 [] 0] both_run = Ok s /\
  nexus_active s = true /\ nexus_last_active s = 0 /\ w_next s = [16].
Proof. eexists. split; [vm_compute; reflexivity|]. repeat split; vm_compute; reflexivity. Qed.

Print Assumptions C88_active_partial.
Print Assumptions C88_last_active_partial.
Print Assumptions C88_assigned_active.
Print Assumptions C88_no_fault.
Print Assumptions C88_pending.
Print Assumptions C88_active_too_early_refuted.
Print Assumptions C88_active_lost_refuted.
Print Assumptions C88_last_active_refuted.
Print Assumptions C88_mixed_refuted.
