(* Lemmas about KernelModel.v: the relation between the kernel and the ideal simulator, and the
   calls that processes make. *)
From Coq Require Import List Arith NArith ZArith Bool Permutation Lia.
From Verif Require Import Base HeapModel HeapSpec HeapProofs WaveModel WaveSpec WaveProofs SenseModel SenseSpec SenseProofs
  KernelModel KernelSpec.
Import ListNotations.
Open Scope nat_scope.

Ltac ks := cbn [k_now set_now k_iter set_iter k_delta set_delta k_evq set_evq k_dprocq set_dprocq k_ddrvq set_ddrvq k_procq set_procq k_drvq set_drvq k_postq set_postq k_pend set_pend k_delayed set_delayed k_drv set_drv k_fastq set_fastq k_sigq set_sigq k_nfast set_nfast k_sfast set_sfast k_val set_val k_last set_last k_stamp set_stamp k_npend set_npend k_drvheap set_drvheap k_sense set_sense] in *.

Lemma upd2_same {X} (f : nat -> nat -> X) i j x : upd2 f i j x i j = x.
Proof. unfold upd2. now rewrite !upd_same. Qed.
Lemma upd2_other {X} (f : nat -> nat -> X) i j x i' j' : i' <> i \/ j' <> j -> upd2 f i j x i' j' = f i' j'.
Proof.
  intros H. unfold upd2. destruct (Nat.eq_dec i' i) as [->|E].
  - rewrite upd_same, upd_other; [reflexivity|tauto].
  - now rewrite upd_other.
Qed.

Lemma nodup_snoc {X} (l : list X) x : NoDup l -> ~ In x l -> NoDup (l ++ [x]).
Proof.
  intros N H. eapply Permutation_NoDup; [apply Permutation_cons_append|]. now constructor.
Qed.

Section Proofs.
Context {V : Type} (eqv : V -> V -> bool).
Hypothesis eqv_ok : forall a b, eqv a b = true <-> a = b.
Context (D : design V).
Hypothesis wf : wf_design D.

Notation contents := heap_walk.
Notation abs := (@abs V).

Definition single (n : nexus) : Prop := length (sources D n) = 1.

Lemma single_is n p : single n -> In p (sources D n) -> sources D n = [p].
Proof.
  unfold single. destruct (sources D n) as [|q [|]]; cbn [length In]; intros H; try lia. intros [->|[]]. reflexivity.
Qed.

(* ---- the groups of the relation ---- *)

Definition covered (k : kst V) (n : nexus) (p : proc) (x : tx V) : Prop :=
  if (twhen x =? k_now k)%N then In (TUpdate n p) (k_ddrvq k) \/ k_fastq k n = true
  else In (twhen x, EDriver n p) (contents (k_evq k)).

Definition drv_ok (a : abs) (k : kst V) (n : nexus) (p : proc) : Prop :=
  let d := k_drv k n p in
  ddisc d = false /\ dinv (k_now k) (dwave d) /\
  (if k_nfast k n then
     dwave d = [] /\
     (if k_fastq k n then a_wave a n p = [(k_now k, tval (dcur d))]
      else tval (dcur d) = a_cur a n p /\
           (a_wave a n p = [] \/ (k_delta k = true /\ a_wave a n p = [(k_now k, a_cur a n p)])))
   else
     (a_wave a n p = view (dwave d) \/
      (single n /\ k_delta k = true /\ a_wave a n p = (k_now k, a_cur a n p) :: view (dwave d) /\
       Forall (fun x => (k_now k < twhen x)%N) (dwave d))) /\
     (single n \/ tval (dcur d) = a_cur a n p) /\
     Forall (covered k n p) (dwave d)).

Definition is_fast (t : task) : bool := match t with TUpdate _ _ => false | _ => true end.

Record fast_ok (k : kst V) : Prop := {
  f_nfast : forall n, k_nfast k n = true -> length (sources D n) <= 1;
  f_fastq : forall n, k_fastq k n = true -> single n /\ k_delta k = true /\
              (In (TFast n) (k_ddrvq k) \/ k_sigq k (sig D n) = true);
  f_nodup : NoDup (filter is_fast (k_ddrvq k));
  f_tfast : forall n, In (TFast n) (k_ddrvq k) -> k_fastq k n = true /\ k_sfast k (sig D n) = false;
  f_tall : forall s, In (TFastAll s) (k_ddrvq k) <-> k_sigq k s = true;
  f_sigq : forall s, k_sigq k s = true -> k_sfast k s = true /\ k_delta k = true;
  f_tupd : forall n p, In (TUpdate n p) (k_ddrvq k) -> In p (sources D n) /\ k_delta k = true;
  f_event : forall t n p, In (t, EDriver n p) (contents (k_evq k)) -> In p (sources D n)
}.

Definition proc_events (l : list (N * event)) : list proc :=
  flat_map (fun te => match snd te with EProc p => [p] | EDriver _ _ => [] end) l.

Record proc_ok (late todo : list proc) (a : abs) (k : kst V) : Prop := {
  p_pend : forall p, k_pend k p = true <-> In p (k_dprocq k ++ late ++ todo);
  p_nodup : NoDup (k_dprocq k ++ late ++ todo);
  p_now : forall p, In p (k_dprocq k) <-> a_timeout a p = Some (k_now k);
  p_delta : forall p, In p (k_dprocq k) -> k_delta k = true;
  p_event : forall t p, In (t, EProc p) (contents (k_evq k)) <-> a_timeout a p = Some t /\ (k_now k < t)%N;
  p_events : NoDup (proc_events (contents (k_evq k)));
  p_delayed : forall p, k_delayed k p = true <-> exists t, a_timeout a p = Some t /\ (k_now k < t)%N;
  p_future : forall p t, a_timeout a p = Some t -> (k_now k <= t)%N;
  p_running : forall p, In p (late ++ todo) -> a_timeout a p = None;
  p_late : forall p, In p late <-> a_late a p = true;
  p_postponed : forall p, In p late -> postponed D p = true;
  p_procs : forall p, a_timeout a p <> None \/ In p (late ++ todo) -> In p (procs D)
}.

Record val_ok (a : abs) (k : kst V) : Prop := {
  v_val : forall n, k_val k n = a_val a n;
  v_res : forall n, sources D n <> [] -> a_val a n = resolve D n (map (a_cur a n) (sources D n));
  v_stamp : forall n t i, k_stamp k n = Some (t, i) ->
              (t < k_now k)%N \/ (t = k_now k /\ (i <= k_iter k)%Z);
  v_iter : (-1 <= k_iter k)%Z;
  v_npend : forall n, k_npend k n = false;
  v_heap : heap_inv (k_drvheap k);
  v_empty : contents (k_drvheap k) = []
}.

Record sens_ok (a : abs) (k : kst V) : Prop := {
  s_occ : forall n p, focc p (k_sense k n) = if a_sens a n p then 1 else 0;
  s_in : forall n p, a_sens a n p = true -> In n (nets D) /\ In p (procs D)
}.

(* The kernel [k] and the ideal simulator [a] agree; [late] are the postponed processes that
   are to run, [todo] the processes that are still to run in this phase. *)
Record agree (late todo : list proc) (a : abs) (k : kst V) : Prop := {
  g_now : k_now k = a_now a;
  g_delta : k_delta k = a_delta a;
  g_heap : heap_inv (k_evq k);
  g_future : forall t e, In (t, e) (contents (k_evq k)) -> (k_now k < t < 2 ^ 63)%N;
  g_small : (k_now k < 2 ^ 63)%N;
  g_drv : forall n p, In p (sources D n) -> drv_ok a k n p;
  g_fast : fast_ok k;
  g_proc : proc_ok late todo a k;
  g_val : val_ok a k;
  g_sens : sens_ok a k
}.

(* ---- waveforms ---- *)

Lemma view_assign now after r v l :
  view (filter (window eqv (now + after) r v) l ++ [Tx (now + after)%N v]) = assign_to eqv now after r v (view l).
Proof.
  unfold assign_to, view. rewrite map_app. cbn [map twhen tval]. f_equal.
  induction l as [|x l IH]; [reflexivity|]. cbn [filter map fst snd]. unfold window at 1.
  destruct ((twhen x <? now + after)%N && _) eqn:E; cbn [map]; [f_equal|]; exact IH.
Qed.

Lemma assign_zero now r v (w : list (N * V)) : Forall (fun tv => (now <= fst tv)%N) w ->
  assign_to eqv now 0 r v w = [(now, v)].
Proof.
  intros F. unfold assign_to. rewrite N.add_0_r.
  replace (filter _ w) with (@nil (N * V)); [reflexivity|].
  induction F as [|x w H F IH]; [reflexivity|]. cbn [filter].
  destruct (N.ltb_spec (fst x) now); [lia|]. cbn [andb]. exact IH.
Qed.

Lemma assign_head now after r v c (w : list (N * V)) : (0 < after)%N ->
  assign_to eqv now after r v ((now, c) :: w) = assign_to eqv now after r v w \/
  assign_to eqv now after r v ((now, c) :: w) = (now, c) :: assign_to eqv now after r v w.
Proof.
  intros H. unfold assign_to. cbn [filter fst snd]. destruct ((now <? now + after)%N && _); [right|left]; reflexivity.
Qed.

Lemma view_ge now l : dinv now l -> Forall (fun tv : N * V => (now <= fst tv)%N) (view l).
Proof.
  intros (_ & F & _). unfold view. rewrite Forall_map. cbn [fst]. exact F.
Qed.

(* All projected transactions are in the present or the future. *)
Lemma drv_ok_ge a k n p : drv_ok a k n p -> Forall (fun tv => (k_now k <= fst tv)%N) (a_wave a n p).
Proof.
  intros (_ & I1 & H). destruct (k_nfast k n).
  - destruct H as [_ H]. destruct (k_fastq k n).
    + rewrite H. repeat constructor. cbn. lia.
    + destruct H as [_ [->|[_ ->]]]; repeat constructor. cbn. lia.
  - destruct H as [[->|(_ & _ & -> & _)] _]; [apply view_ge, I1|].
    constructor; [cbn; lia|]. apply view_ge, I1.
Qed.

(* ---- one call ---- *)

Definition a_act (p : proc) (a : abs) (c : act V) : abs :=
  match c with
  | ADrive n after r v =>
    Abs (a_now a) (a_delta a || (after =? 0)%N) (a_cur a)
        (upd2 (a_wave a) n p (assign_to eqv (a_now a) after r v (a_wave a n p)))
        (a_val a) (a_timeout a) (a_sens a) (a_late a)
  | AWait d =>
    Abs (a_now a) (a_delta a || (d =? 0)%N) (a_cur a) (a_wave a) (a_val a)
        (upd (a_timeout a) p (Some (a_now a + d)%N)) (a_sens a) (a_late a)
  | ASense n =>
    Abs (a_now a) (a_delta a) (a_cur a) (a_wave a) (a_val a) (a_timeout a)
        (upd2 (a_sens a) n p true) (a_late a)
  | AClear n =>
    Abs (a_now a) (a_delta a) (a_cur a) (a_wave a) (a_val a) (a_timeout a)
        (upd2 (a_sens a) n p false) (a_late a)
  end.

(* What must hold before a call. *)
Definition may (late todo : list proc) (p : proc) (a : abs) (c : act V) : Prop :=
  match c with
  | ADrive n after r v =>
    In p (sources D n) /\ (r <= after)%N /\ (a_now a + after < 2 ^ 63)%N /\
    (postponed D p = true -> after <> 0%N)
  | AWait d => a_timeout a p = None /\ ~ In p (late ++ todo) /\ In p (procs D) /\ (a_now a + d < 2 ^ 63)%N
  | ASense n => a_sens a n p = false /\ In n (nets D) /\ In p (procs D)
  | AClear n => True
  end.

Ltac asimp := cbn [a_now a_delta a_cur a_wave a_val a_timeout a_sens a_late a_act] in *.

Lemma act_sense late todo p a k n : agree late todo a k -> may late todo p a (ASense n) ->
  exists k', exec_act eqv D p k (ASense n) = Ok k' /\ agree late todo (a_act p a (ASense n)) k'.
Proof.
  intros H (M1 & M2 & M3). cbn [exec_act]. eexists. split; [reflexivity|].
  destruct H as [G1 G2 G3 G4 Gs G5 G6 G7 G8 G9]. split; asimp; ks; try assumption.
  - destruct G6. split; ks; assumption.
  - destruct G7. split; ks; asimp; assumption.
  - destruct G8. split; ks; asimp; assumption.
  - destruct G9 as [S1 S2]. split; ks; asimp.
    + intros n' q. unfold upd2, upd. destruct (Nat.eqb_spec n' n) as [->|E]; [|apply S1].
      rewrite sched_occ by (rewrite S1, M1; reflexivity). rewrite S1.
      destruct (Nat.eqb_spec q p) as [->|E2].
      * rewrite Nat.eqb_refl, M1. reflexivity.
      * destruct (Nat.eqb_spec p q); [congruence|]. reflexivity.
    + intros n' q. unfold upd2, upd. destruct (Nat.eqb_spec n' n) as [->|E]; [|apply S2].
      destruct (Nat.eqb_spec q p) as [->|E2]; [auto|apply S2].
Qed.

Lemma act_clear late todo p a k n : agree late todo a k ->
  exists k', exec_act eqv D p k (AClear n) = Ok k' /\ agree late todo (a_act p a (AClear n)) k'.
Proof.
  intros H. cbn [exec_act]. eexists. split; [reflexivity|].
  destruct H as [G1 G2 G3 G4 Gs G5 G6 G7 G8 G9]. split; asimp; ks; try assumption.
  - destruct G6. split; ks; assumption.
  - destruct G7. split; ks; asimp; assumption.
  - destruct G8. split; ks; asimp; assumption.
  - destruct G9 as [S1 S2]. split; ks; asimp.
    + intros n' q. unfold upd2, upd. destruct (Nat.eqb_spec n' n) as [->|E]; [|apply S1].
      rewrite clear_occ, S1. destruct (Nat.eqb_spec q p) as [->|E2].
      * rewrite Nat.eqb_refl. destruct (a_sens a n p); reflexivity.
      * destruct (Nat.eqb_spec p q); [congruence|]. apply Nat.sub_0_r.
    + intros n' q. unfold upd2, upd. destruct (Nat.eqb_spec n' n) as [->|E]; [|apply S2].
      destruct (Nat.eqb_spec q p) as [->|E2]; [discriminate|apply S2].
Qed.

Lemma proc_events_perm l l' : Permutation l l' -> Permutation (proc_events l) (proc_events l').
Proof. apply Permutation_flat_map. Qed.

Lemma in_proc_events l p : In p (proc_events l) <-> exists t, In (t, EProc p) l.
Proof.
  unfold proc_events. rewrite in_flat_map. split.
  - intros ([t [q|n q]] & H1 & H2); cbn [snd In] in H2; [|tauto]. destruct H2 as [->|[]]. eauto.
  - intros (t & H). exists (t, EProc p). split; [exact H|]. left. reflexivity.
Qed.

Lemma small64 x : (x < 2 ^ 63 -> x < 2 ^ 64)%N.
Proof. intros H. eapply N.lt_trans; [exact H|reflexivity]. Qed.

Lemma act_wait late todo p a k d : agree late todo a k -> may late todo p a (AWait d) ->
  exists k', exec_act eqv D p k (AWait d) = Ok k' /\ agree late todo (a_act p a (AWait d)) k'.
Proof.
  intros H (M1 & M2 & M3 & M4). cbn [exec_act].
  destruct H as [G1 G2 G3 G4 Gs G5 G6 G7 G8 G9].
  assert (Npend : ~ In p (k_dprocq k ++ late ++ todo)).
  { intros Hin. apply in_app_or in Hin. destruct Hin as [Hin|Hin]; [|tauto].
    apply (p_now _ _ _ _ G7) in Hin. congruence. }
  assert (Ndel : k_delayed k p = false).
  { apply not_true_is_false. intros Hd. apply (p_delayed _ _ _ _ G7) in Hd. destruct Hd as (t & Ht & _). congruence. }
  unfold deltaq_insert_proc. destruct (N.eqb_spec d 0) as [->|Dz].
  - unfold set_pending.
    destruct (k_pend k p) eqn:Pp; [apply (p_pend _ _ _ _ G7) in Pp; contradiction|].
    rewrite Ndel. cbn [orb bind]. eexists. split; [reflexivity|]. ks. cbn [a_act]. rewrite N.add_0_r in *.
    split; asimp; ks; try assumption.
    + now rewrite orb_true_r.
    + intros n q Hq. specialize (G5 n q Hq). unfold drv_ok, covered in *. asimp; ks.
      destruct G5 as (A1 & A2 & A3). split; [exact A1|]. split; [exact A2|].
      destruct (k_nfast k n); [destruct (k_fastq k n)|]; intuition.
    + destruct G6. split; ks; try assumption.
      * intros n Hn. destruct (f_fastq0 n Hn) as (? & ? & ?). auto.
      * intros s Hs. destruct (f_sigq0 s Hs). auto.
      * intros n q Hn. destruct (f_tupd0 n q Hn). auto.
    + destruct G7. split; ks; asimp; try assumption.
      * intros q. unfold upd. destruct (Nat.eqb_spec q p) as [->|E].
        -- rewrite !in_app_iff. cbn [In]. intuition.
        -- rewrite p_pend0, !in_app_iff. cbn [In]. intuition congruence.
      * rewrite <- app_assoc. eapply Permutation_NoDup; [apply Permutation_middle|].
        constructor; assumption.
      * intros q. unfold upd. destruct (Nat.eqb_spec q p) as [->|E].
        -- rewrite G1. rewrite in_app_iff. cbn [In]. intuition.
        -- rewrite in_app_iff, p_now0. cbn [In]. intuition congruence.
      * reflexivity.
      * intros t q. unfold upd. destruct (Nat.eqb_spec q p) as [->|E]; [|apply p_event0].
        rewrite p_event0, M1, G1. split; intros [H1 H2]; [discriminate|]. injection H1 as <-. lia.
      * intros q. unfold upd. destruct (Nat.eqb_spec q p) as [->|E]; [|apply p_delayed0].
        rewrite Ndel, G1. split; [discriminate|]. intros (t & H1 & H2). injection H1 as <-. lia.
      * intros q t. unfold upd. destruct (Nat.eqb_spec q p) as [->|E]; [|apply p_future0].
        rewrite G1. intros [= <-]. lia.
      * intros q Hq. unfold upd. destruct (Nat.eqb_spec q p) as [->|E]; [contradiction|]. apply p_running0. exact Hq.
      * intros q. unfold upd. destruct (Nat.eqb_spec q p) as [->|E]; [auto|apply p_procs0].
    + destruct G8. split; ks; asimp; assumption.
    + destruct G9. split; ks; asimp; assumption.
  - rewrite Ndel. ks. rewrite add64_small by (rewrite G1; exact M4).
    destruct (heap_insert_ok (k_evq k) (k_now k + d)%N (EProc p) G3) as (h & E & Ih & Ph); [rewrite G1; apply small64, M4|].
    rewrite E. cbn [bind]. eexists. split; [reflexivity|]. ks.
    assert (Hin : forall t e, In (t, e) (contents h) <-> (t, e) = ((k_now k + d)%N, EProc p) \/ In (t, e) (contents (k_evq k))).
    { intros t e. split; intros Hx.
      - apply (Permutation_in _ Ph) in Hx. destruct Hx as [Hx|Hx]; auto.
      - apply (Permutation_in _ (Permutation_sym Ph)). destruct Hx as [Hx|Hx]; [left|right]; auto. }
    split; asimp; ks; try assumption.
    + destruct (N.eqb_spec d 0); [contradiction|]. now rewrite orb_false_r.
    + intros t e. rewrite Hin. intros [[= -> ->]|Hx]; [rewrite G1; lia|eauto].
    + intros n q Hq. specialize (G5 n q Hq). unfold drv_ok in *. asimp; ks.
      destruct G5 as (A1 & A2 & A3). split; [exact A1|]. split; [exact A2|].
      destruct (k_nfast k n); [exact A3|]. destruct A3 as (B1 & B2 & B3).
      split; [exact B1|]. split; [exact B2|]. eapply Forall_impl; [|exact B3].
      intros x. unfold covered. ks. destruct (twhen x =? k_now k)%N; [auto|]. intros Hx. apply Hin. now right.
    + destruct G6. split; ks; try assumption.
      intros t n q Hx. apply Hin in Hx. destruct Hx as [Hx|Hx]; [discriminate|]. eauto.
    + destruct G7. split; ks; asimp; try assumption.
      * intros q. unfold upd. destruct (Nat.eqb_spec q p) as [->|Eq]; [|apply p_now0].
        rewrite p_now0, M1, G1. split; [discriminate|]. intros [= Hx]. lia.
      * intros t q. rewrite Hin. unfold upd. destruct (Nat.eqb_spec q p) as [->|Eq].
        -- rewrite p_event0, M1, <- G1. split.
           ++ intros [[= ->]|[? _]]; [split; [reflexivity|lia]|discriminate].
           ++ intros [[= <-] _]. now left.
        -- rewrite p_event0. split; [intros [[= -> ->]|Hx]; [congruence|exact Hx]|auto].
      * eapply Permutation_NoDup; [apply Permutation_sym, proc_events_perm, Ph|]. cbn [proc_events flat_map snd app].
        constructor; [|assumption]. change (~ In p (proc_events (contents (k_evq k)))). rewrite in_proc_events.
        intros (t & Ht). apply p_event0 in Ht. destruct Ht as [Ht _]. congruence.
      * intros q. unfold upd. destruct (Nat.eqb_spec q p) as [->|Eq]; [|apply p_delayed0].
        rewrite <- G1. split; [|reflexivity]. intros _. exists (k_now k + d)%N. split; [reflexivity|lia].
      * intros q t. unfold upd. destruct (Nat.eqb_spec q p) as [->|Eq]; [|apply p_future0].
        rewrite <- G1. intros [= <-]. lia.
      * intros q Hq. unfold upd. destruct (Nat.eqb_spec q p) as [->|Eq]; [contradiction|]. apply p_running0. exact Hq.
      * intros q. unfold upd. destruct (Nat.eqb_spec q p) as [->|Eq]; [auto|apply p_procs0].
    + destruct G8. split; ks; asimp; assumption.
    + destruct G9. split; ks; asimp; assumption.
Qed.

Lemma drv_ok_mono a a' k k' n p :
  k_now k' = k_now k -> k_drv k' n p = k_drv k n p -> k_nfast k' n = k_nfast k n ->
  k_fastq k' n = k_fastq k n -> a_wave a' n p = a_wave a n p -> a_cur a' n p = a_cur a n p ->
  (k_delta k = true -> k_delta k' = true) -> incl (k_ddrvq k) (k_ddrvq k') ->
  incl (contents (k_evq k)) (contents (k_evq k')) ->
  drv_ok a k n p -> drv_ok a' k' n p.
Proof.
  intros E1 E2 E3 E4 E5 E6 Hd Hq He (A1 & A2 & A3). unfold drv_ok. rewrite E1, E2, E3, E4, E5, E6.
  split; [exact A1|]. split; [exact A2|]. destruct (k_nfast k n).
  - destruct A3 as [A3 A4]. split; [exact A3|]. destruct (k_fastq k n); [exact A4|].
    destruct A4 as [A4 A5]. split; [exact A4|]. destruct A5 as [A5|[A5 A6]]; auto.
  - destruct A3 as (B1 & B2 & B3). split; [|split; [exact B2|]].
    + destruct B1 as [B1|(B1 & B4 & B5 & B6)]; [auto|]. right. auto.
    + eapply Forall_impl; [|exact B3]. intros x. unfold covered. rewrite E1, E4.
      destruct (twhen x =? k_now k)%N; [|apply He]. intros [H|H]; auto.
Qed.

Lemma proc_ok_frame late todo a a' k k' :
  k_now k' = k_now k -> k_pend k' = k_pend k -> k_dprocq k' = k_dprocq k -> k_delayed k' = k_delayed k ->
  (k_delta k = true -> k_delta k' = true) ->
  (forall t p, In (t, EProc p) (contents (k_evq k')) <-> In (t, EProc p) (contents (k_evq k))) ->
  (NoDup (proc_events (contents (k_evq k))) -> NoDup (proc_events (contents (k_evq k')))) ->
  a_timeout a' = a_timeout a -> a_late a' = a_late a ->
  proc_ok late todo a k -> proc_ok late todo a' k'.
Proof.
  intros E1 E2 E3 E4 Hd He Hn E5 E6 []. split; rewrite ?E1, ?E2, ?E3, ?E4, ?E5, ?E6; try assumption; auto.
  - intros p Hp. apply Hd. eauto.
  - intros t p. rewrite He. apply p_event0.
Qed.

Lemma val_ok_frame a a' k k' :
  k_now k' = k_now k -> k_iter k' = k_iter k -> k_val k' = k_val k -> k_stamp k' = k_stamp k ->
  k_npend k' = k_npend k -> k_drvheap k' = k_drvheap k -> a_val a' = a_val a -> a_cur a' = a_cur a ->
  val_ok a k -> val_ok a' k'.
Proof.
  intros E1 E2 E3 E4 E5 E6 E7 E8 []. split; rewrite ?E1, ?E2, ?E3, ?E4, ?E5, ?E6, ?E7, ?E8; assumption.
Qed.

Lemma sens_ok_frame a a' k k' : k_sense k' = k_sense k -> a_sens a' = a_sens a -> sens_ok a k -> sens_ok a' k'.
Proof. intros E1 E2 []. split; rewrite ?E1, ?E2; assumption. Qed.

Lemma nodup_fast l t : NoDup (filter is_fast l) -> ~ In t l -> NoDup (filter is_fast (l ++ [t])).
Proof.
  intros N H. rewrite filter_app. cbn [filter]. destruct (is_fast t); [|now rewrite app_nil_r].
  apply nodup_snoc; [exact N|]. rewrite filter_In. tauto.
Qed.

Lemma act_fast late todo p a k n r v : agree late todo a k ->
  may late todo p a (ADrive n 0 r v) -> k_nfast k n = true ->
  exists k', sched_fast eqv D n v k = Ok k' /\ agree late todo (a_act p a (ADrive n 0 r v)) k'.
Proof.
  intros H (M1 & M2 & M3 & M4) Nf. destruct H as [G1 G2 G3 G4 Gs G5 G6 G7 G8 G9].
  assert (Es : sources D n = [p]).
  { apply single_is; [|exact M1]. pose proof (f_nfast _ G6 n Nf) as L. unfold single.
    destruct (sources D n); cbn [length] in *; [destruct M1|lia]. }
  assert (Sg : single n) by (unfold single; rewrite Es; reflexivity).
  pose proof (G5 n p M1) as Dk. pose proof (drv_ok_ge _ _ _ _ Dk) as Ge.
  destruct Dk as (A1 & A2 & A3). rewrite Nf in A3. destruct A3 as [A3 A4].
  assert (Only : forall q, In q (sources D n) -> q = p) by (intros q; rewrite Es; intros [->|[]]; reflexivity).
  assert (Aw : a_wave (a_act p a (ADrive n 0 r v)) n p = [(k_now k, v)]).
  { asimp. rewrite upd2_same, <- G1. apply assign_zero. exact Ge. }
  assert (Other : forall n' q, In q (sources D n') -> n' <> n ->
            a_wave (a_act p a (ADrive n 0 r v)) n' q = a_wave a n' q).
  { intros n' q Hq Hn. asimp. now rewrite upd2_other by auto. }
  assert (Empty : dinv (k_now k) (@nil (tx V))).
  { split; [constructor|]. split; [constructor|]. split; [exact Gs|constructor]. }
  assert (Ev : forall x y : V, eqv x y = true -> x = y) by (intros x y; apply eqv_ok).
  unfold sched_fast. rewrite Es, A3.
  assert (Build : forall k', k_now k' = k_now k -> k_iter k' = k_iter k -> k_delta k' = true ->
     k_evq k' = k_evq k -> k_dprocq k' = k_dprocq k -> k_pend k' = k_pend k -> k_delayed k' = k_delayed k ->
     k_val k' = k_val k -> k_stamp k' = k_stamp k -> k_npend k' = k_npend k -> k_drvheap k' = k_drvheap k ->
     k_sense k' = k_sense k -> k_nfast k' = k_nfast k -> incl (k_ddrvq k) (k_ddrvq k') ->
     (forall n', n' <> n -> k_fastq k' n' = k_fastq k n') ->
     (forall n' q, n' <> n -> k_drv k' n' q = k_drv k n' q) ->
     fast_ok k' -> drv_ok (a_act p a (ADrive n 0 r v)) k' n p ->
     agree late todo (a_act p a (ADrive n 0 r v)) k').
  { intros k' E1 E2 E3 E4 E5 E6 E7 E8 E9 E10 E11 E12 E13 E14 E15 E16 F1 F2. split.
    - rewrite E1. exact G1.
    - rewrite E3. asimp. now rewrite orb_true_r.
    - now rewrite E4.
    - rewrite E4, E1. exact G4.
    - now rewrite E1.
    - intros n' q Hq. destruct (Nat.eq_dec n' n) as [->|En].
      + rewrite (Only q Hq). exact F2.
      + apply (drv_ok_mono a _ k); try (rewrite ?E13, ?E15, ?E16; reflexivity || assumption); auto.
        rewrite E4. apply incl_refl.
    - exact F1.
    - apply (proc_ok_frame late todo a _ k); auto; rewrite ?E4; auto; reflexivity.
    - apply (val_ok_frame a _ k); auto.
    - apply (sens_ok_frame a _ k); auto. }
  pose proof G6 as [F1 F2 F3 F4 F5 F6 F7 F8].
  destruct (k_fastq k n) eqn:Fq.
  { destruct (F2 n Fq) as (_ & Dl & _). rewrite Dl. eexists. split; [reflexivity|].
    apply Build; ks; try reflexivity; auto using incl_refl.
    - intros n' q Hn. now rewrite upd2_other by auto.
    - split; ks; assumption.
    - unfold drv_ok. ks. rewrite upd2_same, Nf, Fq, Aw. cbn [ddisc dwave dcur tval]. auto. }
  destruct A4 as [A4 A5].
  destruct (k_sfast k (sig D n) && k_sigq k (sig D n)) eqn:Ss.
  { apply andb_true_iff in Ss. destruct Ss as [Ss Sq]. destruct (F6 _ Sq) as [_ Dl]. rewrite Dl.
    eexists. split; [reflexivity|].
    apply Build; ks; try reflexivity; auto using incl_refl.
    - intros n' Hn. now rewrite upd_other by auto.
    - intros n' q Hn. now rewrite upd2_other by auto.
    - split; ks; try assumption.
      + intros n'. unfold upd. destruct (Nat.eqb_spec n' n) as [->|En]; [|apply F2]. auto.
      + intros n' Hn. destruct (F4 n' Hn) as [B1 B2]. split; [|exact B2]. unfold upd.
        destruct (n' =? n); [reflexivity|exact B1].
    - unfold drv_ok. ks. rewrite upd2_same, upd_same, Nf, Aw. cbn [ddisc dwave dcur tval]. auto. }
  destruct (eqv v (tval (dcur (k_drv k n p)))) eqn:Eq.
  { apply Ev in Eq. eexists. split; [reflexivity|].
    apply Build; ks; try reflexivity; auto using incl_refl.
    - intros n' q Hn. now rewrite upd2_other by auto.
    - split; ks; try assumption.
      + intros n' Hn. destruct (F2 n' Hn) as (B1 & _ & B3). auto.
      + intros s Hs. destruct (F6 s Hs). auto.
      + intros n' q Hn. destruct (F7 n' q Hn). auto.
    - unfold drv_ok. ks. rewrite upd2_same, Nf, Fq, Aw. asimp. cbn [ddisc dwave dcur tval].
      split; [exact A1|]. split; [exact Empty|]. split; [reflexivity|].
      rewrite Eq, A4. auto. }
  destruct (k_sfast k (sig D n)) eqn:Sf.
  { cbn [andb] in Ss. eexists. split; [reflexivity|].
    assert (Nin : ~ In (TFastAll (sig D n)) (k_ddrvq k)) by (rewrite F5; congruence).
    apply Build; ks; try reflexivity; auto.
    - apply incl_appl, incl_refl.
    - intros n' Hn. now rewrite upd_other by auto.
    - intros n' q Hn. now rewrite upd2_other by auto.
    - split; ks; try assumption.
      + intros n'. unfold upd. destruct (Nat.eqb_spec n' n) as [->|En].
        * intros _. rewrite Nat.eqb_refl. auto.
        * intros Hn. destruct (F2 n' Hn) as (B1 & B2 & B3). split; [exact B1|]. split; [reflexivity|].
          rewrite in_app_iff. destruct (sig D n' =? sig D n); tauto.
      + apply nodup_fast; assumption.
      + intros n' Hn. rewrite in_app_iff in Hn. destruct Hn as [Hn|[Hn|[]]]; [|discriminate].
        destruct (F4 n' Hn) as [B1 B2]. split; [|exact B2]. unfold upd. destruct (n' =? n); auto.
      + intros s. rewrite in_app_iff. cbn [In]. unfold upd. destruct (Nat.eqb_spec s (sig D n)) as [->|En].
        * split; [reflexivity|]. intros _. right. left. reflexivity.
        * rewrite F5. split; [|auto]. intros [B|[B|[]]]; [exact B|]. congruence.
      + intros s. unfold upd. destruct (Nat.eqb_spec s (sig D n)) as [->|En]; [auto|].
        intros Hs. destruct (F6 s Hs). auto.
      + intros n' q Hn. rewrite in_app_iff in Hn. destruct Hn as [Hn|[Hn|[]]]; [|discriminate].
        destruct (F7 n' q Hn). auto.
    - unfold drv_ok. ks. rewrite upd2_same, upd_same, Nf, Aw. cbn [ddisc dwave dcur tval]. auto. }
  eexists. split; [reflexivity|].
  assert (Nin : ~ In (TFast n) (k_ddrvq k)) by (intros Hn; destruct (F4 n Hn); congruence).
  apply Build; ks; try reflexivity; auto.
  - apply incl_appl, incl_refl.
  - intros n' Hn. now rewrite upd_other by auto.
  - intros n' q Hn. now rewrite upd2_other by auto.
  - split; ks; try assumption.
    + intros n'. unfold upd. destruct (Nat.eqb_spec n' n) as [->|En].
      * intros _. rewrite in_app_iff. cbn [In]. split; [exact Sg|]. split; [reflexivity|]. left. right. left. reflexivity.
      * intros Hn. destruct (F2 n' Hn) as (B1 & B2 & B3). split; [exact B1|]. split; [reflexivity|].
        rewrite in_app_iff. tauto.
    + apply nodup_fast; assumption.
    + intros n' Hn. rewrite in_app_iff in Hn. unfold upd. destruct Hn as [Hn|[Hn|[]]].
      * destruct (F4 n' Hn) as [B1 B2]. split; [|exact B2]. destruct (n' =? n); auto.
      * injection Hn as <-. rewrite Nat.eqb_refl. auto.
    + intros s. rewrite in_app_iff. cbn [In]. rewrite <- F5. split; [|auto]. intros [B|[B|[]]]; [exact B|discriminate].
    + intros s Hs. destruct (F6 s Hs). auto.
    + intros n' q Hn. rewrite in_app_iff in Hn. destruct Hn as [Hn|[Hn|[]]]; [|discriminate].
      destruct (F7 n' q Hn). auto.
  - unfold drv_ok. ks. rewrite upd2_same, upd_same, Nf, Aw. cbn [ddisc dwave dcur tval]. auto.
Qed.

(* What the general path sees of the driver. *)
Definition slow_ok (a : abs) (k : kst V) (n : nexus) (p : proc) (d : driver V) : Prop :=
  ddisc d = false /\ dinv (k_now k) (dwave d) /\
  (a_wave a n p = view (dwave d) \/
   (single n /\ k_delta k = true /\ a_wave a n p = (k_now k, a_cur a n p) :: view (dwave d) /\
    Forall (fun x => (k_now k < twhen x)%N) (dwave d))) /\
  (single n \/ tval (dcur d) = a_cur a n p) /\
  Forall (covered k n p) (dwave d).

Lemma slow_prepare late todo a k n p : agree late todo a k -> In p (sources D n) ->
  exists d1,
    (if k_nfast k n && (is_first D n p && k_fastq k n) then
       match dwave (k_drv k n p) with
       | [] => Ok (Drv (dcur (k_drv k n p)) [Tx (k_now k) (tval (dcur (k_drv k n p)))] (ddisc (k_drv k n p)))
       | _ :: _ => Fault
       end
     else Ok (k_drv k n p)) = Ok d1 /\ slow_ok a k n p d1 /\
    (k_nfast k n = true -> single n).
Proof.
  intros G Hp. destruct (g_drv _ _ _ _ G n p Hp) as (A1 & A2 & A3).
  assert (Sg : k_nfast k n = true -> single n).
  { intros Nf. pose proof (f_nfast _ (g_fast _ _ _ _ G) n Nf) as L. unfold single.
    destruct (sources D n); cbn [length] in *; [destruct Hp|lia]. }
  destruct (k_nfast k n) eqn:Nf; cbn [andb].
  - specialize (Sg eq_refl). pose proof (single_is n p Sg Hp) as Es.
    unfold is_first. rewrite Es, Nat.eqb_refl. cbn [andb]. destruct A3 as [A3 A4].
    destruct (k_fastq k n) eqn:Fq.
    + rewrite A3. eexists. split; [reflexivity|]. split; [|auto]. unfold slow_ok. cbn [ddisc dwave dcur].
      split; [exact A1|]. split; [|split; [|split]].
      * split; [repeat constructor|]. cbn [twhen]. pose proof (g_small _ _ _ _ G).
        split; [repeat constructor; cbn; lia|]. split; [assumption|repeat constructor; assumption].
      * left. exact A4.
      * auto.
      * repeat constructor. unfold covered. cbn [twhen]. rewrite N.eqb_refl. auto.
    + eexists. split; [reflexivity|]. split; [|auto]. unfold slow_ok. rewrite A3.
      split; [exact A1|]. split; [rewrite A3 in A2; exact A2|]. destruct A4 as [A4 A5].
      split; [|split; [auto|constructor]]. destruct A5 as [A5|[A5 A6]]; [left; exact A5|right].
      repeat split; auto.
  - eexists. split; [reflexivity|]. split; [|auto]. unfold slow_ok. tauto.
Qed.

Lemma act_general late todo p a k n after r v : agree late todo a k ->
  may late todo p a (ADrive n after r v) -> after <> 0%N \/ k_nfast k n = false ->
  exists k', sched_general eqv D n p after r v k = Ok k' /\ agree late todo (a_act p a (ADrive n after r v)) k'.
Proof.
  intros G (M1 & M2 & M3 & M4) Slow.
  destruct (slow_prepare late todo a k n p G M1) as (d1 & Ed1 & (A1 & A2 & A3 & A4 & A5) & Sg).
  destruct G as [G1 G2 G3 G4 Gs G5 G6 G7 G8 G9].
  unfold sched_general.
  assert (Ex : existsb (Nat.eqb p) (sources D n) = true).
  { apply existsb_exists. exists p. split; [exact M1|apply Nat.eqb_refl]. }
  rewrite Ex. cbn zeta. rewrite Ed1. cbn [bind].
  rewrite <- G1 in M3.
  destruct (assign_ok eqv (k_now k) d1 after r v A2 M2 M3) as [E1 E2]. rewrite E1.
  set (l2 := filter (window eqv (k_now k + after) r v) (dwave d1) ++ [Tx (k_now k + after)%N v]) in *.
  set (d2 := Drv (dcur d1) l2 (ddisc d1)) in *.
  set (a' := a_act p a (ADrive n after r v)).
  assert (Aw : a_wave a' n p = assign_to eqv (k_now k) after r v (a_wave a n p)).
  { unfold a'. asimp. now rewrite upd2_same, <- G1. }
  assert (Vw : view l2 = assign_to eqv (k_now k) after r v (view (dwave d1))) by apply view_assign.
  assert (Others : forall q, In q (sources D n) -> q <> p -> ~ single n).
  { intros q Hq Hne Hs. rewrite (single_is n p Hs M1) in Hq. destruct Hq as [->|[]]. congruence. }
  assert (Wv : (k_delta k = true \/ after <> 0%N -> a_wave a' n p = view l2 \/
      (single n /\ k_delta k = true /\ a_wave a' n p = (k_now k, a_cur a n p) :: view l2 /\
       Forall (fun x => (k_now k < twhen x)%N) l2)) /\ (after = 0%N -> a_wave a' n p = view l2)).
  { rewrite Aw, Vw. split.
    - intros _. destruct A3 as [A3|(B1 & B2 & B3 & B4)]; [left; now rewrite A3|].
      destruct (N.eq_dec after 0) as [->|Nz].
      + left. rewrite B3, !assign_zero; [reflexivity|apply view_ge, A2|].
        constructor; [cbn; lia|apply view_ge, A2].
      + rewrite B3. destruct (assign_head (k_now k) after r v (a_cur a n p) (view (dwave d1)) ltac:(lia)) as [->| ->].
        * left. reflexivity.
        * right. repeat split; auto. unfold l2. rewrite Forall_app. split.
          -- rewrite Forall_forall in *. intros x Hx. apply filter_In in Hx. apply B4. tauto.
          -- repeat constructor. cbn. lia.
    - intros ->. destruct A3 as [A3|(B1 & B2 & B3 & B4)]; [now rewrite A3|].
      rewrite B3, !assign_zero; [reflexivity|apply view_ge, A2|].
      constructor; [cbn; lia|apply view_ge, A2]. }
  destruct Wv as [Wv1 Wv2].
  (* everything but the queue *)
  assert (Build : forall k', k_now k' = k_now k -> k_iter k' = k_iter k ->
     k_delta k' = k_delta k || (after =? 0)%N -> heap_inv (k_evq k') ->
     (forall t e, In (t, e) (contents (k_evq k')) <->
        In (t, e) (contents (k_evq k)) \/ (after <> 0%N /\ In (t, e) (contents (k_evq k')) /\ (t, e) = ((k_now k + after)%N, EDriver n p))) ->
     proc_events (contents (k_evq k')) = proc_events (contents (k_evq k)) \/
       Permutation (proc_events (contents (k_evq k'))) (proc_events (contents (k_evq k))) ->
     k_dprocq k' = k_dprocq k -> k_pend k' = k_pend k -> k_delayed k' = k_delayed k ->
     k_val k' = k_val k -> k_stamp k' = k_stamp k -> k_npend k' = k_npend k -> k_drvheap k' = k_drvheap k ->
     k_sense k' = k_sense k -> k_nfast k' = upd (k_nfast k) n false ->
     incl (k_ddrvq k) (k_ddrvq k') -> k_fastq k' = k_fastq k -> k_drv k' = upd2 (k_drv k) n p d2 ->
     fast_ok k' -> covered k' n p (Tx (k_now k + after)%N v) ->
     agree late todo a' k').
  { intros k' F1 F2 F3 F4 F5 F6 F7 F8 F9 F10 F11 F12 F13 F14 F15 F16 F17 F18 Fk Fc.
    assert (Inc : incl (contents (k_evq k)) (contents (k_evq k'))).
    { intros [t e] Ht. apply F5. now left. }
    assert (Cov : forall x, covered k n p x -> covered k' n p x).
    { intros x. unfold covered. rewrite F1, F17. destruct (twhen x =? k_now k)%N; [|apply Inc].
      intros [H|H]; auto. }
    assert (Dl : k_delta k = true -> k_delta k' = true) by (rewrite F3; intros ->; reflexivity).
    split.
    - rewrite F1. exact G1.
    - rewrite F3. unfold a'. asimp. now rewrite G2.
    - exact F4.
    - intros t e Ht. rewrite F1. apply F5 in Ht. destruct Ht as [Ht|(B1 & _ & B2)]; [eauto|].
      injection B2 as -> ->. lia.
    - now rewrite F1.
    - intros n' q Hq. destruct (Nat.eq_dec n' n) as [->|En].
      + destruct (Nat.eq_dec q p) as [->|Eq].
        * unfold drv_ok. rewrite F1, F15, F18, upd2_same, upd_same. cbn [ddisc dwave dcur d2].
          split; [exact A1|]. split; [exact E2|]. split; [|split].
          -- destruct (N.eqb_spec after 0) as [->|Nz]; [left; auto|].
             destruct (Wv1 (or_intror Nz)) as [B|(B1 & B2 & B3 & B4)]; [auto|]. right. auto.
          -- exact A4.
          -- unfold l2. rewrite Forall_app. split; [|repeat constructor; exact Fc].
             rewrite Forall_forall in *. intros x Hx. apply filter_In in Hx. apply Cov, A5. tauto.
        * assert (Ns : ~ single n) by eauto.
          assert (Nf : k_nfast k n = false) by (apply not_true_is_false; intros Hn; apply Ns; auto).
          apply (drv_ok_mono a _ k); auto.
          -- rewrite F18, upd2_other by auto. reflexivity.
          -- now rewrite F15, upd_same.
          -- now rewrite F17.
          -- unfold a'. asimp. now rewrite upd2_other by auto.
      + apply (drv_ok_mono a _ k); auto.
        * rewrite F18, upd2_other by auto. reflexivity.
        * now rewrite F15, upd_other by auto.
        * now rewrite F17.
        * unfold a'. asimp. now rewrite upd2_other by auto.
    - exact Fk.
    - apply (proc_ok_frame late todo a _ k); auto.
      + intros t q. rewrite F5. split; [|auto]. intros [B|(_ & _ & B)]; [exact B|discriminate].
      + intros B. destruct F6 as [->|F6]; [exact B|]. eapply Permutation_NoDup; [apply Permutation_sym, F6|exact B].
    - apply (val_ok_frame a _ k); auto.
    - apply (sens_ok_frame a _ k); auto. }
  pose proof G6 as [F1 F2 F3 F4 F5 F6 F7 F8].
  assert (Nfast : forall n', upd (k_nfast k) n false n' = true -> length (sources D n') <= 1).
  { intros n'. unfold upd. destruct (n' =? n); [discriminate|apply F1]. }
  destruct (existsb (fun it => (twhen it =? k_now k + after)%N) (dwave d1)) eqn:Al; cbn [negb].
  - (* already scheduled *)
    apply existsb_exists in Al. destruct Al as (x & Hx & Ex2). apply N.eqb_eq in Ex2.
    rewrite Forall_forall in A5. specialize (A5 x Hx).
    eexists. split; [reflexivity|].
    assert (Dz : after = 0%N -> k_delta k = true).
    { intros ->. unfold covered in A5. rewrite Ex2, N.add_0_r, N.eqb_refl in A5.
      destruct A5 as [B|B]; [apply F7 in B; tauto|apply F2 in B; tauto]. }
    apply Build; ks; try reflexivity; auto using incl_refl.
    + destruct (N.eqb_spec after 0) as [E|E]; [rewrite (Dz E)|]; [reflexivity|now rewrite orb_false_r].
    + intros t e. split; [auto|]. intros [B|(_ & B & _)]; exact B.
    + split; ks; try assumption.
    + unfold covered in *. ks. cbn [twhen]. rewrite <- Ex2. exact A5.
  - unfold deltaq_insert_driver. ks. destruct (N.eqb_spec after 0) as [Ez|Ez].
    + eexists. split; [reflexivity|]. apply Build; ks; try reflexivity; auto.
      * now rewrite orb_true_r.
      * intros t e. split; [auto|]. intros [B|(_ & B & _)]; exact B.
      * apply incl_appl, incl_refl.
      * split; ks; try assumption.
        -- intros n' Hn. destruct (F2 n' Hn) as (B1 & B2 & B3). rewrite in_app_iff. tauto.
        -- rewrite filter_app. cbn [filter is_fast]. now rewrite app_nil_r.
        -- intros n' Hn. rewrite in_app_iff in Hn. destruct Hn as [Hn|[Hn|[]]]; [auto|discriminate].
        -- intros s. rewrite in_app_iff, <- F5. cbn [In]. split; [|auto]. intros [B|[B|[]]]; [exact B|discriminate].
        -- intros s Hs. destruct (F6 s Hs). auto.
        -- intros n' q Hn. rewrite in_app_iff in Hn. split; [|reflexivity].
           destruct Hn as [Hn|[Hn|[]]]; [apply F7; exact Hn|]. injection Hn as -> ->. exact M1.
      * unfold covered. ks. cbn [twhen]. rewrite Ez, N.add_0_r, N.eqb_refl, in_app_iff. left. right. left. reflexivity.
    + rewrite add64_small by exact M3.
      destruct (heap_insert_ok (k_evq k) (k_now k + after)%N (EDriver n p) G3) as (h & Eh & Ih & Ph); [apply small64, M3|].
      rewrite Eh. cbn [bind]. eexists. split; [reflexivity|].
      assert (Hin : forall t e, In (t, e) (contents h) <-> (t, e) = ((k_now k + after)%N, EDriver n p) \/ In (t, e) (contents (k_evq k))).
      { intros t e. split; intros Hx.
        - apply (Permutation_in _ Ph) in Hx. destruct Hx as [Hx|Hx]; auto.
        - apply (Permutation_in _ (Permutation_sym Ph)). destruct Hx as [Hx|Hx]; [left|right]; auto. }
      apply Build; ks; try reflexivity; auto using incl_refl.
      * now rewrite orb_false_r.
      * intros t e. rewrite Hin. intuition.
      * right. apply proc_events_perm in Ph. exact Ph.
      * split; ks; try assumption. intros t n' q. rewrite Hin. intros [B|B]; [|eauto].
        injection B as -> -> ->. exact M1.
      * unfold covered. ks. cbn [twhen]. destruct (N.eqb_spec (k_now k + after)%N (k_now k)); [lia|].
        apply Hin. now left.
Qed.

Lemma act_step late todo p a k c : agree late todo a k -> may late todo p a c ->
  exists k', exec_act eqv D p k c = Ok k' /\ agree late todo (a_act p a c) k'.
Proof.
  intros G M. destruct c as [n after r v|d|n|n].
  - cbn [exec_act]. destruct M as (M1 & M2 & M3 & M4).
    destruct (postponed D p && (after =? 0)%N) eqn:E.
    { apply andb_true_iff in E. destruct E as [E1 E2]. apply N.eqb_eq in E2. destruct (M4 E1 E2). }
    destruct (N.ltb_spec after r); [lia|]. unfold sched_driver.
    destruct ((after =? 0)%N && k_nfast k n) eqn:E2.
    + apply andb_true_iff in E2. destruct E2 as [E2 E3]. apply N.eqb_eq in E2. subst after.
      apply act_fast; [exact G|split; auto|exact E3].
    + apply act_general; [exact G|split; auto|]. apply andb_false_iff in E2.
      destruct E2 as [E2|E2]; [left; apply N.eqb_neq; exact E2|right; exact E2].
  - apply act_wait; assumption.
  - apply act_sense; assumption.
  - apply act_clear; assumption.
Qed.

(* ---- what processes leave alone ---- *)

Lemma exec_act_frame p k c k' : exec_act eqv D p k c = Ok k' ->
  k_procq k' = k_procq k /\ k_postq k' = k_postq k /\ k_drvq k' = k_drvq k /\ k_iter k' = k_iter k.
Proof.
  destruct c as [n after r v|d|n|n]; cbn [exec_act].
  - destruct (postponed D p && (after =? 0)%N); [discriminate|]. destruct (after <? r)%N; [discriminate|].
    unfold sched_driver. destruct ((after =? 0)%N && k_nfast k n).
    + unfold sched_fast. destruct (sources D n) as [|q [|]]; try discriminate.
      destruct (dwave (k_drv k n q)); [|discriminate].
      destruct (k_fastq k n); [destruct (k_delta k); [|discriminate]; intros [= <-]; ks; auto|].
      destruct (k_sfast k (sig D n) && k_sigq k (sig D n));
        [destruct (k_delta k); [|discriminate]; intros [= <-]; ks; auto|].
      destruct (eqv _ _); [intros [= <-]; ks; auto|].
      destruct (k_sfast k (sig D n)); intros [= <-]; ks; auto.
    + unfold sched_general. destruct (existsb _ _); [|discriminate]. cbn zeta. intros H.
      apply bind_ok in H. destruct H as (d1 & _ & H).
      destruct (assign eqv (k_now k) d1 after r v) as [d2 [|]]; [|injection H as <-; ks; auto].
      unfold deltaq_insert_driver in H. destruct (after =? 0)%N; [injection H as <-; ks; auto|].
      apply bind_ok in H. destruct H as (h & _ & [= <-]). ks. auto.
  - unfold deltaq_insert_proc, set_pending. destruct (d =? 0)%N.
    + destruct (k_pend k p || k_delayed k p); [discriminate|]. cbn [bind]. intros [= <-]. ks. auto.
    + destruct (k_delayed k p); [discriminate|]. cbn zeta. intros H. apply bind_ok in H. destruct H as (h & _ & [= <-]). ks. auto.
  - intros [= <-]. ks. auto.
  - intros [= <-]. ks. auto.
Qed.

Lemma exec_acts_frame p l : forall k k', exec_acts eqv D p k l = Ok k' ->
  k_procq k' = k_procq k /\ k_postq k' = k_postq k /\ k_drvq k' = k_drvq k /\ k_iter k' = k_iter k.
Proof.
  induction l as [|c l IH]; cbn [exec_acts]; intros k k' H; [injection H as <-; auto|].
  apply bind_ok in H. destruct H as (k1 & H1 & H2). apply exec_act_frame in H1. apply IH in H2.
  destruct H1 as (X1 & X2 & X3 & X4), H2 as (Y1 & Y2 & Y3 & Y4). repeat split; congruence.
Qed.

Lemma run_procs_frame acts l : forall k k', run_procs eqv D acts l k = Ok k' ->
  k_procq k' = k_procq k /\ k_postq k' = k_postq k /\ k_drvq k' = k_drvq k /\ k_iter k' = k_iter k.
Proof.
  induction l as [|p l IH]; cbn [run_procs]; intros k k' H; [injection H as <-; auto|].
  apply bind_ok in H. destruct H as (k1 & H1 & H2). apply IH in H2. unfold async_run_process in H1.
  destruct (k_pend k p); [|discriminate]. apply exec_acts_frame in H1. ks.
  destruct H1 as (X1 & X2 & X3 & X4), H2 as (Y1 & Y2 & Y3 & Y4). repeat split; congruence.
Qed.

(* ---- the ideal side of a process that runs ---- *)

Definition a_acts (p : proc) (l : list (act V)) (a : abs) : abs := fold_left (a_act p) l a.

Lemma a_acts_fields p l : forall a,
  a_now (a_acts p l a) = a_now a /\ a_cur (a_acts p l a) = a_cur a /\ a_val (a_acts p l a) = a_val a /\
  a_late (a_acts p l a) = a_late a /\ a_delta (a_acts p l a) = a_delta a || existsb zero_delay l /\
  (forall n q, a_wave (a_acts p l a) n q = if q =? p then wave_after eqv (a_now a) n l (a_wave a n p) else a_wave a n q) /\
  (forall q, a_timeout (a_acts p l a) q = if q =? p then timeout_after (a_now a) l (a_timeout a p) else a_timeout a q) /\
  (forall n q, a_sens (a_acts p l a) n q = if q =? p then sens_after n l (a_sens a n p) else a_sens a n q).
Proof.
  unfold a_acts, wave_after, timeout_after, sens_after.
  induction l as [|c l IH]; intros a; cbn [fold_left existsb].
  - repeat apply conj; auto; try (now rewrite orb_false_r); intros;
      match goal with |- context [?q =? p] => destruct (Nat.eqb_spec q p); [subst|]; reflexivity end.
  - destruct (IH (a_act p a c)) as (I1 & I2 & I3 & I4 & I5 & I6 & I7 & I8). clear IH.
    rewrite I1, I2, I3, I4, I5.
    repeat apply conj; try (destruct c; reflexivity).
    + destruct c; asimp; cbn [zero_delay orb]; rewrite <- ?orb_assoc; reflexivity.
    + intros n q. rewrite I6. destruct (Nat.eqb_spec q p) as [->|E].
      * destruct c as [n' after r v| | |]; asimp; try reflexivity. unfold upd2, upd.
        rewrite Nat.eqb_sym. destruct (Nat.eqb_spec n' n) as [->|E]; [rewrite Nat.eqb_refl|]; reflexivity.
      * destruct c; asimp; try reflexivity. now rewrite upd2_other by auto.
    + intros q. rewrite I7. destruct (Nat.eqb_spec q p) as [->|E].
      * destruct c; asimp; try reflexivity. now rewrite upd_same.
      * destruct c; asimp; try reflexivity. now rewrite upd_other by auto.
    + intros n q. rewrite I8. destruct (Nat.eqb_spec q p) as [->|E].
      * destruct c as [|d|n'|n']; asimp; try reflexivity; unfold upd2, upd; rewrite Nat.eqb_sym;
          (destruct (Nat.eqb_spec n' n) as [->|E]; [rewrite Nat.eqb_refl|]; reflexivity).
      * destruct c; asimp; try reflexivity; now rewrite upd2_other by auto.
Qed.

Lemma acts_run late todo p : forall l a k sens waited,
  agree late todo a k -> legal_acts D (a_now a) p sens waited l ->
  (forall n, sens n = a_sens a n p) -> (waited = false -> a_timeout a p = None) ->
  ~ In p (late ++ todo) -> In p (procs D) ->
  exists k', exec_acts eqv D p k l = Ok k' /\ agree late todo (a_acts p l a) k'.
Proof.
  unfold a_acts. induction l as [|c l IH]; intros a k sens waited G L Hs Hw Hn Hp; cbn [exec_acts fold_left].
  - eauto.
  - assert (M : may late todo p a c).
    { destruct c as [n after r v|d|n|n]; cbn [may]; cbn [legal_acts] in L.
      - tauto.
      - destruct L as (-> & L & _). auto.
      - destruct L as (L1 & L2 & _). rewrite <- Hs. auto.
      - exact Logic.I. }
    destruct (act_step late todo p a k c G M) as (k1 & E1 & G1). rewrite E1. cbn [bind].
    destruct c as [n after r v|d|n|n]; cbn [legal_acts] in L.
    + apply (IH _ _ sens waited G1); asimp; tauto.
    + destruct L as (L1 & _ & L). apply (IH _ _ sens true G1); asimp; auto. discriminate.
    + destruct L as (L1 & L2 & L). apply (IH _ _ (upd sens n true) waited G1); asimp; auto.
      intros n'. unfold upd2, upd. destruct (Nat.eqb_spec n' n); [subst n'; now rewrite Nat.eqb_refl|apply Hs].
    + apply (IH _ _ (upd sens n false) waited G1); asimp; auto.
      intros n'. unfold upd2, upd. destruct (Nat.eqb_spec n' n); [subst n'; now rewrite Nat.eqb_refl|apply Hs].
Qed.

Lemma process_run late todo p acts a k : agree late (p :: todo) a k ->
  legal_acts D (a_now a) p (fun n => a_sens a n p) false (acts p) ->
  exists k', async_run_process eqv D acts p k = Ok k' /\ agree late todo (a_acts p (acts p) a) k'.
Proof.
  intros G L. unfold async_run_process.
  destruct G as [G1 G2 G3 G4 Gs G5 G6 G7 G8 G9]. pose proof G7 as [P1 P2 P3 P4 P5 P6 P7 P8 P9 P10 P11 P12].
  assert (Pp : k_pend k p = true) by (apply P1; rewrite !in_app_iff; right; right; left; reflexivity).
  rewrite Pp.
  assert (Perm : Permutation (k_dprocq k ++ late ++ p :: todo) (p :: k_dprocq k ++ late ++ todo)).
  { rewrite !app_assoc. symmetry. apply Permutation_middle. }
  assert (Nd : NoDup (p :: k_dprocq k ++ late ++ todo)) by (eapply Permutation_NoDup; eauto).
  inversion Nd as [|? ? Nd1 Nd2]; subst.
  assert (NLT : ~ In p (late ++ todo)) by (intros H; apply Nd1, in_or_app; now right).
  assert (InP : In p (procs D)) by (apply P12; right; apply in_or_app; right; left; reflexivity).
  assert (Sub : forall q, In q (late ++ todo) -> In q (late ++ p :: todo)).
  { intros q. rewrite !in_app_iff. cbn [In]. tauto. }
  apply (acts_run late todo p (acts p) a _ (fun n => a_sens a n p) false); auto.
  2:{ intros _. apply P9. apply in_or_app. right. left. reflexivity. }
  split; ks; try assumption.
  - destruct G6; split; ks; assumption.
  - split; ks; try assumption; auto.
    + intros q. unfold upd. destruct (Nat.eqb_spec q p) as [->|E].
      * split; [discriminate|]. intros H. contradiction.
      * rewrite P1. split; intros H.
        -- apply (Permutation_in _ Perm) in H. destruct H as [H|H]; [congruence|exact H].
        -- apply (Permutation_in _ (Permutation_sym Perm)). now right.
    + intros q H. apply P12. destruct H as [H|H]; auto.
  - destruct G8; split; ks; assumption.
  - destruct G9; split; ks; assumption.
Qed.

(* All the processes of a queue. *)
Fixpoint a_procs (acts : proc -> list (act V)) (l : list proc) (a : abs) : abs :=
  match l with [] => a | p :: l' => a_procs acts l' (a_acts p (acts p) a) end.

Lemma procs_run late acts : forall todo a k, agree late todo a k -> NoDup todo ->
  (forall p, In p todo -> legal_acts D (a_now a) p (fun n => a_sens a n p) false (acts p)) ->
  exists k', run_procs eqv D acts todo k = Ok k' /\ agree late [] (a_procs acts todo a) k'.
Proof.
  induction todo as [|p todo IH]; intros a k G Nd L; cbn [run_procs a_procs]; [eauto|].
  destruct (process_run late todo p acts a k G (L p (or_introl eq_refl))) as (k1 & E1 & G1).
  rewrite E1. cbn [bind]. inversion Nd as [|? ? Nd1 Nd2]; subst. apply IH; auto.
  intros q Hq. destruct (a_acts_fields p (acts p) a) as (I1 & _ & _ & _ & _ & _ & _ & I8).
  rewrite I1. assert (Hne : q <> p) by congruence.
  assert (Ext : forall T l w (s s' : nexus -> bool), (forall n, s n = s' n) ->
            legal_acts D T q s w l -> legal_acts D T q s' w l).
  { clear. intros T l. induction l as [|c l IH]; intros w s s' E; [auto|]. destruct c; cbn [legal_acts].
    - intros (? & ? & ? & ? & ?). eauto 10.
    - intros (? & ? & ?). eauto.
    - rewrite <- E. intros (? & ? & H). repeat split; auto. eapply IH; [|exact H].
      intros x. unfold upd. destruct (x =? n); auto.
    - apply IH. intros x. unfold upd. destruct (x =? n); auto. }
  eapply Ext; [|apply (L q (or_intror Hq))]. intros n. rewrite I8.
  destruct (Nat.eqb_spec q p); [contradiction|reflexivity].
Qed.

Definition mem (p : proc) (l : list proc) : bool := existsb (Nat.eqb p) l.
Lemma mem_in p l : mem p l = true <-> In p l.
Proof.
  unfold mem. rewrite existsb_exists. split.
  - intros (x & H & E). apply Nat.eqb_eq in E. now subst x.
  - intros H. exists p. split; [exact H|apply Nat.eqb_refl].
Qed.

Lemma a_procs_fields acts l : NoDup l -> forall a,
  a_now (a_procs acts l a) = a_now a /\ a_cur (a_procs acts l a) = a_cur a /\ a_val (a_procs acts l a) = a_val a /\
  a_late (a_procs acts l a) = a_late a /\
  a_delta (a_procs acts l a) = a_delta a || existsb (fun p => existsb zero_delay (acts p)) l /\
  (forall n q, a_wave (a_procs acts l a) n q = if mem q l then wave_after eqv (a_now a) n (acts q) (a_wave a n q) else a_wave a n q) /\
  (forall q, a_timeout (a_procs acts l a) q = if mem q l then timeout_after (a_now a) (acts q) (a_timeout a q) else a_timeout a q) /\
  (forall n q, a_sens (a_procs acts l a) n q = if mem q l then sens_after n (acts q) (a_sens a n q) else a_sens a n q).
Proof.
  unfold mem. induction l as [|p l IH]; intros Nd a; cbn [a_procs existsb].
  - repeat apply conj; auto. now rewrite orb_false_r.
  - inversion Nd as [|? ? Nd1 Nd2]; subst. destruct (IH Nd2 (a_acts p (acts p) a)) as (I1 & I2 & I3 & I4 & I5 & I6 & I7 & I8).
    destruct (a_acts_fields p (acts p) a) as (J1 & J2 & J3 & J4 & J5 & J6 & J7 & J8).
    rewrite I1, I2, I3, I4, I5, J1, J2, J3, J4, J5.
    assert (Np : existsb (Nat.eqb p) l = false).
    { apply not_true_is_false. intros H. apply Nd1. apply mem_in. exact H. }
    repeat apply conj; auto.
    + now rewrite orb_assoc.
    + intros n q. rewrite I6, J1, J6. destruct (Nat.eqb_spec q p) as [->|E]; cbn [orb]; [now rewrite Np|reflexivity].
    + intros q. rewrite I7, J1, J7. destruct (Nat.eqb_spec q p) as [->|E]; cbn [orb]; [now rewrite Np|reflexivity].
    + intros n q. rewrite I8, J8. destruct (Nat.eqb_spec q p) as [->|E]; cbn [orb]; [now rewrite Np|reflexivity].
Qed.

(* ---- equal ideal states ---- *)

Record aeq (a b : abs) : Prop := {
  q_now : a_now a = a_now b; q_delta : a_delta a = a_delta b;
  q_cur : forall n p, a_cur a n p = a_cur b n p; q_wave : forall n p, a_wave a n p = a_wave b n p;
  q_val : forall n, a_val a n = a_val b n; q_timeout : forall p, a_timeout a p = a_timeout b p;
  q_sens : forall n p, a_sens a n p = a_sens b n p; q_late : forall p, a_late a p = a_late b p }.

Lemma agree_ext late todo a b k : aeq a b -> agree late todo a k -> agree late todo b k.
Proof.
  intros [Q1 Q2 Q3 Q4 Q5 Q6 Q7 Q8] [G1 G2 G3 G4 Gs G5 G6 G7 G8 G9]. split; try assumption.
  - congruence.
  - congruence.
  - intros n p Hp. specialize (G5 n p Hp). unfold drv_ok in *. rewrite <- Q3, <- Q4. exact G5.
  - destruct G7. split; try assumption.
    + intros p. rewrite <- Q6. auto.
    + intros t p. rewrite <- Q6. auto.
    + intros p. rewrite p_delayed0. split; intros (t & H); exists t; [rewrite <- Q6|rewrite Q6]; exact H.
    + intros p t. rewrite <- Q6. apply p_future0.
    + intros p. rewrite <- Q6. auto.
    + intros p. rewrite <- Q8. auto.
    + intros p. rewrite <- Q6. auto.
  - destruct G8. split; try assumption.
    + intros n. rewrite <- Q5. auto.
    + intros n Hn. rewrite <- Q5, v_res0 by exact Hn. f_equal. apply map_ext. auto.
  - destruct G9. split; intros n p; rewrite <- Q7; auto.
Qed.

(* Running a queue is the order-free effect of the specification. *)
Lemma a_procs_spec acts l who a : NoDup l -> (forall p, In p l <-> who p = true) ->
  (forall p, In p l -> In p (procs D)) ->
  aeq (a_procs acts l a) (after_acts eqv D a (done_by who acts)).
Proof.
  intros Nd Hw Hp. destruct (a_procs_fields acts l Nd a) as (I1 & I2 & I3 & I4 & I5 & I6 & I7 & I8).
  assert (Mw : forall q, mem q l = who q).
  { intros q. apply eq_true_iff_eq. rewrite mem_in. apply Hw. }
  unfold after_acts, done_by.
  split; cbn [a_now a_delta a_cur a_wave a_val a_timeout a_sens a_late]; try congruence.
  - rewrite I5. f_equal. apply eq_true_iff_eq. rewrite !existsb_exists. split.
    + intros (p & H1 & H2). exists p. split; [auto|]. rewrite (proj1 (Hw p) H1). exact H2.
    + intros (p & H1 & H2). destruct (who p) eqn:E; [|discriminate]. exists p. split; [now apply Hw|exact H2].
  - intros n p. rewrite I6, Mw. destruct (who p); reflexivity.
  - intros p. rewrite I7, Mw. destruct (who p); reflexivity.
  - intros n p. rewrite I8, Mw. destruct (who p); reflexivity.
Qed.

Lemma aeq_trans a b c : aeq a b -> aeq b c -> aeq a c.
Proof. intros [] []. split; intros; congruence. Qed.
Lemma aeq_sym a b : aeq a b -> aeq b a.
Proof. intros []. split; intros; congruence. Qed.
End Proofs.
