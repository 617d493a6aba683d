(* C08, C09, C10 and C51: the simulation kernel against the ideal simulator. *)
From Coq Require Import List Arith NArith ZArith Bool Permutation Lia.
From Verif Require Import Base HeapModel HeapSpec HeapProofs WaveModel WaveSpec WaveProofs SenseModel SenseSpec SenseProofs
  KernelModel KernelSpec KernelProofs KernelWake.
Import ListNotations.
Open Scope nat_scope.

Section Props.
Context {V : Type} (eqv : V -> V -> bool).
Hypothesis eqv_ok : forall a b, eqv a b = true <-> a = b.
Context (D : design V).
Hypothesis wf : wf_design D.

Lemma static_occ l : NoDup l -> forall p x, (forall o, In o l -> focc o p = 0) ->
  focc x (fold_left sched_event l p) = (if existsb (Nat.eqb x) l then 1 else 0) + focc x p.
Proof.
  induction l as [|o l IH]; intros Nd p x H; cbn [fold_left existsb]; [reflexivity|].
  inversion Nd as [|? ? N1 N2]; subst. rewrite IH; [|exact N2|].
  - rewrite sched_occ by (apply H; now left). rewrite (Nat.eqb_sym o x). destruct (Nat.eqb_spec x o) as [->|E]; cbn [orb]; [|lia].
    assert (X : existsb (Nat.eqb o) l = false).
    { apply not_true_is_false. intros X. apply mem_in in X. contradiction. }
    rewrite X. lia.
  - intros o' Ho. rewrite sched_occ by (apply H; now left). destruct (Nat.eqb_spec o o') as [->|E]; [contradiction|].
    cbn [plus]. apply H. now right.
Qed.

Lemma init_agree jev jdrv sfast :
  let k := kernel_init D jev jdrv sfast in agree D (k_postq k) [] (ideal_init D) k /\ idle_queues k.
Proof.
  cbn zeta. split; [|split; reflexivity].
  assert (In0 : forall p, (if existsb (Nat.eqb p) (procs D) then Some 0%N else None) = Some 0%N <-> In p (procs D)).
  { intros p. fold (mem p (procs D)). destruct (mem p (procs D)) eqn:E.
    - apply mem_in in E. tauto.
    - split; [discriminate|]. intros H. apply mem_in in H. congruence. }
  assert (Z : forall p t, (if existsb (Nat.eqb p) (procs D) then Some 0%N else None) = Some t -> t = 0%N).
  { intros p t. destruct (existsb _ _); congruence. }
  split; unfold kernel_init, ideal_init; cbn [a_now a_delta a_cur a_wave a_val a_timeout a_sens a_late]; ks; auto.
  - apply heap_new_inv. lia.
  - intros t e [].
  - reflexivity.
  - intros n p Hp. unfold drv_ok. ks. cbn [ddisc dwave dcur tval a_wave a_cur].
    assert (Dv : dinv 0 (@nil (tx V))) by (repeat split; constructor).
    split; [reflexivity|]. split; [exact Dv|]. destruct (length (sources D n) <=? 1); auto 10.
  - split; ks; try discriminate; cbn [filter In]; try tauto.
    + intros n H. apply Nat.leb_le, H.
    + constructor.
    + intros s. split; [tauto|discriminate].
    + intros t n p [].
  - split; ks; cbn [a_timeout a_late app]; rewrite ?app_nil_r.
    + intros p. apply (mem_in p (procs D)).
    + apply (wf_procs D wf).
    + intros p. rewrite In0. reflexivity.
    + auto.
    + intros t p. split; [intros []|]. intros [H1 H2]. apply Z in H1. lia.
    + constructor.
    + intros p. split; [discriminate|]. intros (t & H1 & H2). apply Z in H1. lia.
    + intros p t _. lia.
    + intros p [].
    + intros p. split; [intros []|discriminate].
    + intros p [].
    + intros p [H|[]]. apply In0. destruct (existsb _ _); congruence.
  - split; ks; cbn [a_val a_cur]; auto; try discriminate; try lia.
    + intros n H. destruct (sources D n); [contradiction|reflexivity].
    + apply heap_new_inv. lia.
  - split; ks; cbn [a_sens].
    + intros n p. rewrite static_occ.
      * cbn. apply Nat.add_0_r.
      * apply (wf_static_nodup D wf).
      * reflexivity.
    + intros n p H. apply (wf_static D wf n p). apply mem_in in H. exact H.
Qed.

Lemma busy_of sh acts k r k' : model_cycle eqv D sh acts k = Ok (r, k') -> k_delta k = true \/ hsize (k_evq k) <> 0.
Proof.
  unfold model_cycle, begin_cycle. destruct (k_delta k); [auto|]. unfold heap_min_key.
  destruct (Nat.ltb_spec (hsize (k_evq k)) 1); [discriminate|]. intros _. right. lia.
Qed.

Lemma reach_agree a k : reach eqv D a k -> agree D (k_postq k) [] a k /\ idle_queues k.
Proof.
  intros R. induction R as [jev jdrv sfast|a k sh acts r k' R IH Sh Lg E]; [apply init_agree|].
  destruct IH as [G Iq]. destruct (cycle_ok eqv eqv_ok D wf a k sh acts) as
    (r' & k2 & a' & first & late & E2 & _ & Ei & G' & Iq' & _); auto.
  { apply busy_of in E. exact E. }
  rewrite E in E2. injection E2 as <- <-. rewrite Ei. cbn [fst]. auto.
Qed.

(* ---- C08 ---- *)

(* The values of signals are those of the ideal simulator: what the resolution function makes
   of the latest matured transaction of every driver. *)
Theorem C08_values a k : reach eqv D a k ->
  forall n, k_val k n = a_val a n /\
    (sources D n <> [] -> k_val k n = resolve D n (map (a_cur a n) (sources D n))).
Proof.
  intros R n. apply reach_agree in R. destruct R as [G _]. destruct (g_val _ _ _ _ _ G).
  split; [apply v_val|]. rewrite v_val. apply v_res.
Qed.

(* No wake-up is missing: while a transaction or a timeout for time t is outstanding, the
   simulation does not stop before t, and no cycle takes place after t. *)
Theorem C08_not_lost a k t : reach eqv D a k ->
  (exists n p v, In p (sources D n) /\ In (t, v) (a_wave a n p)) \/ (exists p, a_timeout a p = Some t) ->
  should_stop t k = false /\ (next_time k <= t)%N.
Proof.
  intros R. apply reach_agree in R. destruct R as [G _].
  assert (Ev : forall e, In (t, e) (heap_walk (k_evq k)) -> k_delta k = false -> should_stop t k = false /\ (next_time k <= t)%N).
  { intros e H Dl. unfold should_stop, next_time. rewrite Dl.
    assert (Hs : hsize (k_evq k) <> 0).
    { rewrite <- contents_length. destruct (heap_walk (k_evq k)); [destruct H|discriminate]. }
    destruct (Nat.eqb_spec (hsize (k_evq k)) 0); [contradiction|]. unfold heap_min_key.
    destruct (Nat.ltb_spec (hsize (k_evq k)) 1); [lia|]. pose proof (min_T D a k G Hs t e H) as M. split; [|exact M].
    apply N.ltb_ge. exact M. }
  pose proof (g_proc _ _ _ _ _ G) as GP.
  assert (Dt : k_delta k = true -> (k_now k <= t)%N -> should_stop t k = false /\ (next_time k <= t)%N).
  { intros Dl H. unfold should_stop, next_time. rewrite Dl. auto. }
  intros [(n & p & v & Hp & Hw)|(p & Hp)].
  - pose proof (g_drv _ _ _ _ _ G n p Hp) as (D1 & D2 & D3).
    destruct (k_nfast k n) eqn:Nf.
    + destruct D3 as [D3 D4]. destruct (k_fastq k n) eqn:Fq.
      * rewrite D4 in Hw. destruct Hw as [[= <- _]|[]]. apply Dt; [|lia]. apply (f_fastq _ _ (g_fast _ _ _ _ _ G)) in Fq. tauto.
      * destruct D4 as [_ [D4|[Dl D4]]]; rewrite D4 in Hw; [destruct Hw|]. destruct Hw as [[= <- _]|[]]. apply Dt; [exact Dl|lia].
    + destruct D3 as (D3 & D4 & D5).
      assert (Vi : In (t, v) (view (dwave (k_drv k n p))) -> should_stop t k = false /\ (next_time k <= t)%N).
      { intros X. apply view_in in X. rewrite Forall_forall in D5. pose proof (D5 _ X) as D6. unfold covered in D6. cbn [twhen] in D6.
        destruct D2 as (_ & D2 & _). rewrite Forall_forall in D2. specialize (D2 _ X). cbn [twhen] in D2.
        destruct (k_delta k) eqn:Dl; [auto|]. destruct (no_tasks D a k G Dl) as (N1 & N2 & N3 & N4).
        rewrite N1, N3 in D6. destruct (N.eqb_spec t (k_now k)); [destruct D6 as [[]|]; discriminate|]. eapply Ev; eauto. }
      destruct D3 as [D3|(_ & Dl & D3 & _)]; rewrite D3 in Hw; [auto|]. destruct Hw as [[= <- _]|Hw]; [|auto]. apply Dt; [exact Dl|lia].
  - destruct (k_delta k) eqn:Dl.
    + apply Dt; [reflexivity|]. apply (p_future _ _ _ _ _ GP p t Hp).
    + apply (Ev (EProc p)); [|reflexivity]. apply (p_event _ _ _ _ _ GP). split; [exact Hp|].
      pose proof (p_future _ _ _ _ _ GP p t Hp) as X. assert (t <> k_now k); [|lia]. intros ->.
      apply (p_now _ _ _ _ _ GP) in Hp. destruct (no_tasks D a k G Dl) as (_ & N2 & _). rewrite N2 in Hp. destruct Hp.
Qed.

(* A cycle: every legal behaviour of the processes is carried out without a failed assertion,
   every transaction whose time has come becomes the driver's value, no other driver changes,
   and signals take the resolved values. *)
Theorem C08_transactions_mature a k sh acts : reach eqv D a k ->
  should_stop (2 ^ 64) k = false -> (forall l, Permutation l (sh l)) -> legal_cycle eqv D (next_time k) acts a ->
  exists r k' a', model_cycle eqv D sh acts k = Ok (r, k') /\ reach eqv D a' k' /\
    k_now k' = next_time k /\
    (forall n p v w, In p (sources D n) -> a_wave a n p = (next_time k, v) :: w -> a_cur a' n p = v) /\
    (forall n p, In p (sources D n) -> (forall v, ~ In (next_time k, v) (a_wave a n p)) -> a_cur a' n p = a_cur a n p) /\
    (forall n, sources D n <> [] -> k_val k' n = resolve D n (map (a_cur a' n) (sources D n))) /\
    (forall n, sources D n = [] -> k_val k' n = k_val k n).
Proof.
  intros R Hs Sh Lg. pose proof R as R0. apply reach_agree in R0. destruct R0 as [G Iq].
  assert (Busy : k_delta k = true \/ hsize (k_evq k) <> 0).
  { unfold should_stop in Hs. destruct (k_delta k); [auto|]. destruct (Nat.eqb_spec (hsize (k_evq k)) 0); [discriminate|auto]. }
  destruct (cycle_ok eqv eqv_ok D wf a k sh acts G Iq Busy Sh Lg) as
    (r & k' & a' & first & late & E & Du & Ei & G' & Iq' & _).
  exists r, k', a'. split; [exact E|].
  assert (R' : reach eqv D a' k').
  { pose proof (reach_cycle eqv D a k sh acts r k' R Sh Lg E) as X. rewrite Ei in X. exact X. }
  split; [exact R'|].
  assert (F : a_now a' = next_time k /\ a_cur a' = new_cur (next_time k) a /\ a_val a' = new_val D (next_time k) a).
  { unfold ideal_cycle in Ei. destruct (a_delta _) in Ei; injection Ei as <- _ _; auto. }
  destruct F as (F1 & F2 & F3). split; [rewrite (g_now _ _ _ _ _ G'); exact F1|]. rewrite F2. split; [|split; [|split]].
  - intros n p v w _ H. unfold new_cur. rewrite H, N.eqb_refl. reflexivity.
  - intros n p _ H. unfold new_cur. destruct (a_wave a n p) as [|[t v] w]; [reflexivity|].
    destruct (N.eqb_spec t (next_time k)) as [->|]; [|reflexivity]. destruct (H v). now left.
  - intros n H. rewrite <- F2. apply (C08_values a' k' R' n), H.
  - intros n H. rewrite (proj1 (C08_values a' k' R' n)), (proj1 (C08_values a k R n)), F3. unfold new_val. rewrite H. reflexivity.
Qed.

(* ---- C09 ---- *)

(* The pair (time, delta cycle) goes up in every cycle, and nothing projected and no timeout
   is for a time that is skipped. *)
Theorem C09_time_increases a k sh acts r k' : reach eqv D a k ->
  (forall l, Permutation l (sh l)) -> legal_cycle eqv D (next_time k) acts a ->
  model_cycle eqv D sh acts k = Ok (r, k') ->
  ((k_now k < k_now k')%N /\ k_iter k' = 0%Z \/ k_now k' = k_now k /\ k_iter k' = (k_iter k + 1)%Z) /\
  (forall n p t v, In p (sources D n) -> In (t, v) (a_wave a n p) -> (k_now k < k_now k')%N -> (k_now k' <= t)%N) /\
  (forall p t, a_timeout a p = Some t -> (k_now k' <= t)%N).
Proof.
  intros R Sh Lg E. pose proof (busy_of _ _ _ _ _ E) as Busy. apply reach_agree in R. destruct R as [G Iq].
  destruct (cycle_ok eqv eqv_ok D wf a k sh acts G Iq Busy Sh Lg) as
    (r' & k2 & a' & first & late & E2 & Du & Ei & G' & Iq' & _ & _ & _ & _ & It).
  rewrite E in E2. injection E2 as <- <-.
  assert (F1 : a_now a' = next_time k).
  { unfold ideal_cycle in Ei. destruct (a_delta _) in Ei; injection Ei as <- _ _; auto. }
  assert (Nk : k_now k' = next_time k) by (rewrite (g_now _ _ _ _ _ G'); exact F1).
  rewrite Nk, It. destruct Du as [Du1 Du2]. rewrite <- (g_delta _ _ _ _ _ G), <- (g_now _ _ _ _ _ G) in *.
  destruct (k_delta k).
  - specialize (Du1 eq_refl). rewrite Du1. split; [right; auto|]. split; [intros; lia|].
    intros p t H. apply (p_future _ _ _ _ _ (g_proc _ _ _ _ _ G) p t H).
  - destruct (Du2 eq_refl) as (X1 & X2 & X3). split; [left; auto|]. split; [|exact X3]. intros n p t v Hp H _. eauto.
Qed.

(* A process that waits until time t resumes in a cycle at time t. *)
Theorem C09_timeouts_are_exact a k sh acts r k' : reach eqv D a k ->
  (forall l, Permutation l (sh l)) -> legal_cycle eqv D (next_time k) acts a ->
  model_cycle eqv D sh acts k = Ok (r, k') ->
  forall p, a_timeout a p = Some (k_now k') -> In p (ran r).
Proof.
  intros R Sh Lg E p Hp. pose proof (busy_of _ _ _ _ _ E) as Busy. apply reach_agree in R. destruct R as [G Iq].
  destruct (cycle_ok eqv eqv_ok D wf a k sh acts G Iq Busy Sh Lg) as
    (r' & k2 & a' & first & late & E2 & Du & Ei & G' & Iq' & _ & _ & Hf & _ & It).
  rewrite E in E2. injection E2 as <- <-. apply Hf.
  assert (F1 : a_now a' = next_time k /\ first = runs_first eqv D (next_time k) a).
  { unfold ideal_cycle in Ei. destruct (a_delta _) in Ei; injection Ei as <- <- _; auto. }
  destruct F1 as [F1 ->]. rewrite (g_now _ _ _ _ _ G'), F1 in Hp. unfold runs_first, timed_out. rewrite Hp, N.eqb_refl. reflexivity.
Qed.

(* ---- C10 ---- *)

(* Events of the cycle that led from k to k', as seen from outside: values that changed. *)
Definition changed (k k' : kst V) (n : nexus) : Prop := k_val k n <> k_val k' n.

(* Every process runs at most once in a cycle; a process that is not postponed runs exactly
   if it was sensitive to a signal that changed, or if it waited for this time. *)
Theorem C10_exactly_once a k sh acts r k' : reach eqv D a k ->
  (forall l, Permutation l (sh l)) -> legal_cycle eqv D (next_time k) acts a ->
  model_cycle eqv D sh acts k = Ok (r, k') ->
  NoDup (ran r ++ ran_late r) /\
  (forall p, postponed D p = false ->
     (In p (ran r ++ ran_late r) <->
      (exists n, changed k k' n /\ a_sens a n p = true) \/ a_timeout a p = Some (k_now k'))).
Proof.
  intros R Sh Lg E. pose proof (busy_of _ _ _ _ _ E) as Busy. pose proof R as R0. apply reach_agree in R0. destruct R0 as [G Iq].
  destruct (cycle_ok eqv eqv_ok D wf a k sh acts G Iq Busy Sh Lg) as
    (r' & k2 & a' & first & late & E2 & Du & Ei & G' & Iq' & N1 & N2 & Hf & Hl & It).
  rewrite E in E2. injection E2 as <- <-. set (T := next_time k) in *.
  assert (F : a_now a' = T /\ first = runs_first eqv D T a /\ a_val a' = new_val D T a /\
              forall p, late p = true -> runs_late eqv D T a p = true).
  { unfold ideal_cycle in Ei. destruct (a_delta _) in Ei; injection Ei as <- <- <-; repeat split; auto. discriminate. }
  destruct F as (F1 & -> & F3 & F4).
  assert (Pl : forall p, runs_late eqv D T a p = true -> postponed D p = true /\ timed_out T a p = false).
  { intros p H. unfold runs_late in H. apply orb_true_iff in H. destruct H as [H|H].
    - apply (late_of D a k G) in H. destruct H as [H1 H2]. split; [exact H2|]. unfold timed_out. rewrite H1. reflexivity.
    - apply andb_true_iff in H. destruct H as [H H2]. apply andb_true_iff in H. destruct H as [_ H]. apply negb_true_iff in H2. auto. }
  assert (Wk : forall p, woken eqv D T a p = true <-> exists n, changed k k' n /\ a_sens a n p = true).
  { intros p. unfold woken. rewrite existsb_exists.
    assert (Ev : forall n, event_on eqv D T a n = true <-> changed k k' n).
    { intros n. unfold event_on, changed. rewrite (v_val _ _ _ (g_val _ _ _ _ _ G)), (v_val _ _ _ (g_val _ _ _ _ _ G')), F3, negb_true_iff.
      split; intros H.
      - intros X. apply eqv_ok in X. congruence.
      - apply not_true_is_false. intros X. apply eqv_ok in X. contradiction. }
    split.
    - intros (n & _ & H). apply andb_true_iff in H. exists n. rewrite <- Ev. exact H.
    - intros (n & H1 & H2). exists n. split; [apply (s_in _ _ _ (g_sens _ _ _ _ _ G) n p H2)|]. apply Ev in H1. now rewrite H1, H2. }
  split.
  - assert (Dj : forall p, In p (ran r) -> ~ In p (ran_late r)).
    { intros p H1 H2. apply Hf in H1. apply Hl, F4, Pl in H2. destruct H2 as [H2 H3]. unfold runs_first in H1.
      rewrite H3, H2, andb_false_r in H1. discriminate. }
    clear -N1 N2 Dj. induction (ran r) as [|p l IH]; [exact N2|]. cbn [app]. inversion N1; subst. constructor.
    + intros X. apply in_app_or in X. destruct X as [X|X]; [contradiction|]. apply (Dj p); [now left|exact X].
    + apply IH; auto. intros q Hq. apply Dj. now right.
  - intros p Np. rewrite in_app_iff, Hf, Hl, <- Wk. rewrite (g_now _ _ _ _ _ G'), F1, <- (timed_out_some a T p).
    unfold runs_first. rewrite Np, andb_true_r, orb_true_iff. split.
    + intros [H|H]; [tauto|]. apply F4, Pl in H. destruct H. congruence.
    + tauto.
Qed.

(* A postponed process that is sensitive to a signal that changed, and did not wait for this
   time, is not run with the ordinary processes.  It is run, once, at the end of the first
   cycle of this time after which there is no further delta cycle. *)
Theorem C10_postponed_partial a k sh acts r k' : reach eqv D a k ->
  (forall l, Permutation l (sh l)) -> legal_cycle eqv D (next_time k) acts a ->
  model_cycle eqv D sh acts k = Ok (r, k') ->
  exists a', reach eqv D a' k' /\
  (forall p, postponed D p = true -> a_timeout a p <> Some (k_now k') ->
     let due := a_late a p = true \/ exists n, changed k k' n /\ a_sens a n p = true in
     ~ In p (ran r) /\
     (In p (ran_late r) -> due) /\
     (due -> In p (ran_late r) \/ (ran_late r = [] /\ k_delta k' = true /\ a_late a' p = true))) /\
  (k_delta k' = false -> forall p, a_late a' p = false).
Proof.
  intros R Sh Lg E. pose proof (busy_of _ _ _ _ _ E) as Busy. pose proof R as R0. apply reach_agree in R0. destruct R0 as [G Iq].
  destruct (cycle_ok eqv eqv_ok D wf a k sh acts G Iq Busy Sh Lg) as
    (r' & k2 & a' & first & late & E2 & Du & Ei & G' & Iq' & N1 & N2 & Hf & Hl & It).
  rewrite E in E2. injection E2 as <- <-. exists a'.
  assert (R' : reach eqv D a' k').
  { pose proof (reach_cycle eqv D a k sh acts r k' R Sh Lg E) as X. rewrite Ei in X. exact X. }
  split; [exact R'|]. set (T := next_time k) in *.
  assert (F : a_now a' = T /\ first = runs_first eqv D T a /\ a_val a' = new_val D T a /\
     ((a_delta a' = true /\ (forall p, late p = false) /\ a_late a' = runs_late eqv D T a) \/
      (late = runs_late eqv D T a /\ forall p, a_late a' p = false))).
  { unfold ideal_cycle in Ei. destruct (a_delta (after_acts eqv D (advance eqv D T a) (done_by (runs_first eqv D T a) acts))) eqn:Ed in Ei;
      injection Ei as <- <- <-; repeat split; auto. }
  destruct F as (F1 & -> & F3 & F4).
  assert (Wk : forall p, woken eqv D T a p = true <-> exists n, changed k k' n /\ a_sens a n p = true).
  { intros p. unfold woken. rewrite existsb_exists.
    assert (Ev : forall n, event_on eqv D T a n = true <-> changed k k' n).
    { intros n. unfold event_on, changed. rewrite (v_val _ _ _ (g_val _ _ _ _ _ G)), (v_val _ _ _ (g_val _ _ _ _ _ G')), F3, negb_true_iff.
      split; intros H.
      - intros X. apply eqv_ok in X. congruence.
      - apply not_true_is_false. intros X. apply eqv_ok in X. contradiction. }
    split.
    - intros (n & _ & H). apply andb_true_iff in H. exists n. rewrite <- Ev. exact H.
    - intros (n & H1 & H2). exists n. split; [apply (s_in _ _ _ (g_sens _ _ _ _ _ G) n p H2)|]. apply Ev in H1. now rewrite H1, H2. }
  split.
  - intros p Pp Nt. cbn zeta. rewrite (g_now _ _ _ _ _ G'), F1 in Nt.
    assert (To : timed_out T a p = false).
    { apply not_true_is_false. intros X. apply (timed_out_some a T p) in X. contradiction. }
    assert (Rl : runs_late eqv D T a p = true <-> a_late a p = true \/ exists n, changed k k' n /\ a_sens a n p = true).
    { unfold runs_late. rewrite To, Pp, !andb_true_r, orb_true_iff, Wk. reflexivity. }
    rewrite <- Rl. split; [|split].
    + rewrite Hf. unfold runs_first. rewrite To, Pp, andb_false_r. discriminate.
    + rewrite Hl. destruct F4 as [(_ & F4 & _)|[F4 _]]; [rewrite F4; discriminate|rewrite F4; auto].
    + intros H. destruct F4 as [(F4 & F5 & F6)|[F4 _]].
      * right. split; [|split; [rewrite (g_delta _ _ _ _ _ G'); exact F4|rewrite F6; exact H]].
        destruct (ran_late r) as [|q l] eqn:El; [reflexivity|]. exfalso.
        assert (X : late q = true) by (apply Hl; now left). rewrite F5 in X. discriminate.
      * left. apply Hl. rewrite F4. exact H.
  - intros Dl p. destruct F4 as [(F4 & _)|[_ F4]]; [|apply F4]. rewrite (g_delta _ _ _ _ _ G') in Dl. congruence.
Qed.

(* ---- C51: the order of processes ---- *)

(* Whatever order --shuffle picks for the processes of a cycle, the cycle succeeds, the same
   processes run and the signals get the same values; afterwards both kernels agree with the
   same ideal state: the same waveforms, timeouts and sensitivity. *)
Theorem C51_order_is_irrelevant a k sh1 sh2 acts : reach eqv D a k ->
  should_stop (2 ^ 64) k = false -> (forall l, Permutation l (sh1 l)) -> (forall l, Permutation l (sh2 l)) ->
  legal_cycle eqv D (next_time k) acts a ->
  exists r1 k1 r2 k2 a', model_cycle eqv D sh1 acts k = Ok (r1, k1) /\ model_cycle eqv D sh2 acts k = Ok (r2, k2) /\
    reach eqv D a' k1 /\ reach eqv D a' k2 /\
    (forall n, k_val k1 n = k_val k2 n) /\ k_now k1 = k_now k2 /\ k_iter k1 = k_iter k2 /\ k_delta k1 = k_delta k2 /\
    Permutation (ran r1) (ran r2) /\ Permutation (ran_late r1) (ran_late r2).
Proof.
  intros R Hs S1 S2 Lg. pose proof R as R0. apply reach_agree in R0. destruct R0 as [G Iq].
  assert (Busy : k_delta k = true \/ hsize (k_evq k) <> 0).
  { unfold should_stop in Hs. destruct (k_delta k); [auto|]. destruct (Nat.eqb_spec (hsize (k_evq k)) 0); [discriminate|auto]. }
  destruct (cycle_ok eqv eqv_ok D wf a k sh1 acts G Iq Busy S1 Lg) as
    (r1 & k1 & a1 & f1 & l1 & E1 & _ & Ei1 & G1 & _ & N1 & M1 & H1 & L1 & I1).
  destruct (cycle_ok eqv eqv_ok D wf a k sh2 acts G Iq Busy S2 Lg) as
    (r2 & k2 & a2 & f2 & l2 & E2 & _ & Ei2 & G2 & _ & N2 & M2 & H2 & L2 & I2).
  rewrite Ei1 in Ei2. injection Ei2 as <- <- <-.
  exists r1, k1, r2, k2, a1. split; [exact E1|]. split; [exact E2|].
  split; [pose proof (reach_cycle eqv D a k sh1 acts r1 k1 R S1 Lg E1) as X; rewrite Ei1 in X; exact X|].
  split; [pose proof (reach_cycle eqv D a k sh2 acts r2 k2 R S2 Lg E2) as X; rewrite Ei1 in X; exact X|].
  split; [intros n; rewrite (v_val _ _ _ (g_val _ _ _ _ _ G1)), (v_val _ _ _ (g_val _ _ _ _ _ G2)); reflexivity|].
  split; [rewrite (g_now _ _ _ _ _ G1), (g_now _ _ _ _ _ G2); reflexivity|]. split; [congruence|].
  split; [rewrite (g_delta _ _ _ _ _ G1), (g_delta _ _ _ _ _ G2); reflexivity|].
  split; apply NoDup_Permutation; auto; intros p.
  - rewrite H1, H2. reflexivity.
  - rewrite L1, L2. reflexivity.
Qed.
End Props.

(* ---- a concrete case ---- *)

(* Process 0 drives signals 0 and 2, process 1 follows signal 0 and drives signals 1 and 2,
   process 2 is postponed and follows signal 1; signal 2 is resolved to the maximum. *)
Definition demo : design nat :=
  Design [2; 0; 1] [0; 1; 2] (fun n => match n with 0 => [0] | 1 => [1] | 2 => [0; 1] | _ => [] end)
    (fun _ l => fold_right max 0 l) (fun n => n) (fun s => match s with 0 | 1 | 2 => [s] | _ => [] end)
    (fun p => p =? 2) (fun n => N.of_nat (n mod 4)) (fun _ => 0)
    (fun n => match n with 0 => [1] | 1 => [2] | _ => [] end).

Lemma demo_wf : wf_design demo.
Proof.
  split; cbn.
  - repeat constructor; cbn; intuition discriminate.
  - intros [|[|[|n]]] p; cbn; intuition.
  - intros [|[|[|n]]]; repeat constructor; cbn; intuition discriminate.
  - intros n [<-|[<-|[<-|[]]]]; cbn; auto.
  - intros [|[|[|s]]] n; cbn; intuition.
  - intros [|[|[|s]]]; repeat constructor; cbn; intuition discriminate.
  - intros n. assert (n mod 4 < 4) by (apply Nat.mod_upper_bound; discriminate).
    apply N.lt_trans with 4%N; [lia|reflexivity].
  - intros [|[|n]]; repeat constructor; cbn; intuition discriminate.
  - intros [|[|n]] p; cbn; intuition.
Qed.

Lemma nat_eqv : forall a b, (a =? b) = true <-> a = b.
Proof. intros a b. apply Nat.eqb_eq. Qed.

Definition demo_start : kst nat := kernel_init demo (fun _ => (0%N, EProc 0)) (fun _ => (0%N, 0)) (fun _ => true).
Definition next (acts : proc -> list (act nat)) (k : kst nat) : kst nat :=
  match model_cycle Nat.eqb demo (fun l => l) acts k with Ok (_, k') => k' | Fault => k end.
Definition anext (acts : proc -> list (act nat)) (k : kst nat) (a : @abs nat) : @abs nat :=
  fst (fst (ideal_cycle Nat.eqb demo (next_time k) acts a)).

Definition runs (acts : proc -> list (act nat)) (k : kst nat) : bool :=
  match model_cycle Nat.eqb demo (fun l => l) acts k with Ok _ => true | Fault => false end.

Lemma reach_next a k acts : reach Nat.eqb demo a k -> legal_cycle Nat.eqb demo (next_time k) acts a ->
  runs acts k = true -> reach Nat.eqb demo (anext acts k a) (next acts k).
Proof.
  intros R Lg E. unfold next, anext, runs in *. destruct (model_cycle _ _ _ _ _) as [[r k']|] eqn:E2; [|discriminate].
  apply (reach_cycle _ _ a k (fun l => l) acts r k'); auto.
Qed.

(* At the start process 0 sets signal 0 and waits for 10, process 1 sets signal 2 for time 3. *)
Definition acts0 (p : proc) : list (act nat) :=
  match p with 0 => [ADrive 0 0%N 0%N 1; AWait 10%N] | 1 => [ADrive 2 3%N 3%N 5] | _ => [] end.
(* Process 1 follows signal 0 and drives both its signals. *)
Definition acts1 (p : proc) : list (act nat) :=
  match p with 1 => [ADrive 1 0%N 0%N 1; ADrive 2 3%N 3%N 6] | _ => [] end.
Definition no_acts (p : proc) : list (act nat) := [].
Definition acts2' (p : proc) : list (act nat) := match p with 2 => [AWait 5%N] | _ => [] end.

Definition demo1 := next acts0 demo_start.
Definition demo2 := next acts1 demo1.
Definition demo3 := next acts2' demo2.
Definition demo4 := next no_acts demo3.

Ltac legal := intros p Hp; destruct p as [|[|[|p]]]; vm_compute in Hp |- *; try discriminate Hp; intuition discriminate.

Example demo_reach : reach Nat.eqb demo
  (anext no_acts demo3 (anext acts2' demo2 (anext acts1 demo1 (anext acts0 demo_start (ideal_init demo))))) demo4.
Proof.
  apply reach_next; [apply reach_next; [apply reach_next; [apply reach_next; [apply reach_init| |] | |]| |]| |].
  all: try (match goal with |- runs _ _ = true => vm_compute; reflexivity end).
  all: legal.
Qed.

Definition show (r : res (report * kst nat)) : option (N * list proc * list proc * list nat) :=
  match r with Ok (r, k) => Some (k_now k, ran r, ran_late r, map (k_val k) (nets demo)) | Fault => None end.

Example demo_cycles :
  let cyc := model_cycle Nat.eqb demo (fun l => l) in
  (* everything runs; nothing has a value yet *)
  show (cyc acts0 demo_start) = Some (0%N, [2; 0; 1], [], [0; 0; 0]) /\
  (* a delta cycle: signal 0 has changed *)
  show (cyc acts1 demo1) = Some (0%N, [1], [], [1; 0; 0]) /\
  (* another one: signal 1 has changed; the postponed process runs last *)
  show (cyc acts2' demo2) = Some (0%N, [], [2], [1; 1; 0]) /\
  (* the second assignment to signal 2 has replaced the first *)
  show (cyc no_acts demo3) = Some (3%N, [], [], [1; 1; 6]) /\
  show (cyc no_acts demo4) = Some (5%N, [2], [], [1; 1; 6]).
Proof. vm_compute. repeat split. Qed.

(* The hypotheses of the theorems are met with work left to do. *)
Example demo_meets : exists a, reach Nat.eqb demo a demo3 /\ should_stop (2 ^ 64) demo3 = false /\
  legal_cycle Nat.eqb demo (next_time demo3) no_acts a /\ a_wave a 2 1 = [(3%N, 6)] /\ a_timeout a 0 = Some 10%N.
Proof.
  eexists. split.
  { unfold demo3, demo2, demo1. apply reach_next; [apply reach_next; [apply reach_next; [apply reach_init| |] | |]| |].
    all: try (match goal with |- runs _ _ = true => vm_compute; reflexivity end).
    all: legal. }
  split; [vm_compute; reflexivity|]. split; [legal|]. split; vm_compute; reflexivity.
Qed.

(* ---- postponed processes and timeouts ---- *)

(* "Postponed processes run only after all non-postponed processes of the last delta cycle"
   does not hold: a postponed process whose wait times out is put on the queue of ordinary
   processes, so it runs before process 0, and a delta cycle follows. *)
Theorem C10_postponed_timeout_refuted :
  exists (D : design nat) a k acts r k' l1 p q l2,
    wf_design D /\ reach Nat.eqb D a k /\ legal_cycle Nat.eqb D (next_time k) acts a /\
    model_cycle Nat.eqb D (fun l => l) acts k = Ok (r, k') /\
    ran r = l1 ++ p :: q :: l2 /\ postponed D p = true /\ postponed D q = false /\ k_delta k' = true.
Proof.
  set (w := fun p => match p with 0 | 2 => [AWait 5%N] | _ => [] end : list (act nat)).
  set (acts := fun p => match p with 0 => [ADrive 0 0%N 0%N 1] | _ => [] end : list (act nat)).
  exists demo, (anext w demo_start (ideal_init demo)), (next w demo_start), acts.
  destruct (model_cycle Nat.eqb demo (fun l => l) acts (next w demo_start)) as [[r k']|] eqn:E.
  2:{ vm_compute in E. discriminate. }
  exists r, k', [], 2, 0, []. split; [apply demo_wf|]. split.
  { apply reach_next; [apply reach_init|legal|vm_compute; reflexivity]. }
  split; [legal|]. split; [reflexivity|]. 
  assert (X : show (Ok (r, k')) = Some (5%N, [2; 0], [], [0; 0; 0])) by (rewrite <- E; vm_compute; reflexivity).
  assert (Y : match model_cycle Nat.eqb demo (fun l => l) acts (next w demo_start) with Ok (_, k) => k_delta k | Fault => false end = true)
    by (vm_compute; reflexivity).
  rewrite E in Y. unfold show in X. injection X as _ X _ _. repeat split; auto.
Qed.

Print Assumptions C08_values.
Print Assumptions C08_not_lost.
Print Assumptions C08_transactions_mature.
Print Assumptions C09_time_increases.
Print Assumptions C09_timeouts_are_exact.
Print Assumptions C10_exactly_once.
Print Assumptions C10_postponed_partial.
Print Assumptions C51_order_is_irrelevant.
Print Assumptions C10_postponed_timeout_refuted.
