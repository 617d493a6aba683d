(* Lemmas about KernelModel.v: waking processes and updating drivers in the first
   half of a cycle. *)
From Coq Require Import List Arith NArith ZArith Bool Permutation Lia.
From Verif Require Import Base HeapModel HeapSpec HeapProofs WaveModel WaveSpec WaveProofs SenseModel SenseSpec SenseProofs
  KernelModel KernelSpec KernelProofs.
Import ListNotations.
Open Scope nat_scope.

Ltac ks := cbn [k_now set_now k_iter set_iter k_delta set_delta k_evq set_evq k_dprocq set_dprocq k_ddrvq set_ddrvq k_procq set_procq k_drvq set_drvq k_postq set_postq k_pend set_pend k_delayed set_delayed k_drv set_drv k_fastq set_fastq k_sigq set_sigq k_nfast set_nfast k_sfast set_sfast k_val set_val k_last set_last k_stamp set_stamp k_npend set_npend k_drvheap set_drvheap k_sense set_sense] in *.

Section Wake.
Context {V : Type} (eqv : V -> V -> bool).
Hypothesis eqv_ok : forall a b, eqv a b = true <-> a = b.
Context (D : design V).
Hypothesis wf : wf_design D.

Notation contents := heap_walk.
Notation abs := (@abs V).
Notation single := (single D).

(* ---- waking processes ---- *)

(* The queues when the processes in [w] have been woken in this cycle. *)
Record wake_ok (a : abs) (T : N) (w : proc -> Prop) (k : kst V) : Prop := {
  w_heap : heap_inv (k_evq k);
  w_first : forall p, In p (k_procq k) <-> timed_out T a p = true \/ (postponed D p = false /\ w p);
  w_late : forall p, In p (k_postq k) <->
             a_late a p = true \/ (postponed D p = true /\ timed_out T a p = false /\ w p);
  w_pend : forall p, k_pend k p = true <-> In p (k_procq k ++ k_postq k);
  w_nodup : NoDup (k_procq k ++ k_postq k);
  w_event : forall t p, In (t, EProc p) (contents (k_evq k)) <-> a_timeout a p = Some t /\ (T < t)%N /\ ~ w p;
  w_events : NoDup (proc_events (contents (k_evq k)));
  w_delayed : forall p, k_delayed k p = true <-> exists t, a_timeout a p = Some t /\ (T < t)%N /\ ~ w p
}.

Definition same_evq (k k' : kst V) : Prop :=
  (forall t n p, In (t, EDriver n p) (contents (k_evq k')) <-> In (t, EDriver n p) (contents (k_evq k))) /\
  (forall t e, In (t, e) (contents (k_evq k')) -> In (t, e) (contents (k_evq k))).

(* Nothing but the queues of processes and the events of processes changes. *)
Record same (k k' : kst V) : Prop := {
  e_now : k_now k' = k_now k; e_iter : k_iter k' = k_iter k; e_delta : k_delta k' = k_delta k;
  e_dprocq : k_dprocq k' = k_dprocq k; e_ddrvq : k_ddrvq k' = k_ddrvq k; e_drvq : k_drvq k' = k_drvq k;
  e_drv : k_drv k' = k_drv k; e_fastq : k_fastq k' = k_fastq k; e_sigq : k_sigq k' = k_sigq k;
  e_nfast : k_nfast k' = k_nfast k; e_sfast : k_sfast k' = k_sfast k; e_val : k_val k' = k_val k;
  e_last : k_last k' = k_last k; e_stamp : k_stamp k' = k_stamp k; e_npend : k_npend k' = k_npend k;
  e_drvheap : k_drvheap k' = k_drvheap k; e_sense : k_sense k' = k_sense k; e_evq : same_evq k k' }.

Lemma same_refl k : same k k.
Proof. split; try reflexivity. split; [reflexivity|auto]. Qed.
Lemma same_trans k1 k2 k3 : same k1 k2 -> same k2 k3 -> same k1 k3.
Proof.
  intros [] []. split; try congruence. destruct e_evq0 as [A B], e_evq1 as [A' B']. split; [|auto].
  intros t n p. rewrite A'. apply A.
Qed.

Section Fixed.
Context (a : abs) (T : N).
Hypothesis late_ok : forall p, a_late a p = true -> a_timeout a p = None /\ postponed D p = true.

Lemma timed_out_some p : timed_out T a p = true <-> a_timeout a p = Some T.
Proof.
  unfold timed_out. destruct (a_timeout a p) as [t|]; [|split; discriminate].
  rewrite N.eqb_eq. split; [intros ->; reflexivity|intros [= ->]; reflexivity].
Qed.

Lemma wake_ext w w' k : (forall p, w p <-> w' p) -> wake_ok a T w k -> wake_ok a T w' k.
Proof.
  intros E []. split; try assumption.
  - intros p. rewrite w_first0, E. reflexivity.
  - intros p. rewrite w_late0, E. reflexivity.
  - intros t p. rewrite w_event0, E. reflexivity.
  - intros p. rewrite w_delayed0. split; intros (t & H); exists t; [rewrite <- E|rewrite E]; exact H.
Qed.

(* Waking a process that is on a queue already. *)
Lemma wake_again w k p : wake_ok a T w k -> k_pend k p = true -> wake_ok a T (fun q => w q \/ q = p) k.
Proof.
  intros W Hp. pose proof W as []. apply w_pend0, in_app_or in Hp.
  assert (F : w p \/ timed_out T a p = true \/ a_late a p = true).
  { destruct Hp as [Hp|Hp]; [apply w_first0 in Hp|apply w_late0 in Hp]; tauto. }
  assert (E : forall q, q = p -> ~ w q -> forall t, a_timeout a q = Some t -> (T < t)%N -> False).
  { intros q -> Nw t Ht Lt. destruct F as [F|[F|F]]; [auto| |].
    - apply timed_out_some in F. rewrite F in Ht. injection Ht as <-. lia.
    - apply late_ok in F. destruct F as [F _]. congruence. }
  split; try assumption.
  - intros q. rewrite w_first0. split; [tauto|]. intros [H|[H1 [H2|H2]]]; auto. subst q.
    destruct F as [F|[F|F]]; auto. apply late_ok in F. destruct F. congruence.
  - intros q. rewrite w_late0. split; [tauto|]. intros [H|(H1 & H2 & [H3|H3])]; auto. subst q.
    destruct F as [F|[F|F]]; auto. congruence.
  - intros t q. rewrite w_event0. split; [|tauto]. intros (H1 & H2 & H3). repeat split; auto.
    intros [H4|H4]; [auto|]. eauto.
  - intros q. rewrite w_delayed0. split; intros (t & H1 & H2 & H3); exists t; repeat split; auto.
    intros [H4|H4]; [auto|]. eauto.
Qed.

Lemma wakeup_ok w k p : wake_ok a T w k ->
  exists k', wakeup D p k = Ok k' /\ wake_ok a T (fun q => w q \/ q = p) k' /\ same k k'.
Proof.
  intros W. unfold wakeup. destruct (k_pend k p) eqn:Pp.
  { exists k. split; [reflexivity|]. split; [apply wake_again; assumption|apply same_refl]. }
  pose proof W as [W1 W2 W3 W4 W5 W6 W7 W8].
  assert (Nin : ~ In p (k_procq k ++ k_postq k)) by (rewrite <- W4; congruence).
  assert (Nt : timed_out T a p = false).
  { apply not_true_is_false. intros H. apply Nin, in_or_app. left. apply W2. auto. }
  assert (Nl : a_late a p = false).
  { apply not_true_is_false. intros H. apply Nin, in_or_app. right. apply W3. auto. }
  assert (Nw : ~ w p).
  { intros H. apply Nin, in_or_app. destruct (postponed D p) eqn:E; [right; apply W3|left; apply W2]; auto. }
  set (k1 := if postponed D p then set_postq (k_postq k ++ [p]) k else set_procq (k_procq k ++ [p]) k).
  assert (K1 : k_evq k1 = k_evq k /\ k_delayed k1 = k_delayed k /\ k_pend k1 = k_pend k).
  { unfold k1. destruct (postponed D p); ks; auto. }
  destruct K1 as (K1 & K2 & K3).
  (* the queues after *)
  assert (Q1 : forall q, In q (k_procq k1) <-> timed_out T a q = true \/ (postponed D q = false /\ (w q \/ q = p))).
  { intros q. unfold k1. destruct (postponed D p) eqn:E; ks; rewrite ?in_app_iff, W2; cbn [In]; [|intuition; subst; auto].
    intuition. subst q. congruence. }
  assert (Q2 : forall q, In q (k_postq k1) <->
     a_late a q = true \/ (postponed D q = true /\ timed_out T a q = false /\ (w q \/ q = p))).
  { intros q. unfold k1. destruct (postponed D p) eqn:E; ks; rewrite ?in_app_iff, W3; cbn [In].
    - intuition; subst; auto.
    - intuition. subst q. congruence. }
  assert (Q3 : Permutation (k_procq k1 ++ k_postq k1) (p :: k_procq k ++ k_postq k)).
  { unfold k1. destruct (postponed D p); ks.
    - rewrite app_assoc. symmetry. apply Permutation_cons_append.
    - rewrite <- app_assoc. symmetry. apply Permutation_middle. }
  assert (Fin : forall k2, k_procq k2 = k_procq k1 -> k_postq k2 = k_postq k1 -> k_pend k2 = k_pend k ->
     k_delayed k2 p = false -> (forall q, q <> p -> k_delayed k2 q = k_delayed k q) ->
     heap_inv (k_evq k2) -> (forall t q, In (t, EProc q) (contents (k_evq k2)) <-> In (t, EProc q) (contents (k_evq k)) /\ q <> p) ->
     NoDup (proc_events (contents (k_evq k2))) ->
     exists k', set_pending p k2 = Ok k' /\ wake_ok a T (fun q => w q \/ q = p) k' /\ k' = set_pend (upd (k_pend k) p true) k2).
  { intros k2 R1 R2 R3 R4 R5 R6 R7 R8. unfold set_pending. rewrite R3, Pp, R4. cbn [orb].
    eexists. split; [reflexivity|]. split; [|reflexivity]. split; ks; rewrite ?R1, ?R2; auto.
    - intros q. unfold upd. destruct (Nat.eqb_spec q p) as [->|E].
      + split; [intros _|reflexivity]. apply (Permutation_in _ (Permutation_sym Q3)). now left.
      + rewrite W4. split; intros H; [apply (Permutation_in _ (Permutation_sym Q3)); now right|].
        apply (Permutation_in _ Q3) in H. destruct H; [congruence|assumption].
    - eapply Permutation_NoDup; [apply Permutation_sym, Q3|]. constructor; assumption.
    - intros t q. rewrite R7, W6. split; [intros [(H1 & H2 & H3) H4]|intros (H1 & H2 & H3)]; intuition.
    - intros q. destruct (Nat.eq_dec q p) as [->|E].
      + rewrite R4. split; [discriminate|]. intros (t & _ & _ & H). tauto.
      + rewrite R5, W8 by exact E. split; intros (t & H1 & H2 & H3); exists t; intuition. }
  rewrite K2, K1. destruct (k_delayed k p) eqn:Dp.
  - destruct (heap_delete_from_ok (is_proc p) (k_evq k) W1 (hsize (k_evq k)) 1) as (b & h & E1 & E2 & E3); [lia|lia|lia|].
    unfold heap_delete. rewrite E1. cbn [bind].
    assert (Hin : exists t, In (t, EProc p) (contents (k_evq k))).
    { apply W8 in Dp. destruct Dp as (t & H). exists t. apply W6. exact H. }
    destruct Hin as (t & Hin).
    destruct b.
    2:{ destruct E3 as [_ E3]. specialize (E3 t (EProc p) Hin). cbn [is_proc] in E3. rewrite Nat.eqb_refl in E3. discriminate. }
    destruct E3 as (t' & x & Ph & Ex). destruct x as [q|n q]; cbn [is_proc] in Ex; [|discriminate].
    apply Nat.eqb_eq in Ex. subst q.
    assert (Np : NoDup (p :: proc_events (contents h))).
    { eapply Permutation_NoDup; [|exact W7]. apply proc_events_perm in Ph. exact Ph. }
    inversion Np as [|? ? Np1 Np2]; subst.
    destruct (Fin (set_delayed (upd (k_delayed k) p false) (set_evq h k1))) as (k' & Ek & Wk & ->); ks; auto.
    + apply upd_same.
    + intros q Hq. now rewrite upd_other by auto.
    + intros t2 q. split.
      * intros H. split; [apply (Permutation_in _ (Permutation_sym Ph)); now right|].
        intros ->. apply Np1, in_proc_events. eauto.
      * intros [H1 H2]. apply (Permutation_in _ Ph) in H1. destruct H1 as [H1|H1]; [congruence|exact H1].
    + eexists. split; [exact Ek|]. split; [exact Wk|]. 
      assert (Ev : same_evq k (set_pend (upd (k_pend k) p true) (set_delayed (upd (k_delayed k) p false) (set_evq h k1)))).
      { split; ks.
        - intros t2 n q. split; intros H; [apply (Permutation_in _ (Permutation_sym Ph)); now right|].
          apply (Permutation_in _ Ph) in H. destruct H as [H|H]; [discriminate|exact H].
        - intros t2 e H. apply (Permutation_in _ (Permutation_sym Ph)); now right. }
      unfold k1 in *. destruct (postponed D p); split; ks; try reflexivity; exact Ev.
  - cbn [bind]. destruct (Fin k1) as (k' & Ek & Wk & ->); rewrite ?K1, ?K2; auto.
    + intros t q. split; [|tauto]. intros H. split; [exact H|]. intros ->. apply W6 in H.
      assert (k_delayed k p = true) by (apply W8; eauto). congruence.
    + eexists. split; [exact Ek|]. split; [exact Wk|].
      unfold k1 in *. destruct (postponed D p); split; ks; try reflexivity; split; ks; auto; reflexivity.
Qed.

Lemma wakeup_all_ok ws : forall w k, wake_ok a T w k ->
  exists k', wakeup_all D ws k = Ok k' /\ wake_ok a T (fun q => w q \/ In (Some q) ws) k' /\ same k k'.
Proof.
  induction ws as [|[p|] ws IH]; intros w k W; cbn [wakeup_all].
  - exists k. split; [reflexivity|]. split; [|apply same_refl]. eapply wake_ext; [|exact W]. cbn [In]. tauto.
  - destruct (wakeup_ok w k p W) as (k1 & E1 & W1 & S1). rewrite E1. cbn [bind].
    destruct (IH _ _ W1) as (k2 & E2 & W2 & S2). exists k2. split; [exact E2|]. split; [|eapply same_trans; eauto].
    eapply wake_ext; [|exact W2]. intros q. cbn [In]. cbn beta.
    assert (X : Some p = Some q <-> q = p) by (split; [intros [= ->]; reflexivity|intros ->; reflexivity]). rewrite X. tauto.
  - destruct (IH _ _ W) as (k2 & E2 & W2 & S2). exists k2. split; [exact E2|]. split; [|exact S2].
    eapply wake_ext; [|exact W2]. intros q. cbn [In]. cbn beta.
    assert (X : None = Some q <-> False) by (split; [discriminate|tauto]). rewrite X. tauto.
Qed.

(* A new value. *)
Lemma put_ok it w k n v : k_now k = T -> k_iter k = it -> wake_ok a T w k ->
  (k_val k n <> v -> k_stamp k n <> Some (T, it)) ->
  exists k', put_effective eqv D n v k = Ok k' /\
    ((k_val k n = v /\ k' = k) \/
     (k_val k n <> v /\ wake_ok a T (fun q => w q \/ In (Some q) (slots (k_sense k n))) k' /\
      same (set_stamp (upd (k_stamp k) n (Some (T, it)))
             (set_val (upd (k_val k) n v) (set_last (upd (k_last k) n (k_val k n)) k))) k')).
Proof.
  intros Hn Hi W Fr. unfold put_effective. destruct (eqv (k_val k n) v) eqn:E.
  { apply eqv_ok in E. exists k. auto. }
  assert (Ne : k_val k n <> v) by (intros H; apply eqv_ok in H; congruence).
  specialize (Fr Ne). unfold notify_event. ks.
  assert (F : match k_stamp k n with
              | Some (t, i) => negb ((t =? k_now k)%N && (i =? k_iter k)%Z)
              | None => true
              end = true).
  { destruct (k_stamp k n) as [[t i]|]; [|reflexivity]. rewrite Hn, Hi.
    destruct (N.eqb_spec t T); [|reflexivity]. destruct (Z.eqb_spec i it); [|reflexivity]. congruence. }
  rewrite F, Hn, Hi.
  match goal with |- context [wakeup_all D _ ?k1] => 
    destruct (wakeup_all_ok (slots (k_sense k n)) w k1) as (k2 & E2 & W2 & S2) end.
  { destruct W. split; ks; assumption. }
  exists k2. split; [exact E2|]. right. split; [exact Ne|]. split; [exact W2|exact S2].
Qed.
End Fixed.

(* ---- updating drivers ---- *)

Section Drive.
Context (a : abs) (T : N) (it : Z).
Hypothesis late_ok : forall p, a_late a p = true -> a_timeout a p = None /\ postponed D p = true.
Hypothesis small : (T < 2 ^ 63)%N.
Hypothesis res_ok : forall n, sources D n <> [] -> a_val a n = resolve D n (map (a_cur a n) (sources D n)).

Definition woken_by (k : kst V) (p : proc) : Prop :=
  exists n, k_stamp k n = Some (T, it) /\ a_sens a n p = true.

Record base (k : kst V) : Prop := {
  b_now : k_now k = T;
  b_iter : k_iter k = it;
  b_delta : k_delta k = false;
  b_dprocq : k_dprocq k = [];
  b_ddrvq : k_ddrvq k = [];
  b_future : forall t e, In (t, e) (contents (k_evq k)) -> (T < t < 2 ^ 63)%N;
  b_event : forall t n p, In (t, EDriver n p) (contents (k_evq k)) -> In p (sources D n);
  b_wake : wake_ok a T (woken_by k) k;
  b_sens : sens_ok D a k;
  b_stamp : forall n, k_stamp k n = Some (T, it) <-> k_val k n <> a_val a n;
  b_old : forall n t i, k_stamp k n = Some (t, i) -> (t < T)%N \/ (t = T /\ (i <= it)%Z);
  b_nfast : forall n, k_nfast k n = true -> length (sources D n) <= 1
}.

Record dheap (k : kst V) : Prop := {
  h_inv : heap_inv (k_drvheap k);
  h_npend : forall n, k_npend k n = true <-> In n (map snd (contents (k_drvheap k)));
  h_nodup : NoDup (map snd (contents (k_drvheap k)));
  h_multi : forall n, k_npend k n = true -> ~ single n /\ sources D n <> []
}.

(* What giving a nexus a value leaves alone. *)
Record keeps (k k' : kst V) : Prop := {
  x_drv : k_drv k' = k_drv k; x_fastq : k_fastq k' = k_fastq k; x_sigq : k_sigq k' = k_sigq k;
  x_nfast : k_nfast k' = k_nfast k; x_sfast : k_sfast k' = k_sfast k; x_npend : k_npend k' = k_npend k;
  x_drvheap : k_drvheap k' = k_drvheap k; x_drvq : k_drvq k' = k_drvq k;
  x_evq : forall t n p, In (t, EDriver n p) (contents (k_evq k')) <-> In (t, EDriver n p) (contents (k_evq k)) }.

Lemma sens_slots k n p : sens_ok D a k -> (In (Some p) (slots (k_sense k n)) <-> a_sens a n p = true).
Proof.
  intros [S _]. rewrite occ_in. specialize (S n p). unfold focc in S. rewrite S.
  destruct (a_sens a n p); split; intros H; try reflexivity; try discriminate; lia.
Qed.

Lemma put_base k n v : base k -> k_val k n = a_val a n ->
  exists k', put_effective eqv D n v k = Ok k' /\ base k' /\ keeps k k' /\
    (forall m, k_val k' m = if m =? n then v else k_val k m).
Proof.
  intros B Hv. pose proof B as [].
  assert (Fr : k_stamp k n <> Some (T, it)) by (intros H; apply b_stamp0 in H; contradiction).
  destruct (put_ok a T late_ok it (woken_by k) k n v) as (k' & E & C); auto.
  exists k'. split; [exact E|]. destruct C as [[C1 ->]|(C1 & W & S)].
  - split; [exact B|]. split; [split; reflexivity|].
    intros m. destruct (Nat.eqb_spec m n) as [->|]; auto.
  - pose proof S as []. destruct e_evq0 as [Ev1 Ev2]. ks.
    assert (Hval : forall m, k_val k' m = if m =? n then v else k_val k m).
    { intros m. rewrite e_val0. unfold upd. reflexivity. }
    split; [|split; [|exact Hval]].
    2:{ split; try congruence. exact Ev1. }
    split; try congruence.
    + intros t e H. apply Ev2 in H. eauto.
    + intros t m p H. apply Ev2 in H. eauto.
    + eapply wake_ext; [|exact W]. intros p. cbn beta. rewrite (sens_slots k n p b_sens0). unfold woken_by. rewrite e_stamp0. split.
      * intros [(m & H1 & H2)|H].
        -- exists m. rewrite upd_other by congruence. auto.
        -- exists n. rewrite upd_same. auto.
      * intros (m & H1 & H2). unfold upd in H1. destruct (Nat.eqb_spec m n) as [E0|E0]; [right; rewrite <- E0; exact H2|]. left. eauto.
    + destruct b_sens0. split; [rewrite e_sense0|]; assumption.
    + intros m. rewrite e_stamp0, Hval. unfold upd. destruct (Nat.eqb_spec m n) as [->|]; [|apply b_stamp0].
      split; [congruence|reflexivity].
    + intros m t i. rewrite e_stamp0. unfold upd. destruct (Nat.eqb_spec m n) as [->|]; [|apply b_old0].
      intros [= <- <-]. right. split; [reflexivity|lia].
    + intros m. rewrite e_nfast0. apply b_nfast0.
Qed.

(* ---- one driver ---- *)

Definition cov (l : list task) (k : kst V) (n : nexus) (p : proc) (x : tx V) : Prop :=
  if (twhen x =? T)%N then In (TUpdate n p) l \/ k_fastq k n = true
  else In (twhen x, EDriver n p) (contents (k_evq k)).

Definition before (l : list task) (k : kst V) (n : nexus) (p : proc) : Prop :=
  let d := k_drv k n p in
  ddisc d = false /\ dinv T (dwave d) /\ (single n -> k_val k n = a_val a n) /\
  (if k_nfast k n then
     dwave d = [] /\
     (if k_fastq k n then a_wave a n p = [(T, tval (dcur d))]
      else tval (dcur d) = a_cur a n p /\ (a_wave a n p = [] \/ a_wave a n p = [(T, a_cur a n p)]))
   else
     (a_wave a n p = view (dwave d) \/
      (single n /\ a_wave a n p = (T, a_cur a n p) :: view (dwave d) /\
       Forall (fun x => (T < twhen x)%N) (dwave d))) /\
     (single n \/ tval (dcur d) = a_cur a n p) /\
     Forall (cov l k n p) (dwave d)).

Definition after (k : kst V) (n : nexus) (p : proc) : Prop :=
  let d := k_drv k n p in
  ddisc d = false /\ dinv T (dwave d) /\ Forall (fun x => (T < twhen x)%N) (dwave d) /\
  view (dwave d) = new_wave T a n p /\
  Forall (fun x => In (twhen x, EDriver n p) (contents (k_evq k))) (dwave d) /\
  (k_nfast k n = true -> dwave d = [] /\ k_fastq k n = false /\ tval (dcur d) = new_cur T a n p) /\
  (single n \/ tval (dcur d) = new_cur T a n p) /\
  (single n -> k_val k n = new_val D T a n) /\
  (~ single n -> matures T (a_wave a n p) = true -> k_npend k n = true).

Record drives (l : list task) (k : kst V) : Prop := {
  t_drv : forall n p, In p (sources D n) -> before l k n p \/ after k n p;
  t_multi : forall n, ~ single n -> k_val k n = a_val a n
}.

Lemma new_val_res n : sources D n <> [] -> new_val D T a n = resolve D n (map (new_cur T a n) (sources D n)).
Proof.
  intros H. unfold new_val. destruct (existsb _ _) eqn:E; [reflexivity|]. rewrite res_ok by exact H. f_equal.
  apply map_ext_in. intros p Hp. unfold new_cur.
  assert (M : matures T (a_wave a n p) = false).
  { apply not_true_is_false. intros M.
    assert (existsb (fun p => matures T (a_wave a n p)) (sources D n) = true) by (apply existsb_exists; eauto). congruence. }
  unfold matures in M. destruct (a_wave a n p) as [|[t v] w]; [reflexivity|]. now rewrite M.
Qed.

Lemma new_val_single n p : sources D n = [p] -> new_val D T a n = resolve D n [new_cur T a n p].
Proof. intros H. rewrite new_val_res, H by (rewrite H; discriminate). reflexivity. Qed.

Lemma ud_cases (d : driver V) : dinv T (dwave d) -> ddisc d = false ->
  (Forall (fun x => (T < twhen x)%N) (dwave d) /\ update_driver T d = (d, false)) \/
  (exists x l, dwave d = x :: l /\ twhen x = T /\ Forall (fun x => (T < twhen x)%N) l /\ dinv T l /\
     update_driver T d = (Drv x l false, true)).
Proof.
  intros (S & F & _ & G) _. unfold update_driver. destruct (dwave d) as [|x l] eqn:E; [left; auto|].
  apply sorted_cons in S. destruct S as [S1 S2]. inversion F as [|? ? F1 F2]; subst. inversion G as [|? ? G1 G2]; subst.
  destruct (N.eqb_spec (twhen x) T) as [Ex|Ex].
  - right. exists x, l. split; [reflexivity|]. split; [exact Ex|]. rewrite Ex in S2. split; [exact S2|].
    split; [|reflexivity]. split; [exact S1|]. split; [exact F2|]. split; assumption.
  - left. split.
    + constructor; [lia|]. eapply Forall_impl; [|exact S2]. cbn beta. intros y Hy. lia.
    + destruct (N.eqb_spec (twhen x) (neg64 T)) as [En|]; [|reflexivity]. exfalso.
      destruct (N.eq_dec T 0) as [->|Nz].
      * assert (neg64 0 = 0%N) by reflexivity. congruence.
      * assert (2 ^ 63 < neg64 T)%N by (apply neg64_big; lia). lia.
Qed.

Lemma before_frame l k k' n p :
  k_drv k' n p = k_drv k n p -> k_nfast k' n = k_nfast k n -> k_fastq k' n = k_fastq k n ->
  (single n -> k_val k' n = k_val k n) ->
  (forall t, In (t, EDriver n p) (contents (k_evq k)) -> In (t, EDriver n p) (contents (k_evq k'))) ->
  before l k n p -> before l k' n p.
Proof.
  intros E1 E2 E3 E4 E5 (B1 & B2 & B3 & B4). unfold before. rewrite E1, E2, E3.
  split; [exact B1|]. split; [exact B2|]. split; [intros H; rewrite E4; auto|].
  destruct (k_nfast k n); [exact B4|]. destruct B4 as (B4 & B5 & B6). split; [exact B4|]. split; [exact B5|].
  eapply Forall_impl; [|exact B6]. intros x. unfold cov. rewrite E3. destruct (twhen x =? T)%N; auto.
Qed.

Lemma after_frame k k' n p :
  k_drv k' n p = k_drv k n p -> k_nfast k' n = k_nfast k n -> (k_fastq k n = false -> k_fastq k' n = false) ->
  (single n -> k_val k' n = k_val k n) -> (k_npend k n = true -> k_npend k' n = true) ->
  (forall t, In (t, EDriver n p) (contents (k_evq k)) -> In (t, EDriver n p) (contents (k_evq k'))) ->
  after k n p -> after k' n p.
Proof.
  intros E1 E2 E3 E4 E5 E6 (B1 & B2 & B3 & B4 & B5 & B6 & B7 & B8 & B9). unfold after. rewrite E1, E2.
  split; [exact B1|]. split; [exact B2|]. split; [exact B3|]. split; [exact B4|].
  split; [eapply Forall_impl; [|exact B5]; cbn beta; auto|].
  split; [intros H; apply B6 in H; intuition|]. split; [exact B7|].
  split; [intros H; rewrite E4; auto|]. auto.
Qed.

Lemma before_new l k n p x w : before l k n p -> dwave (k_drv k n p) = x :: w -> twhen x = T ->
  k_nfast k n = false /\ new_wave T a n p = view w /\ new_cur T a n p = tval x /\ matures T (a_wave a n p) = true.
Proof.
  intros (B1 & B2 & B3 & B4) E Ex. destruct (k_nfast k n).
  { destruct B4 as [B4 _]. congruence. }
  split; [reflexivity|]. destruct B4 as ([B4|(_ & _ & B4)] & _ & _).
  - unfold new_wave, new_cur, matures. rewrite B4, E. unfold view. cbn [map]. rewrite Ex, N.eqb_refl. auto.
  - rewrite E in B4. inversion B4; subst. lia.
Qed.

Lemma calc_single k n p : sources D n = [p] -> ddisc (k_drv k n p) = false ->
  calculate_driving D n k = resolve D n [tval (dcur (k_drv k n p))].
Proof. intros E H. unfold calculate_driving. rewrite E. cbn [filter]. rewrite H. reflexivity. Qed.

Lemma single_neq n p p' : single n -> In p (sources D n) -> In p' (sources D n) -> p' = p.
Proof. intros S H H'. rewrite (single_is D n p S H) in H'. destruct H' as [->|[]]. reflexivity. Qed.

Lemma base_frame k k' : base k -> k_now k' = k_now k -> k_iter k' = k_iter k -> k_delta k' = k_delta k ->
  k_dprocq k' = k_dprocq k -> k_ddrvq k' = k_ddrvq k -> k_evq k' = k_evq k ->
  k_procq k' = k_procq k -> k_postq k' = k_postq k -> k_pend k' = k_pend k -> k_delayed k' = k_delayed k ->
  k_stamp k' = k_stamp k -> k_val k' = k_val k -> k_nfast k' = k_nfast k -> k_sense k' = k_sense k -> base k'.
Proof.
  intros [] E1 E2 E3 E4 E5 E6 E7 E8 E9 E10 E11 E12 E13 E14. split; rewrite ?E1, ?E2, ?E3, ?E4, ?E5, ?E6, ?E13; auto.
  - unfold woken_by in *. destruct b_wake0. split; rewrite ?E6, ?E7, ?E8, ?E9, ?E10, ?E11; auto.
  - destruct b_sens0. split; rewrite ?E14; auto.
  - intros n. rewrite E11, E12. apply b_stamp0.
  - intros n t i. rewrite E11. apply b_old0.
Qed.

Record sameq (k k' : kst V) : Prop := {
  q_fastq : k_fastq k' = k_fastq k; q_sigq : k_sigq k' = k_sigq k; q_nfast : k_nfast k' = k_nfast k;
  q_sfast : k_sfast k' = k_sfast k; q_drvq : k_drvq k' = k_drvq k }.

(* Giving a nexus with one driver its new value. *)
Lemma update_single l k n p : base k -> dheap k -> In p (sources D n) -> single n ->
  k_val k n = a_val a n -> ddisc (k_drv k n p) = false -> tval (dcur (k_drv k n p)) = new_cur T a n p ->
  (forall n' p', In p' (sources D n') -> n' <> n -> before l k n' p' \/ after k n' p') ->
  (forall n', ~ single n' -> k_val k n' = a_val a n') ->
  exists k', update_driving eqv D n false k = Ok k' /\ base k' /\ dheap k' /\ sameq k k' /\ k_drv k' = k_drv k /\
    (forall n' p', In p' (sources D n') -> n' <> n -> before l k' n' p' \/ after k' n' p') /\
    (forall n', ~ single n' -> k_val k' n' = a_val a n') /\
    k_val k' n = new_val D T a n /\
    (forall t n p, In (t, EDriver n p) (contents (k_evq k')) <-> In (t, EDriver n p) (contents (k_evq k))).
Proof.
  intros B H Hp S Hv Hd Hc O M. unfold update_driving. unfold KernelProofs.single in S. rewrite S. cbn [Nat.eqb orb].
  fold (single n) in S. pose proof (single_is D n p S Hp) as Es.
  assert (Np : k_npend k n = false).
  { apply not_true_is_false. intros E. apply (h_multi k H) in E. tauto. }
  set (k1 := set_npend (upd (k_npend k) n false) k).
  assert (B1 : base k1) by (apply (base_frame k); auto).
  destruct (put_base k1 n (calculate_driving D n k1)) as (k' & E & B' & K & Vl); [exact B1|exact Hv|].
  exists k'. split; [exact E|]. split; [exact B'|].
  assert (Ec : calculate_driving D n k1 = new_val D T a n).
  { rewrite (calc_single k1 n p Es Hd). unfold k1. ks. rewrite Hc. symmetry. apply new_val_single, Es. }
  assert (Npe : forall m, k_npend k1 m = k_npend k m).
  { intros m. unfold k1. ks. unfold upd. destruct (Nat.eqb_spec m n) as [->|]; auto. }
  pose proof K as []. unfold k1 in x_drv0, x_fastq0, x_sigq0, x_nfast0, x_sfast0, x_drvheap0, x_drvq0, x_evq0. ks.
  split.
  { destruct H. split; rewrite ?x_drvheap0; auto.
    - intros m. rewrite x_npend0, Npe. apply h_npend0.
    - intros m. rewrite x_npend0, Npe. apply h_multi0. }
  split; [split; assumption|]. split; [exact x_drv0|]. split.
  { intros n' p' Hp' Ne. assert (Vn : k_val k' n' = k_val k n').
    { rewrite Vl. destruct (Nat.eqb_spec n' n); [contradiction|reflexivity]. }
    destruct (O n' p' Hp' Ne) as [X|X]; [left; apply (before_frame l k)|right; apply (after_frame k)];
      rewrite ?x_drv0, ?x_fastq0, ?x_nfast0, ?x_npend0, ?Npe; auto; intros t Ht; apply x_evq0; exact Ht. }
  split.
  { intros n' Ns. rewrite Vl. destruct (Nat.eqb_spec n' n) as [->|]; [contradiction|]. apply M, Ns. }
  split; [|exact x_evq0]. rewrite Vl, Nat.eqb_refl. exact Ec.
Qed.

Lemma drives_other l k n p : drives l k ->
  forall n' p', In p' (sources D n') -> n' <> n \/ p' <> p -> before l k n' p' \/ after k n' p'.
Proof. intros [d _] n' p' H _. apply d, H. Qed.

Lemma run_update_ok l k n p : base k -> dheap k -> drives l k -> In p (sources D n) ->
  exists k', run_update eqv D n p k = Ok k' /\ base k' /\ dheap k' /\ drives l k' /\ sameq k k' /\
    Forall (fun x => (T < twhen x)%N) (dwave (k_drv k' n p)).
Proof.
  intros B H Dr Hp. unfold run_update. rewrite (b_now k B).
  assert (Hd : ddisc (k_drv k n p) = false /\ dinv T (dwave (k_drv k n p))).
  { destruct (t_drv l k Dr n p Hp) as [X|X]; destruct X as (X1 & X2 & _); auto. }
  destruct Hd as [Hd Hi]. destruct (ud_cases _ Hi Hd) as [[F E]|(x & w & Ew & Ex & F & Iw & E)]; rewrite E.
  - (* nothing to do *)
    eexists. split; [reflexivity|].
    assert (Same : forall n' p', upd2 (k_drv k) n p (k_drv k n p) n' p' = k_drv k n' p').
    { intros n' p'. unfold upd2, upd. destruct (Nat.eqb_spec n' n) as [->|]; [|reflexivity].
      destruct (Nat.eqb_spec p' p) as [->|]; reflexivity. }
    split; [apply (base_frame k); auto|]. split; [destruct H; split; auto|]. split; [|split; [split; reflexivity|]].
    + destruct Dr as [d1 d2]. split; [|exact d2]. intros n' p' Hp'.
      destruct (d1 n' p' Hp') as [X|X]; [left; apply (before_frame l k)|right; apply (after_frame k)]; ks; auto.
    + ks. rewrite Same. exact F.
  - assert (Bf : before l k n p).
    { destruct (t_drv l k Dr n p Hp) as [X|X]; [exact X|]. destruct X as (_ & _ & X & _). rewrite Ew in X.
      inversion X; subst. lia. }
    destruct (before_new l k n p x w Bf Ew Ex) as (Nf & Nw & Nc & Nm).
    set (k1 := set_drv (upd2 (k_drv k) n p (Drv x w false)) k).
    assert (B1 : base k1) by (apply (base_frame k); auto).
    assert (H1 : dheap k1) by (destruct H; split; auto).
    assert (O1 : forall n' p', In p' (sources D n') -> n' <> n \/ p' <> p -> before l k1 n' p' \/ after k1 n' p').
    { intros n' p' Hp' Ne. destruct (t_drv l k Dr n' p' Hp') as [X|X]; [left; apply (before_frame l k)|right; apply (after_frame k)];
        unfold k1; ks; auto; now apply upd2_other. }
    assert (M1 : forall n', ~ single n' -> k_val k1 n' = a_val a n') by apply (t_multi l k Dr).
    assert (Dn : k_drv k1 n p = Drv x w false) by (unfold k1; ks; apply upd2_same).
    assert (Hv : single n -> k_val k1 n = a_val a n) by (destruct Bf as (_ & _ & X & _); exact X).
    assert (Cw : Forall (fun x => In (twhen x, EDriver n p) (contents (k_evq k))) w).
    { destruct Bf as (_ & _ & _ & X). rewrite Nf in X. destruct X as (_ & _ & X). rewrite Ew in X.
      rewrite Forall_forall in *. intros y Hy. specialize (X y (or_intror Hy)). specialize (F y Hy).
      unfold cov in X. destruct (N.eqb_spec (twhen y) T); [lia|exact X]. }
    destruct (Nat.eq_dec (length (sources D n)) 1) as [S|S].
    + destruct (update_single l k1 n p) as (k' & Ek & B' & H' & Q & Dv & O' & M' & Vn & Ev); auto.
      { rewrite Dn. reflexivity. }
      { rewrite Dn. cbn [dcur]. symmetry. exact Nc. }
      exists k'. split; [exact Ek|]. split; [exact B'|]. split; [exact H'|].
      split; [|split; [destruct Q; split; assumption|rewrite Dv, Dn; exact F]].
      split; [|exact M']. intros n' p' Hp'. destruct (Nat.eq_dec n' n) as [->|Ne]; [|apply O'; assumption].
      rewrite (single_neq n p p' S Hp Hp'). right. unfold after. rewrite Dv, Dn. cbn [ddisc dwave dcur].
      split; [reflexivity|]. split; [exact Iw|]. split; [exact F|]. split; [symmetry; exact Nw|].
      split; [eapply Forall_impl; [|exact Cw]; cbn beta; intros y Hy; apply Ev; exact Hy|].
      split; [intros X; destruct Q as [_ _ Q _ _]; rewrite Q in X; unfold k1 in X; ks; congruence|].
      split; [left; exact S|]. split; [intros _; exact Vn|]. intros X. contradiction.
    + (* several drivers *)
      unfold update_driving. destruct (Nat.eqb_spec (length (sources D n)) 1); [contradiction|]. cbn [orb].
      assert (Fin : forall k', k_npend k' n = true -> (forall m, k_npend k1 m = true -> k_npend k' m = true) ->
        (forall m, k_npend k' m = true -> k_npend k1 m = true \/ m = n) ->
        k_drv k' = k_drv k1 -> k_evq k' = k_evq k1 -> k_val k' = k_val k1 -> sameq k1 k' -> drives l k').
      { intros k' P1 P2 P3 P4 P5 P6 Q. destruct Q as [Q1 Q2 Q3 Q4 Q5]. split; [|rewrite P6; exact M1].
        intros n' p' Hp'. destruct (Nat.eq_dec n' n) as [->|Ne]; [destruct (Nat.eq_dec p' p) as [->|Ne]|].
        - right. unfold after. rewrite P4, P5, P6, Dn. cbn [ddisc dwave dcur].
          split; [reflexivity|]. split; [exact Iw|]. split; [exact F|]. split; [symmetry; exact Nw|].
          split; [exact Cw|].
          split; [intros X; rewrite Q3 in X; unfold k1 in X; ks; congruence|].
          split; [right; symmetry; exact Nc|]. split; [intros X; contradiction|auto].
        - destruct (O1 n p' Hp') as [X|X]; auto; [left; apply (before_frame l k1)|right; apply (after_frame k1)];
            rewrite ?P4, ?P5, ?P6, ?Q1, ?Q3; auto.
        - destruct (O1 n' p' Hp') as [X|X]; auto; [left; apply (before_frame l k1)|right; apply (after_frame k1)];
            rewrite ?P4, ?P5, ?P6, ?Q1, ?Q3; auto. }
      unfold defer_driving_update. destruct (k_npend k1 n) eqn:Np.
      * exists k1. split; [reflexivity|]. split; [exact B1|]. split; [exact H1|].
        split; [apply Fin; auto; split; reflexivity|]. split; [split; reflexivity|]. rewrite Dn. exact F.
      * destruct (heap_insert_ok (k_drvheap k1) (rank D n) n (h_inv k1 H1) (wf_rank D wf n)) as (h & Eh & Ih & Ph).
        rewrite Eh. cbn [bind]. eexists. split; [reflexivity|]. split; [apply (base_frame k1); auto|].
        assert (Pm : Permutation (map snd (contents h)) (n :: map snd (contents (k_drvheap k1)))).
        { apply (Permutation_map snd) in Ph. exact Ph. }
        split.
        { destruct H1. split; ks.
          - exact Ih.
          - intros m. unfold upd. destruct (Nat.eqb_spec m n) as [->|Em].
            + split; [intros _|reflexivity]. apply (Permutation_in _ (Permutation_sym Pm)). now left.
            + rewrite h_npend0. split; intros X; [apply (Permutation_in _ (Permutation_sym Pm)); now right|].
              apply (Permutation_in _ Pm) in X. destruct X; [congruence|assumption].
          - eapply Permutation_NoDup; [apply Permutation_sym, Pm|]. constructor; [|exact h_nodup0].
            rewrite <- h_npend0. congruence.
          - intros m. unfold upd. destruct (Nat.eqb_spec m n) as [->|]; [intros _|apply h_multi0].
            split; [exact S|]. intros X. rewrite X in Hp. contradiction. }
        split.
        { apply Fin; ks; auto.
          - apply upd_same.
          - intros m Hm. unfold upd. destruct (m =? n); auto.
          - intros m. unfold upd. destruct (Nat.eqb_spec m n); auto.
          - split; reflexivity. }
        split; [split; reflexivity|]. ks. rewrite Dn. exact F.
Qed.

(* ---- the fast path ---- *)

Lemma clear_fastq l k n p : base k -> dheap k -> drives l k -> sources D n = [p] ->
  Forall (fun x => (T < twhen x)%N) (dwave (k_drv k n p)) -> (k_nfast k n = true -> after (set_fastq (upd (k_fastq k) n false) k) n p) ->
  let k' := set_fastq (upd (k_fastq k) n false) k in base k' /\ dheap k' /\ drives l k'.
Proof.
  intros B H Dr Es F A k'. split; [apply (base_frame k); auto|]. split; [destruct H; split; auto|].
  split; [|apply (t_multi l k Dr)]. intros n' p' Hp'. destruct (Nat.eq_dec n' n) as [->|Ne].
  - rewrite Es in Hp'. destruct Hp' as [<-|[]]. destruct (k_nfast k n) eqn:Nf; [right; auto|].
    destruct (t_drv l k Dr n p) as [X|X]; [rewrite Es; now left| |].
    + left. destruct X as (X1 & X2 & X3 & X4). unfold before, k'. ks. rewrite Nf in *.
      split; [exact X1|]. split; [exact X2|]. split; [exact X3|]. destruct X4 as (X4 & X5 & X6).
      split; [exact X4|]. split; [exact X5|]. rewrite Forall_forall in *. intros x Hx. specialize (X6 x Hx).
      specialize (F x Hx). unfold cov in *. destruct (N.eqb_spec (twhen x) T); [lia|]. ks. exact X6.
    + right. apply (after_frame k); unfold k'; ks; auto. rewrite upd_same. auto.
  - destruct (t_drv l k Dr n' p' Hp') as [X|X]; [left; apply (before_frame l k)|right; apply (after_frame k)];
      unfold k'; ks; rewrite ?upd_other by auto; auto.
Qed.

Lemma fast_update_ok l k n : base k -> dheap k -> drives l k -> k_fastq k n = true -> single n ->
  exists k', fast_update_driver eqv D n k = Ok k' /\ base k' /\ dheap k' /\ drives l k' /\
    k_fastq k' = upd (k_fastq k) n false /\ k_sigq k' = k_sigq k /\ k_sfast k' = k_sfast k /\ k_drvq k' = k_drvq k.
Proof.
  intros B H Dr Fq S. pose proof S as S'. unfold KernelProofs.single in S'.
  destruct (sources D n) as [|p [|p2 ps]] eqn:Es; cbn [length] in S'; try lia.
  assert (Hp : In p (sources D n)) by (rewrite Es; now left).
  unfold fast_update_driver. rewrite Es. destruct (k_nfast k n) eqn:Nf.
  - (* update_driving at once *)
    destruct (t_drv l k Dr n p Hp) as [X|X].
    2:{ destruct X as (_ & _ & _ & _ & _ & X & _). destruct (X Nf) as (_ & X' & _). congruence. }
    destruct X as (X1 & X2 & X3 & X4). rewrite Nf, Fq in X4. destruct X4 as (X4 & X5). rewrite X4.
    assert (Nc : tval (dcur (k_drv k n p)) = new_cur T a n p).
    { unfold new_cur. rewrite X5, N.eqb_refl. reflexivity. }
    destruct (update_single l k n p) as (k' & Ek & B' & H' & Q & Dv & O' & M' & Vn & Ev); auto.
    { intros n' p' Hp' _. apply (t_drv l k Dr), Hp'. }
    { apply (t_multi l k Dr). }
    rewrite Ek. cbn [bind]. destruct Q as [Q1 Q2 Q3 Q4 Q5]. rewrite Q1, Fq. eexists. split; [reflexivity|].
    split; [apply (base_frame k'); auto|]. split; [destruct H'; split; auto|].
    split; [|ks; rewrite ?Q2, ?Q4, ?Q5; auto].
    split; [|exact M']. intros n' p' Hp'. destruct (Nat.eq_dec n' n) as [->|Ne].
    + rewrite Es in Hp'. destruct Hp' as [<-|[]]. right. unfold after. ks. rewrite Dv, X4, Q3, Nf.
      split; [exact X1|]. split; [rewrite <- X4; exact X2|]. split; [constructor|].
      split; [unfold new_wave; rewrite X5, N.eqb_refl; reflexivity|]. split; [constructor|].
      split; [intros _; rewrite upd_same; auto|]. split; [left; exact S|]. split; [intros _; exact Vn|].
      intros Y. contradiction.
    + destruct (O' n' p' Hp' Ne) as [X|X]; [left; apply (before_frame l k')|right; apply (after_frame k')];
        ks; rewrite ?upd_other by auto; auto; rewrite Q1; auto.
  - destruct (run_update_ok l k n p B H Dr Hp) as (k1 & E1 & B1 & H1 & D1 & Q & F1).
    rewrite E1. cbn [bind]. destruct Q as [Q1 Q2 Q3 Q4 Q5]. rewrite Q1, Fq. eexists. split; [reflexivity|].
    destruct (clear_fastq l k1 n p) as (C1 & C2 & C3); auto.
    { rewrite Q3, Nf. discriminate. }
    rewrite Q1 in C1, C2, C3. split; [exact C1|]. split; [exact C2|]. split; [exact C3|]. ks. auto.
Qed.

(* ---- the queue of tasks ---- *)

Record queue (l : list task) (ns : list nexus) (k : kst V) : Prop := {
  u_fastq : forall n, k_fastq k n = true -> single n /\
              (In (TFast n) l \/ In (TFastAll (sig D n)) l \/ In n ns);
  u_nodup : NoDup (filter is_fast l);
  u_tfast : forall n, In (TFast n) l -> k_fastq k n = true /\ k_sfast k (sig D n) = false;
  u_tall : forall s, In (TFastAll s) l <-> k_sigq k s = true;
  u_sigq : forall s, k_sigq k s = true -> k_sfast k s = true;
  u_tupd : forall n p, In (TUpdate n p) l -> In p (sources D n);
  u_ns : NoDup ns;
  u_ns_fast : forall n, In n ns -> k_sfast k (sig D n) = true
}.

Lemma drives_drop t l k : is_fast t = true -> drives (t :: l) k -> drives l k.
Proof.
  intros Ft [d m]. split; [|exact m]. intros n p Hp. destruct (d n p Hp) as [X|X]; [left|right; exact X].
  destruct X as (X1 & X2 & X3 & X4). split; [exact X1|]. split; [exact X2|]. split; [exact X3|].
  destruct (k_nfast k n); [exact X4|]. destruct X4 as (X4 & X5 & X6). split; [exact X4|]. split; [exact X5|].
  eapply Forall_impl; [|exact X6]. intros x. unfold cov. destruct (twhen x =? T)%N; [|auto].
  intros [[->|Y]|Y]; auto. discriminate.
Qed.

Lemma drives_done l k n p : drives (TUpdate n p :: l) k ->
  Forall (fun x => (T < twhen x)%N) (dwave (k_drv k n p)) -> drives l k.
Proof.
  intros [d m] F. split; [|exact m]. intros n' p' Hp. destruct (d n' p' Hp) as [X|X]; [left|right; exact X].
  destruct X as (X1 & X2 & X3 & X4). split; [exact X1|]. split; [exact X2|]. split; [exact X3|].
  destruct (k_nfast k n'); [exact X4|]. destruct X4 as (X4 & X5 & X6). split; [exact X4|]. split; [exact X5|].
  rewrite Forall_forall in *. intros x Hx. specialize (X6 x Hx). unfold cov in *.
  destruct (N.eqb_spec (twhen x) T) as [Ex|]; [|exact X6]. destruct X6 as [[[= -> ->]|Y]|Y]; auto.
  specialize (F x Hx). lia.
Qed.

Lemma fast_loop_ok l ns : forall c k, base k -> dheap k -> drives l k -> queue l ns k ->
  exists c' k', fast_loop eqv D ns c k = Ok (c', k') /\ base k' /\ dheap k' /\ drives l k' /\ queue l [] k' /\
    k_drvq k' = k_drvq k /\ k_sigq k' = k_sigq k /\ k_sfast k' = k_sfast k.
Proof.
  induction ns as [|n ns IH]; intros c k B H Dr Q; cbn [fast_loop].
  { exists c, k. auto 10. }
  destruct (k_fastq k n) eqn:Fq.
  - destruct (fast_update_ok l k n B H Dr Fq) as (k1 & E1 & B1 & H1 & D1 & F1 & G1 & S1 & R1).
    { apply (u_fastq l (n :: ns) k Q n Fq). }
    rewrite E1. cbn [bind].
    assert (Q1 : queue l ns k1).
    { pose proof (u_ns _ _ _ Q) as Nd. inversion Nd as [|? ? Nd1 Nd2]; subst. destruct Q. split; rewrite ?G1, ?S1; auto.
      - intros m. rewrite F1. unfold upd. destruct (Nat.eqb_spec m n); [discriminate|]. intros X. apply u_fastq0 in X.
        destruct X as [X [Y|[Y|Y]]]; auto. destruct Y; [congruence|auto].
      - intros m Hm. pose proof (u_tfast0 m Hm) as [X1 X2]. split; [|exact X2]. rewrite F1, upd_other; [exact X1|].
        intros ->. specialize (u_ns_fast0 n (or_introl eq_refl)). congruence.
      - intros m Hm. apply u_ns_fast0. now right. }
    destruct (IH (S c) k1 B1 H1 D1 Q1) as (c' & k' & E & X). exists c', k'. rewrite <- G1, <- S1, <- R1. auto.
  - apply IH; auto. destruct Q. inversion u_ns0; subst. split; auto.
    + intros m X. pose proof (u_fastq0 m X) as [Y [Z|[Z|Z]]]; auto. destruct Z; [congruence|auto].
    + intros m Hm. apply u_ns_fast0. now right.
Qed.

Lemma tasks_ok l : forall k, base k -> dheap k -> drives l k -> queue l [] k ->
  exists k', run_tasks eqv D l k = Ok k' /\ base k' /\ dheap k' /\ drives [] k' /\ queue [] [] k' /\
    k_drvq k' = k_drvq k.
Proof.
  induction l as [|t l IH]; intros k B H Dr Q; cbn [run_tasks].
  { exists k. auto 10. }
  destruct t as [n p|n|s]; cbn [run_task].
  - destruct (run_update_ok (TUpdate n p :: l) k n p B H Dr) as (k1 & E1 & B1 & H1 & D1 & [Q1 Q2 Q3 Q4 Q5] & F1).
    { apply (u_tupd _ _ _ Q). now left. }
    rewrite E1. cbn [bind]. rewrite <- Q5. apply IH; auto.
    + eapply drives_done; eauto.
    + destruct Q. cbn [filter is_fast In] in *. split; rewrite ?Q1, ?Q2, ?Q4; auto.
      * intros m X. apply u_fastq0 in X. intuition discriminate.
      * intros m. rewrite <- u_tall0. split; intros Y; [auto|]. destruct Y; [discriminate|assumption].
  - destruct (fast_update_ok (TFast n :: l) k n B H Dr) as (k1 & E1 & B1 & H1 & D1 & F1 & G1 & S1 & R1).
    { apply (u_tfast _ _ _ Q). now left. }
    { apply (u_fastq _ _ _ Q). apply (u_tfast _ _ _ Q). now left. }
    rewrite E1. cbn [bind]. rewrite <- R1. apply IH; auto.
    + eapply drives_drop; [|exact D1]. reflexivity.
    + destruct Q. cbn [filter is_fast In] in *. inversion u_nodup0 as [|? ? Nd1 Nd2]; subst. split; rewrite ?G1, ?S1; auto.
      * intros m. rewrite F1. unfold upd. destruct (Nat.eqb_spec m n); [discriminate|]. intros X. apply u_fastq0 in X.
        intuition congruence.
      * intros m Hm. pose proof (u_tfast0 m (or_intror Hm)) as [X1 X2]. split; [|exact X2]. rewrite F1, upd_other; [exact X1|].
        intros ->. apply Nd1, filter_In. auto.
      * intros m. rewrite <- u_tall0. split; intros Y; [auto|]. destruct Y; [discriminate|assumption].
  - assert (Sq : k_sigq k s = true) by (apply (u_tall _ _ _ Q); now left).
    assert (Sf : k_sfast k s = true) by apply (u_sigq _ _ _ Q _ Sq).
    unfold fast_update_all_drivers. rewrite Sf, Sq. cbn [andb].
    set (k0 := set_sigq (upd (k_sigq k) s false) k).
    assert (Nin : ~ In (TFastAll s) l).
    { pose proof (u_nodup _ _ _ Q) as Nd. cbn [filter is_fast] in Nd. inversion Nd; subst. intros X.
      apply H2, filter_In. auto. }
    destruct (fast_loop_ok l (nexuses D s) 0 k0) as (c & k1 & E1 & B1 & H1 & D1 & Q1 & R1 & G1 & S1).
    { apply (base_frame k); auto. }
    { destruct H; split; auto. }
    { apply drives_drop in Dr; [|reflexivity]. destruct Dr as [d m]. split; [|exact m]. intros n p Hp.
      destruct (d n p Hp) as [X|X]; [left; apply (before_frame l k)|right; apply (after_frame k)]; auto. }
    { destruct Q. cbn [filter is_fast In] in *. inversion u_nodup0; subst. split; unfold k0; ks; auto.
      - intros m X. apply u_fastq0 in X. destruct X as [X Y]. split; [exact X|].
        destruct Y as [[Y|Y]|[[Y|Y]|[]]]; auto; [discriminate|]. injection Y as Y. right. right. rewrite Y.
        apply (wf_sig D wf). unfold KernelProofs.single in X. destruct (sources D m) as [|p ps] eqn:Es; [discriminate|].
        apply (wf_sources D wf m p). rewrite Es. now left.
      - intros s'. unfold upd. destruct (Nat.eqb_spec s' s) as [->|Ne].
        + split; [contradiction|discriminate].
        + rewrite <- u_tall0. split; [auto|]. intros [X|X]; [congruence|exact X].
      - intros s'. unfold upd. destruct (Nat.eqb_spec s' s) as [->|Ne]; [discriminate|auto].
      - apply (wf_nexuses_nodup D wf).
      - intros m Hm. rewrite (wf_nexuses D wf s m Hm). exact Sf. }
    rewrite E1. cbn [bind].
    match goal with |- context [run_tasks eqv D l ?x] => set (k2 := x) end.
    assert (K2 : k2 = k1 \/ k2 = set_sfast (upd (k_sfast k1) s false) k1).
    { unfold k2. destruct (_ <? _); auto. }
    assert (Rq : k_drvq k2 = k_drvq k) by (destruct K2 as [-> | ->]; ks; exact R1).
    rewrite <- Rq. clearbody k2. destruct K2 as [-> | ->]; [apply IH; assumption|].
    apply IH.
    + apply (base_frame k1); auto.
    + destruct H1; split; auto.
    + destruct D1 as [d m]. split; [|exact m]. intros n p Hp.
      destruct (d n p Hp) as [X|X]; [left; apply (before_frame l k1)|right; apply (after_frame k1)]; auto.
    + destruct Q1. split; ks; auto.
      * intros m Hm. destruct (u_tfast0 m Hm) as [X1 X2]. split; [exact X1|]. unfold upd. destruct (_ =? s); auto.
      * intros s' X. unfold upd. destruct (Nat.eqb_spec s' s) as [->|]; [|auto]. rewrite G1 in X. unfold k0 in X. ks.
        rewrite upd_same in X. discriminate.
Qed.

(* ---- the deferred nexuses ---- *)

(* As [after], whether or not the nexus is still to be resolved. *)
Definition settled (k : kst V) (n : nexus) (p : proc) : Prop :=
  let d := k_drv k n p in
  ddisc d = false /\ dinv T (dwave d) /\ Forall (fun x => (T < twhen x)%N) (dwave d) /\
  view (dwave d) = new_wave T a n p /\
  Forall (fun x => In (twhen x, EDriver n p) (contents (k_evq k))) (dwave d) /\
  (k_nfast k n = true -> dwave d = [] /\ k_fastq k n = false /\ tval (dcur d) = new_cur T a n p) /\
  (single n \/ tval (dcur d) = new_cur T a n p) /\
  (single n -> k_val k n = new_val D T a n).

Lemma after_settled k n p : after k n p -> settled k n p.
Proof. intros (A1 & A2 & A3 & A4 & A5 & A6 & A7 & A8 & A9). unfold settled. auto 10. Qed.

Lemma settled_frame k k' n p :
  k_drv k' n p = k_drv k n p -> k_nfast k' n = k_nfast k n -> (k_fastq k n = false -> k_fastq k' n = false) ->
  (single n -> k_val k' n = k_val k n) ->
  (forall t, In (t, EDriver n p) (contents (k_evq k)) -> In (t, EDriver n p) (contents (k_evq k'))) ->
  settled k n p -> settled k' n p.
Proof.
  intros E1 E2 E3 E4 E6 (B1 & B2 & B3 & B4 & B5 & B6 & B7 & B8). unfold settled. rewrite E1, E2.
  split; [exact B1|]. split; [exact B2|]. split; [exact B3|]. split; [exact B4|].
  split; [eapply Forall_impl; [|exact B5]; cbn beta; auto|].
  split; [intros H; apply B6 in H; intuition|]. split; [exact B7|]. intros H; rewrite E4; auto.
Qed.

Record drained (k : kst V) : Prop := {
  z_drv : forall n p, In p (sources D n) -> settled k n p;
  z_wait : forall n, ~ single n -> k_npend k n = true -> k_val k n = a_val a n;
  z_done : forall n, ~ single n -> k_npend k n = false -> k_val k n = new_val D T a n;
  z_fastq : forall n, k_fastq k n = false;
  z_sigq : forall s, k_sigq k s = false
}.

Lemma tasks_done k : base k -> drives [] k -> queue [] [] k -> drained k.
Proof.
  intros B Dr Q.
  assert (Fq : forall n, k_fastq k n = false).
  { intros n. apply not_true_is_false. intros X. apply (u_fastq _ _ _ Q) in X. cbn [In] in X. tauto. }
  assert (A : forall n p, In p (sources D n) -> after k n p).
  { intros n p Hp. destruct (t_drv _ _ Dr n p Hp) as [X|X]; [|exact X].
    destruct X as (X1 & X2 & X3 & X4). rewrite Fq in X4.
    assert (Sv : single n -> new_cur T a n p = a_cur a n p -> k_val k n = new_val D T a n).
    { intros S Hc. rewrite X3 by exact S. pose proof (single_is D n p S Hp) as Es.
      rewrite (new_val_single n p Es), Hc, res_ok, Es by (rewrite Es; discriminate). reflexivity. }
    destruct (k_nfast k n) eqn:Nf.
    - destruct X4 as (X4 & X5 & X6).
      assert (S : single n).
      { apply (b_nfast k B) in Nf. unfold KernelProofs.single. destruct (sources D n) as [|? [|]]; cbn [length In] in *; [tauto|reflexivity|lia]. }
      assert (Nc : new_cur T a n p = a_cur a n p).
      { unfold new_cur. destruct X6 as [-> | ->]; [reflexivity|]. rewrite N.eqb_refl. reflexivity. }
      assert (Nw : new_wave T a n p = []).
      { unfold new_wave. destruct X6 as [-> | ->]; [reflexivity|]. rewrite N.eqb_refl. reflexivity. }
      unfold after. rewrite X4, Nw, Nc, Nf. split; [exact X1|]. split; [rewrite <- X4; exact X2|]. split; [constructor|].
      split; [reflexivity|]. split; [constructor|]. split; [auto|]. split; [auto|]. split; [auto|]. intros Y; contradiction.
    - destruct X4 as (X4 & X5 & X6).
      assert (F : Forall (fun x => (T < twhen x)%N) (dwave (k_drv k n p))).
      { destruct X2 as (_ & X2 & _). rewrite Forall_forall in *. intros x Hx. specialize (X6 x Hx). specialize (X2 x Hx).
        unfold cov in X6. rewrite Fq in X6. destruct (N.eqb_spec (twhen x) T); [|lia]. destruct X6 as [[]|]; discriminate. }
      assert (Nm : new_wave T a n p = view (dwave (k_drv k n p)) /\ new_cur T a n p = a_cur a n p /\
                   (~ single n -> matures T (a_wave a n p) = false)).
      { unfold new_wave, new_cur, matures. destruct X4 as [X4|(S & X4 & _)]; rewrite X4.
        - destruct (dwave (k_drv k n p)) as [|x w]; [auto|]. inversion F; subst. unfold view. cbn [map].
          destruct (N.eqb_spec (twhen x) T); [lia|]. auto.
        - rewrite N.eqb_refl. split; [reflexivity|]. split; [reflexivity|]. intros Y; contradiction. }
      destruct Nm as (Nw & Nc & Nm).
      unfold after. rewrite Nw, Nc, Nf. split; [exact X1|]. split; [exact X2|]. split; [exact F|]. split; [reflexivity|].
      split.
      { rewrite Forall_forall in *. intros x Hx. specialize (X6 x Hx). specialize (F x Hx). unfold cov in X6.
        destruct (N.eqb_spec (twhen x) T); [lia|exact X6]. }
      split; [discriminate|]. split; [exact X5|]. split; [auto|]. intros Y M. rewrite Nm in M by exact Y. discriminate. }
  split; auto using after_settled.
  - intros n S _. apply (t_multi _ _ Dr), S.
  - intros n S Np. rewrite (t_multi _ _ Dr n S). unfold new_val. destruct (existsb _ _) eqn:E; [|reflexivity].
    apply existsb_exists in E. destruct E as (p & Hp & M). apply (A n p Hp) in M; [congruence|exact S].
  - intros s. apply not_true_is_false. intros X. apply (u_tall _ _ _ Q) in X. destruct X.
Qed.

Lemma calc_all k n : drained k -> ~ single n -> sources D n <> [] -> calculate_driving D n k = new_val D T a n.
Proof.
  intros Z S Ne. rewrite new_val_res by exact Ne. unfold calculate_driving.
  assert (E : resolve D n (map (cur_value k n) (filter (fun p => negb (ddisc (k_drv k n p))) (sources D n))) =
              resolve D n (map (new_cur T a n) (sources D n))).
  { f_equal. assert (A : forall p, In p (sources D n) -> settled k n p) by apply (z_drv k Z).
    induction (sources D n) as [|p l IH] in A |- *; [reflexivity|]. cbn [filter map].
    destruct (A p (or_introl eq_refl)) as (A1 & _ & _ & _ & _ & _ & [A2|A2] & _); [contradiction|].
    rewrite A1. cbn [negb map]. unfold cur_value at 1. rewrite A2, IH; [reflexivity|]. intros q Hq. apply A. now right. }
  destruct (sources D n) eqn:Es; [contradiction|]. rewrite <- Es in *. exact E.
Qed.

Lemma drain_ok fuel : forall k, base k -> dheap k -> drained k -> hsize (k_drvheap k) <= fuel ->
  exists k', drain_driving eqv D fuel k = Ok k' /\ base k' /\ dheap k' /\ drained k' /\ contents (k_drvheap k') = [] /\
    k_drvq k' = k_drvq k.
Proof.
  induction fuel as [|fuel IH]; intros k B H Z Hs; cbn [drain_driving].
  - assert (Hz : hsize (k_drvheap k) = 0) by lia. rewrite Hz. cbn [Nat.eqb]. exists k. repeat (split; auto).
    apply length_zero_iff_nil. rewrite contents_length. exact Hz.
  - destruct (Nat.eqb_spec (hsize (k_drvheap k)) 0) as [Hz|Hz].
    { exists k. repeat (split; auto). apply length_zero_iff_nil. rewrite contents_length. exact Hz. }
    destruct (heap_extract_ok (k_drvheap k) (h_inv k H)) as (h & Eh & Ih & Ph & _); [lia|].
    rewrite Eh. cbn [bind]. set (n := USER (k_drvheap k) 1) in *.
    assert (Pm : Permutation (map snd (contents (k_drvheap k))) (n :: map snd (contents h))).
    { apply (Permutation_map snd) in Ph. exact Ph. }
    assert (Nn : k_npend k n = true).
    { apply (h_npend k H). apply (Permutation_in _ (Permutation_sym Pm)). now left. }
    assert (Nd : ~ In n (map snd (contents h)) /\ NoDup (map snd (contents h))).
    { pose proof (Permutation_NoDup Pm (h_nodup k H)) as X. inversion X; auto. }
    destruct (h_multi k H n Nn) as [Ns Nz].
    unfold update_driving. rewrite orb_true_r.
    set (k1 := set_npend (upd (k_npend (set_drvheap h k)) n false) (set_drvheap h k)).
    assert (Ec : calculate_driving D n k1 = new_val D T a n).
    { rewrite <- (calc_all k n Z Ns Nz). reflexivity. }
    destruct (put_base k1 n (calculate_driving D n k1)) as (k2 & E2 & B2 & K2 & V2).
    { apply (base_frame k); auto. }
    { apply (z_wait k Z n Ns Nn). }
    rewrite E2. cbn [bind]. destruct K2. unfold k1 in x_drv0, x_fastq0, x_sigq0, x_nfast0, x_sfast0, x_npend0, x_drvheap0, x_drvq0, x_evq0. ks.
    assert (R : exists k', drain_driving eqv D fuel k2 = Ok k' /\ base k' /\ dheap k' /\ drained k' /\
                 contents (k_drvheap k') = [] /\ k_drvq k' = k_drvq k2).
    { apply IH; auto.
      - destruct H. split; rewrite ?x_drvheap0; auto; try tauto.
        + intros m. rewrite x_npend0. unfold upd. destruct (Nat.eqb_spec m n) as [->|Em].
          * split; [discriminate|tauto].
          * rewrite h_npend0. split; intros X; [apply (Permutation_in _ Pm) in X; destruct X; [congruence|assumption]|].
            apply (Permutation_in _ (Permutation_sym Pm)). now right.
        + intros m. rewrite x_npend0. unfold upd. destruct (Nat.eqb_spec m n); [discriminate|auto].
      - destruct Z. split; auto.
        + intros n' p' Hp'. assert (Sv : single n' -> k_val k2 n' = k_val k n').
          { intros S. rewrite V2. destruct (Nat.eqb_spec n' n) as [->|]; [contradiction|reflexivity]. }
          apply (settled_frame k); rewrite ?x_drv0, ?x_nfast0, ?x_fastq0; auto. intros t Ht. apply x_evq0. exact Ht.
        + intros m Sm. rewrite x_npend0, V2. unfold upd. destruct (Nat.eqb_spec m n); [discriminate|]. apply z_wait0, Sm.
        + intros m Sm. rewrite x_npend0, V2. unfold upd. destruct (Nat.eqb_spec m n) as [->|]; [intros _; exact Ec|]. apply z_done0, Sm.
        + intros m. rewrite x_fastq0. apply z_fastq0.
        + intros m. rewrite x_sigq0. apply z_sigq0.
      - rewrite x_drvheap0. rewrite <- !contents_length in *. apply Permutation_length in Ph. cbn [length] in Ph. lia. }
    destruct R as (k' & R1 & R2 & R3 & R4 & R5 & R6). exists k'. rewrite R6, x_drvq0. auto 10.
Qed.
End Drive.

(* ---- the start of a cycle ---- *)

Definition idle_queues (k : kst V) : Prop := k_procq k = [] /\ k_drvq k = [].

Section Start.
Context (a : abs) (k : kst V).
Hypothesis G : agree D (k_postq k) [] a k.
Hypothesis Iq : idle_queues k.

Lemma late_of p : a_late a p = true -> a_timeout a p = None /\ postponed D p = true.
Proof.
  intros H. destruct (g_proc _ _ _ _ _ G). apply p_late in H. split; [apply p_running; rewrite app_nil_r; exact H|auto].
Qed.
Lemma res_of n : sources D n <> [] -> a_val a n = resolve D n (map (a_cur a n) (sources D n)).
Proof. apply (v_res _ _ _ (g_val _ _ _ _ _ G)). Qed.

(* What [base] and the other groups say, once the events of this time are off the queue. *)
Lemma dheap_of k' : k_npend k' = k_npend k -> k_drvheap k' = k_drvheap k -> dheap k'.
Proof.
  intros E1 E2. destruct (g_val _ _ _ _ _ G). split; rewrite ?E1, ?E2; auto.
  - intros n. rewrite v_npend, v_empty. split; [discriminate|intros []].
  - rewrite v_empty. constructor.
  - intros n. rewrite v_npend. discriminate.
Qed.

(* Another delta cycle. *)
Lemma start_delta : k_delta k = true -> exists k1, begin_cycle k = Ok k1 /\
  base a (k_now k) (k_iter k + 1) k1 /\ dheap k1 /\ drives a (k_now k) (k_drvq k1) k1 /\ queue (k_drvq k1) [] k1.
Proof.
  intros Dl. unfold begin_cycle. rewrite Dl. cbn [bind]. eexists. split; [reflexivity|]. destruct Iq as [I1 I2].
  pose proof G as [G1 G2 G3 G4 Gs G5 G6 G7 G8 G9]. ks. rewrite I1, I2.
  assert (Nst : forall n, k_stamp k n <> Some (k_now k, (k_iter k + 1)%Z)).
  { intros n H. apply (v_stamp _ _ _ G8) in H. lia. }
  assert (Nw : forall p, ~ woken_by a (k_now k) (k_iter k + 1) k p).
  { intros p (n & H & _). apply (Nst n H). }
  split; [|split; [|split]].
  - split; ks; auto.
    + apply (f_event _ _ G6).
    + destruct G7. rewrite app_nil_r in *. split; ks; auto.
      * intros p. rewrite p_now. rewrite (timed_out_some a (k_now k) p). split; [auto|]. intros [H|[_ H]]; [exact H|]. now apply Nw in H.
      * intros p. rewrite p_late. split; [auto|]. intros [H|(_ & _ & H)]; [exact H|]. now apply Nw in H.
      * intros t p. rewrite p_event. split; [intros [H1 H2]; repeat split; auto; apply Nw|tauto].
      * intros p. rewrite p_delayed. split; [intros (t & H1 & H2); exists t; repeat split; auto; apply Nw|].
        intros (t & H1 & H2 & _). eauto.
    + destruct G9. split; ks; auto.
    + intros n. split; [intros H; now apply Nst in H|]. rewrite (v_val _ _ _ G8). congruence.
    + intros n t i H. apply (v_stamp _ _ _ G8) in H. destruct H as [H|[H1 H2]]; [auto|right; split; [exact H1|lia]].
    + apply (f_nfast _ _ G6).
  - apply dheap_of; reflexivity.
  - split; ks; [|intros n _; apply (v_val _ _ _ G8)]. intros n p Hp. left. specialize (G5 n p Hp).
    unfold before, cov. ks. destruct G5 as (X1 & X2 & X3). split; [exact X1|]. split; [exact X2|].
    split; [intros _; apply (v_val _ _ _ G8)|]. destruct (k_nfast k n).
    + destruct X3 as [X3 X4]. split; [exact X3|]. destruct (k_fastq k n); [exact X4|]. intuition.
    + destruct X3 as (X3 & X4 & X5). split; [intuition|]. split; [exact X4|]. exact X5.
  - destruct G6. split; ks; auto.
    + intros n H. apply f_fastq in H. destruct H as (H1 & _ & H2). split; [exact H1|].
      destruct H2 as [H2|H2]; [auto|]. right. left. apply f_tall, H2.
    + intros s H. apply f_sigq in H. tauto.
    + intros n p H. apply f_tupd in H. tauto.
    + constructor.
Qed.

(* Time advances: taking the events off the queue. *)
Section Advance.
Hypothesis Dl : k_delta k = false.
Hypothesis Busy : hsize (k_evq k) <> 0.

Let T : N := KEY (k_evq k) 1.

Lemma min_T t e : In (t, e) (contents (k_evq k)) -> (T <= t)%N.
Proof.
  intros H. destruct (heap_min_spec (k_evq k) (proj1 (g_heap _ _ _ _ _ G))) as (rest & _ & X); [lia|].
  apply (X t e H).
Qed.
Lemma T_in : exists e, In (T, e) (contents (k_evq k)).
Proof.
  destruct (heap_min_spec (k_evq k) (proj1 (g_heap _ _ _ _ _ G))) as (rest & P & _); [lia|].
  eexists. apply (Permutation_in _ (Permutation_sym P)). left. reflexivity.
Qed.
Lemma T_range : (k_now k < T < 2 ^ 63)%N.
Proof. destruct T_in as (e & H). apply (g_future _ _ _ _ _ G) in H. exact H. Qed.

Lemma no_tasks : k_ddrvq k = [] /\ k_dprocq k = [] /\ (forall n, k_fastq k n = false) /\ (forall s, k_sigq k s = false).
Proof.
  destruct (g_fast _ _ _ _ _ G), (g_proc _ _ _ _ _ G).
  assert (S : forall s, k_sigq k s = false).
  { intros s. apply not_true_is_false. intros H. apply f_sigq in H. destruct H. congruence. }
  assert (F : forall n, k_fastq k n = false).
  { intros n. apply not_true_is_false. intros H. apply f_fastq in H. destruct H as (_ & H & _). congruence. }
  split; [|split; [|auto]].
  - destruct (k_ddrvq k) as [|t l]; [reflexivity|]. exfalso. destruct t as [n p|n|s].
    + destruct (f_tupd n p) as [_ H]; [now left|]. congruence.
    + destruct (f_tfast n) as [H _]; [now left|]. rewrite F in H. discriminate.
    + assert (H : k_sigq k s = true) by (apply f_tall; now left). rewrite S in H. discriminate.
  - destruct (k_dprocq k) as [|p l]; [reflexivity|]. specialize (p_delta p (or_introl eq_refl)). congruence.
Qed.

Record framed (k' : kst V) : Prop := {
  m_now : k_now k' = T; m_iter : k_iter k' = 0%Z; m_delta : k_delta k' = false;
  m_dprocq : k_dprocq k' = []; m_ddrvq : k_ddrvq k' = []; m_postq : k_postq k' = k_postq k;
  m_drv : k_drv k' = k_drv k; m_fastq : k_fastq k' = k_fastq k; m_sigq : k_sigq k' = k_sigq k;
  m_nfast : k_nfast k' = k_nfast k; m_sfast : k_sfast k' = k_sfast k; m_val : k_val k' = k_val k;
  m_stamp : k_stamp k' = k_stamp k; m_npend : k_npend k' = k_npend k;
  m_drvheap : k_drvheap k' = k_drvheap k; m_sense : k_sense k' = k_sense k }.

Record taking (k' : kst V) : Prop := {
  y_frame : framed k';
  y_heap : heap_inv (k_evq k');
  y_sub : forall t e, In (t, e) (contents (k_evq k')) -> In (t, e) (contents (k_evq k));
  y_first : forall p, In p (k_procq k') -> a_timeout a p = Some T;
  y_event : forall t p, In (t, EProc p) (contents (k_evq k')) <-> a_timeout a p = Some t /\ ~ In p (k_procq k');
  y_events : NoDup (proc_events (contents (k_evq k')));
  y_delayed : forall p, k_delayed k' p = true <-> a_timeout a p <> None /\ ~ In p (k_procq k');
  y_pend : forall p, k_pend k' p = true <-> In p (k_procq k' ++ k_postq k);
  y_nodup : NoDup (k_procq k' ++ k_postq k);
  y_drv : forall t n p, In (t, EDriver n p) (contents (k_evq k)) ->
            In (t, EDriver n p) (contents (k_evq k')) \/ (t = T /\ In (TUpdate n p) (k_drvq k'));
  y_tupd : forall t, In t (k_drvq k') -> exists n p, t = TUpdate n p /\ In p (sources D n)
}.

Lemma begin_taking : exists k1, begin_cycle k = Ok k1 /\ taking k1 /\ k_evq k1 = k_evq k.
Proof.
  unfold begin_cycle. rewrite Dl. unfold heap_min_key. destruct (Nat.ltb_spec (hsize (k_evq k)) 1); [lia|]. cbn [bind].
  eexists. split; [reflexivity|]. split; [|reflexivity]. destruct Iq as [I1 I2]. destruct no_tasks as (N1 & N2 & N3 & N4).
  pose proof G as [G1 G2 G3 G4 Gs G5 G6 G7 G8 G9]. ks. rewrite I1, I2, N1, N2.
  destruct G7. rewrite N2, app_nil_r in *. cbn [app] in *. split; ks; auto.
  - split; ks; auto.
  - intros p [].
  - intros t p. rewrite p_event. cbn [In]. split; [tauto|]. intros [H1 _]. split; [exact H1|].
    pose proof (p_future p t H1) as X. assert (t <> k_now k); [|lia]. intros ->. apply p_now in H1. destruct H1.
  - intros p. rewrite p_delayed. cbn [In]. split.
    + intros (t & H1 & _). split; [congruence|tauto].
    + intros [Hn _]. destruct (a_timeout a p) as [t|] eqn:E; [|congruence]. exists t. split; [reflexivity|].
      pose proof (p_future p t E) as X. assert (t <> k_now k); [|lia]. intros ->. apply p_now in E. destruct E.
  - intros t Ht. destruct Ht.
Qed.

Lemma take_ok fuel : forall k', taking k' -> hsize (k_evq k') <> 0 -> KEY (k_evq k') 1 = T -> hsize (k_evq k') <= fuel ->
  exists k2, take_events fuel k' = Ok k2 /\ taking k2 /\ (forall t e, In (t, e) (contents (k_evq k2)) -> (T < t)%N).
Proof.
  induction fuel as [|fuel IH]; intros k' Y Hs Hk Hf; [lia|]. cbn [take_events].
  destruct (heap_extract_ok (k_evq k') (y_heap k' Y)) as (h & Eh & Ih & Ph & Mh); [lia|].
  rewrite Eh. cbn [bind]. rewrite Hk in *.
  pose proof Y as [Y1 Y2 Y3 Y4 Y5 Y6 Y7 Y8 Y9 Y10 Y11]. pose proof Y1 as [].
  assert (Len : S (hsize h) = hsize (k_evq k')).
  { rewrite <- !contents_length. apply Permutation_length in Ph. cbn [length] in Ph. lia. }
  assert (Rest : forall k2, taking k2 -> k_evq k2 = h ->
     exists k3, (if hsize (k_evq k2) =? 0 then Ok k2
       else do! t <- heap_min_key (k_evq k2); if (k_now k2 <? t)%N then Ok k2 else take_events fuel k2) = Ok k3 /\
       taking k3 /\ (forall t e, In (t, e) (contents (k_evq k3)) -> (T < t)%N)).
  { intros k2 X Xh. destruct (Nat.eqb_spec (hsize (k_evq k2)) 0) as [Hz|Hz].
    { exists k2. split; [reflexivity|]. split; [exact X|]. intros t e H. exfalso.
      assert (Z : contents (k_evq k2) = []) by (apply length_zero_iff_nil; rewrite contents_length; exact Hz).
      rewrite Z in H. destruct H. }
    unfold heap_min_key. destruct (Nat.ltb_spec (hsize (k_evq k2)) 1); [lia|]. cbn [bind].
    rewrite (m_now k2 (y_frame k2 X)).
    destruct (heap_min_spec (k_evq k2) (proj1 (y_heap k2 X))) as (rest & Pr & Mr); [lia|].
    destruct (N.ltb_spec T (KEY (k_evq k2) 1)) as [Lt|Ge].
    - exists k2. split; [reflexivity|]. split; [exact X|]. intros t e He. apply Mr in He. lia.
    - apply IH; auto; [|rewrite Xh; lia]. apply N.le_antisymm; [exact Ge|].
      apply (min_T _ (USER (k_evq k2) 1)), (y_sub k2 X). apply (Permutation_in _ (Permutation_sym Pr)). now left. }
  assert (Sub : forall t e, In (t, e) (contents h) -> In (t, e) (contents (k_evq k'))).
  { intros t e X. apply (Permutation_in _ (Permutation_sym Ph)). now right. }
  assert (Hd : In (T, USER (k_evq k') 1) (contents (k_evq k'))).
  { apply (Permutation_in _ (Permutation_sym Ph)). now left. }
  destruct (USER (k_evq k') 1) as [p|n p] eqn:Eu.
  - (* a process *)
    apply Y5 in Hd. destruct Hd as [Hd1 Hd2].
    assert (Dp : k_delayed k' p = true) by (apply Y7; split; [congruence|exact Hd2]).
    ks. rewrite Dp. unfold set_pending. ks.
    assert (Pp : k_pend k' p = false).
    { apply not_true_is_false. intros X. apply Y8, in_app_or in X. destruct X as [X|X]; [contradiction|].
      assert (a_timeout a p = None); [|congruence]. apply (p_running _ _ _ _ _ (g_proc _ _ _ _ _ G)). rewrite app_nil_r. exact X. }
    rewrite Pp, upd_same. cbn [orb bind]. ks.
    match goal with |- context [heap_min_key (k_evq ?x)] => idtac | _ => idtac end.
    assert (Npe : ~ In p (proc_events (contents h)) /\ NoDup (proc_events (contents h))).
    { apply proc_events_perm in Ph. pose proof (Permutation_NoDup Ph Y6) as X. cbn in X. inversion X; auto. }
    destruct Npe as [Npe1 Npe2].
    match goal with |- context [take_events fuel ?x] => set (k2 := x) end.
    refine (Rest k2 _ eq_refl). unfold k2. split; ks; auto.
    + destruct Y1. split; ks; auto.
    + intros q Hq. apply in_app_or in Hq. destruct Hq as [Hq|[<-|[]]]; auto.
    + intros t q. split.
      * intros X. pose proof (Sub _ _ X) as X'. apply Y5 in X'. destruct X' as [X1 X2]. split; [exact X1|].
        intros Z. apply in_app_or in Z. destruct Z as [Z|[<-|[]]]; [contradiction|]. apply Npe1, in_proc_events. eauto.
      * intros [X1 X2]. rewrite in_app_iff in X2. assert (X3 : In (t, EProc q) (contents (k_evq k'))) by (apply Y5; tauto).
        apply (Permutation_in _ Ph) in X3. destruct X3 as [X3|X3]; [|exact X3]. exfalso. apply X2. right. left. congruence.
    + intros q. unfold upd. rewrite in_app_iff. cbn [In]. destruct (Nat.eqb_spec q p) as [->|Nq].
      * split; [discriminate|]. tauto.
      * rewrite Y7. intuition.
    + intros q. unfold upd. rewrite !in_app_iff. cbn [In]. destruct (Nat.eqb_spec q p) as [->|Nq].
      * tauto.
      * rewrite Y8, in_app_iff. assert (X : p = q <-> False) by (split; [intros ->; apply Nq; reflexivity|tauto]). rewrite X. tauto.
    + rewrite <- app_assoc. cbn [app]. eapply Permutation_NoDup; [apply Permutation_middle|]. constructor; [|exact Y9].
      rewrite <- Y8. congruence.
    + intros t n q X. destruct (Y10 t n q X) as [X1|X1]; [|auto]. left. apply (Permutation_in _ Ph) in X1.
      destruct X1 as [X1|X1]; [discriminate|exact X1].
  - (* a driver *)
    cbn [bind]. ks. match goal with |- context [take_events fuel ?x] => set (k2 := x) end.
    refine (Rest k2 _ eq_refl). unfold k2. split; ks; auto.
    + destruct Y1. split; ks; auto.
    + intros t q. rewrite <- Y5. split; [apply Sub|]. intros X. apply (Permutation_in _ Ph) in X.
      destruct X as [X|X]; [discriminate|exact X].
    + apply proc_events_perm in Ph. cbn in Ph. eapply Permutation_NoDup; [exact Ph|exact Y6].
    + intros t m q X. destruct (Y10 t m q X) as [X1|[X1 X2]]; [|right; rewrite in_app_iff; auto].
      apply (Permutation_in _ Ph) in X1. destruct X1 as [[= <- <- <-]|X1]; [|auto].
      right. split; [reflexivity|]. apply in_or_app. right. now left.
    + intros t X. apply in_app_or in X. destruct X as [X|[<-|[]]]; [auto|]. exists n, p. split; [reflexivity|].
      apply Y3 in Hd. apply (f_event _ _ (g_fast _ _ _ _ _ G) _ _ _ Hd).
Qed.

Lemma start_later : exists k1 k2, begin_cycle k = Ok k1 /\ take_events (hsize (k_evq k1)) k1 = Ok k2 /\
  base a T 0 k2 /\ dheap k2 /\ drives a T (k_drvq k2) k2 /\ queue (k_drvq k2) [] k2.
Proof.
  destruct begin_taking as (k1 & E1 & Y1 & Ev). exists k1.
  destruct (take_ok (hsize (k_evq k1)) k1 Y1) as (k2 & E2 & Y & Fut); rewrite ?Ev; auto.
  rewrite Ev in E2. exists k2. split; [exact E1|]. split; [exact E2|].
  pose proof Y as [Y0 Y2 Y3 Y4 Y5 Y6 Y7 Y8 Y9 Y10 Y11]. pose proof Y0 as [].
  destruct no_tasks as (N1 & N2 & N3 & N4).
  pose proof G as [G1 G2 G3 G4 Gs G5 G6 G7 G8 G9]. pose proof T_range as Tr.
  assert (Nst : forall n, k_stamp k2 n <> Some (T, 0%Z)).
  { intros n H. rewrite m_stamp0 in H. apply (v_stamp _ _ _ G8) in H. lia. }
  assert (Nw : forall p, ~ woken_by a T 0 k2 p).
  { intros p (n & H & _). apply (Nst n H). }
  assert (Tm : forall p t, a_timeout a p = Some t -> (T < t)%N \/ (t = T /\ In p (k_procq k2))).
  { intros p t H. destruct (in_dec Nat.eq_dec p (k_procq k2)) as [I|I].
    - right. pose proof (Y4 p I) as X. split; [congruence|exact I].
    - left. apply (Fut t (EProc p)), Y5. auto. }
  split; [|split; [|split]].
  - split; auto.
    + intros t e H. split; [apply (Fut t e H)|]. apply Y3 in H. apply G4 in H. lia.
    + intros t n p H. apply Y3 in H. apply (f_event _ _ G6 _ _ _ H).
    + split; rewrite ?m_postq0; auto.
      * intros p. rewrite (timed_out_some a T p). split; [intros H; left; auto|]. intros [H|[_ H]]; [|now apply Nw in H].
        apply Tm in H. destruct H as [H|[_ H]]; [lia|exact H].
      * intros p. rewrite (p_late _ _ _ _ _ G7). split; [auto|]. intros [H|(_ & _ & H)]; [exact H|now apply Nw in H].
      * intros t p. rewrite Y5. split.
        -- intros [H1 H2]. split; [exact H1|]. split; [|apply Nw]. apply Tm in H1. destruct H1 as [H1|[_ H1]]; [exact H1|contradiction].
        -- intros (H1 & H2 & _). split; [exact H1|]. intros H. apply Y4 in H. rewrite H1 in H. injection H as ->. lia.
      * intros p. rewrite Y7. split.
        -- intros [H1 H2]. destruct (a_timeout a p) as [t|] eqn:E; [|congruence]. exists t. split; [reflexivity|]. split; [|apply Nw].
           apply Tm in E. destruct E as [E|[_ E]]; [exact E|contradiction].
        -- intros (t & H1 & H2 & _). split; [congruence|]. intros H. apply Y4 in H. rewrite H1 in H. injection H as ->. lia.
    + destruct G9. split; rewrite ?m_sense0; auto.
    + intros n. split; [intros H; now apply Nst in H|]. rewrite m_val0, (v_val _ _ _ G8). congruence.
    + intros n t i. rewrite m_stamp0. intros H. apply (v_stamp _ _ _ G8) in H. lia.
    + intros n. rewrite m_nfast0. apply (f_nfast _ _ G6).
  - apply dheap_of; assumption.
  - split; [|intros n _; rewrite m_val0; apply (v_val _ _ _ G8)]. intros n p Hp. left. specialize (G5 n p Hp).
    unfold before, cov. rewrite m_drv0, m_nfast0, m_fastq0, m_val0. destruct G5 as (X1 & X2 & X3). split; [exact X1|].
    assert (Cv : Forall (fun x => In (twhen x, EDriver n p) (contents (k_evq k))) (dwave (k_drv k n p))).
    { destruct (k_nfast k n); [destruct X3 as [X3 _]; rewrite X3; constructor|]. destruct X3 as (_ & _ & X3).
      eapply Forall_impl; [|exact X3]. intros x. unfold covered. rewrite N1, N3. destruct (twhen x =? k_now k)%N; [|auto].
      intros [[]|]; discriminate. }
    assert (Di : dinv T (dwave (k_drv k n p))).
    { destruct X2 as (S1 & S2 & S3 & S4). split; [exact S1|]. split; [|split; [lia|exact S4]].
      eapply Forall_impl; [|exact Cv]. cbn beta. intros x. apply min_T. }
    split; [exact Di|]. split; [intros _; apply (v_val _ _ _ G8)|]. rewrite N3 in *. destruct (k_nfast k n).
    + destruct X3 as [X3 [X4 X5]]. split; [exact X3|]. split; [exact X4|]. destruct X5 as [X5|[X5 _]]; [auto|congruence].
    + destruct X3 as (X3 & X4 & X5). split; [destruct X3 as [X3|(_ & X3 & _)]; [auto|congruence]|]. split; [exact X4|].
      eapply Forall_impl; [|exact Cv]. cbn beta. intros x Hx. destruct (Y10 _ _ _ Hx) as [Z|[Z1 Z2]].
      * destruct (N.eqb_spec (twhen x) T) as [E|E]; [|exact Z]. apply Fut in Z. lia.
      * rewrite Z1, N.eqb_refl. auto.
  - assert (Nf : forall t, In t (k_drvq k2) -> is_fast t = false).
    { intros t H. apply Y11 in H. destruct H as (n & p & -> & _). reflexivity. }
    assert (Fl : filter is_fast (k_drvq k2) = []).
    { clear -Nf. induction (k_drvq k2) as [|t l IH]; [reflexivity|]. cbn [filter]. rewrite (Nf t (or_introl eq_refl)).
      apply IH. intros u Hu. apply Nf. now right. }
    split; rewrite ?m_fastq0, ?m_sigq0, ?m_sfast0.
    + intros n. rewrite N3. discriminate.
    + rewrite Fl. constructor.
    + intros n H. apply Nf in H. discriminate.
    + intros s. rewrite N4. split; [intros H; apply Nf in H; discriminate|discriminate].
    + intros s. rewrite N4. discriminate.
    + intros n p H. apply Y11 in H. destruct H as (n' & p' & [= -> ->] & H). exact H.
    + constructor.
    + intros n [].
Qed.
End Advance.
End Start.

Lemma nodup_right {X} (l l' : list X) : NoDup (l ++ l') -> NoDup l'.
Proof. induction l as [|x l IH]; [auto|]. cbn [app]. intros H. inversion H; auto. Qed.
Lemma nodup_left {X} (l l' : list X) : NoDup (l ++ l') -> NoDup l.
Proof.
  intros H. apply (nodup_right l'). eapply Permutation_NoDup; [apply Permutation_app_comm|exact H].
Qed.

(* ---- the end of the first half ---- *)

Lemma half_way a k0 T it k :
  agree D (k_postq k0) [] a k0 -> (T < 2 ^ 63)%N -> (-1 <= it)%Z -> (forall p t, a_timeout a p = Some t -> (T <= t)%N) ->
  base a T it k -> dheap k -> drained a T k -> contents (k_drvheap k) = [] ->
  agree D (k_postq k) (k_procq k) (advance eqv D T a) k /\
  (forall p, In p (k_procq k) <-> runs_first eqv D T a p = true) /\
  (forall p, In p (k_postq k) <-> runs_late eqv D T a p = true) /\
  NoDup (k_procq k ++ k_postq k).
Proof.
  intros G Ts It Fut B H Z He.
  pose proof (late_of a k0 G) as Late. pose proof (res_of a k0 G) as Res.
  pose proof B as [B1 B2 B3 B4 B5 B6 B7 B8 B9 B10 B11 B12]. pose proof B8 as [W1 W2 W3 W4 W5 W6 W7 W8].
  assert (Np : forall n, k_npend k n = false).
  { intros n. apply not_true_is_false. intros X. apply (h_npend k H) in X. rewrite He in X. destruct X. }
  assert (Vl : forall n, k_val k n = new_val D T a n).
  { intros n. destruct (Nat.eq_dec (length (sources D n)) 1) as [S|S].
    - destruct (sources D n) as [|p l] eqn:Es; [discriminate|].
      destruct (z_drv a T k Z n p) as (_ & _ & _ & _ & _ & _ & _ & X); [rewrite Es; now left|]. apply X.
      unfold KernelProofs.single. rewrite Es. exact S.
    - apply (z_done a T k Z n S), Np. }
  assert (Wk : forall p, woken_by a T it k p <-> woken eqv D T a p = true).
  { intros p. unfold woken_by, woken. rewrite existsb_exists. split.
    - intros (n & X1 & X2). exists n. split; [apply (s_in _ _ _ B9 n p X2)|]. rewrite X2, andb_true_r. unfold event_on.
      apply B10 in X1. rewrite Vl in X1. apply negb_true_iff, not_true_is_false. intros Y. apply eqv_ok in Y. congruence.
    - intros (n & X1 & X2). apply andb_true_iff in X2. destruct X2 as [X2 X3]. exists n. split; [|exact X3]. apply B10. rewrite Vl.
      unfold event_on in X2. apply negb_true_iff in X2. intros Y. symmetry in Y. apply eqv_ok in Y. congruence. }
  assert (First : forall p, In p (k_procq k) <-> runs_first eqv D T a p = true).
  { intros p. rewrite W2, Wk. unfold runs_first. rewrite orb_true_iff, andb_true_iff, negb_true_iff. tauto. }
  assert (Lt : forall p, In p (k_postq k) <-> runs_late eqv D T a p = true).
  { intros p. rewrite W3, Wk. unfold runs_late. rewrite orb_true_iff, !andb_true_iff, negb_true_iff. tauto. }
  split; [|split; [exact First|split; [exact Lt|exact W5]]].
  pose proof (g_proc _ _ _ _ _ G) as GP.
  assert (Nt : forall p t, (if timed_out T a p || woken eqv D T a p then None else a_timeout a p) = Some t <->
                a_timeout a p = Some t /\ (T < t)%N /\ ~ woken_by a T it k p).
  { intros p t. rewrite Wk. destruct (timed_out T a p) eqn:To; cbn [orb].
    - split; [discriminate|]. intros (X1 & X2 & _). apply timed_out_some in To. rewrite X1 in To. injection To as ->. lia.
    - destruct (woken eqv D T a p); [split; [discriminate|tauto]|]. split; [|tauto]. intros X. split; [exact X|]. split; [|discriminate].
      pose proof (Fut p t X) as Y. assert (t <> T); [|lia]. intros ->. apply (timed_out_some a T p) in X. congruence. }
  split; unfold advance; cbn [a_now a_delta a_cur a_wave a_val a_timeout a_sens a_late]; auto; try congruence.
  - intros t e X. rewrite B1. apply B6 with e, X.
  - intros n p Hp. destruct (z_drv a T k Z n p Hp) as (A1 & A2 & A3 & A4 & A5 & A6 & A7 & A8).
    unfold drv_ok. rewrite B1. cbn [a_wave a_cur]. rewrite (z_fastq a T k Z).
    split; [exact A1|]. split; [exact A2|]. destruct (k_nfast k n).
    + destruct (A6 eq_refl) as (C1 & C2 & C3). split; [exact C1|]. split; [exact C3|]. left. rewrite <- A4, C1. reflexivity.
    + split; [left; symmetry; exact A4|]. split; [exact A7|]. rewrite Forall_forall in *. intros x Hx. unfold covered. rewrite B1.
      specialize (A3 x Hx). destruct (N.eqb_spec (twhen x) T); [lia|]. apply A5, Hx.
  - split; rewrite ?B5; auto; cbn [In filter]; try tauto.
    + intros n. rewrite (z_fastq a T k Z). discriminate.
    + constructor.
    + intros s. rewrite (z_sigq a T k Z). split; [tauto|discriminate].
    + intros s. rewrite (z_sigq a T k Z). discriminate.
  - split; rewrite ?B4, ?B1; cbn [app a_timeout a_late].
    + intros p. rewrite W4, !in_app_iff. tauto.
    + eapply Permutation_NoDup; [apply Permutation_app_comm|exact W5].
    + intros p. rewrite Nt. cbn [In]. split; [tauto|lia].
    + intros p [].
    + intros t p. rewrite Nt, W6. tauto.
    + exact W7.
    + intros p. rewrite W8. split; intros (t & X); exists t; [rewrite Nt; tauto|rewrite Nt in X; tauto].
    + intros p t X. apply Nt in X. lia.
    + intros p X. apply in_app_or in X. destruct X as [X|X].
      * apply W3 in X. destruct X as [X|(_ & _ & X)].
        -- apply Late in X. destruct X as [X _]. rewrite X. destruct (_ || _); reflexivity.
        -- apply Wk in X. rewrite X, orb_true_r. reflexivity.
      * apply W2 in X. destruct X as [X|[_ X]].
        -- rewrite X. reflexivity.
        -- apply Wk in X. rewrite X, orb_true_r. reflexivity.
    + exact Lt.
    + intros p X. apply W3 in X. destruct X as [X|(X & _)]; [apply Late in X; tauto|exact X].
    + intros p X. assert (Wp : woken_by a T it k p -> In p (procs D)).
      { intros (n & _ & Y). apply (s_in _ _ _ B9 n p Y). }
      assert (Tp : timed_out T a p = true -> In p (procs D)).
      { intros Y. apply timed_out_some in Y. apply (p_procs _ _ _ _ _ GP). left. congruence. }
      destruct X as [X|X].
      * apply (p_procs _ _ _ _ _ GP). left. intros Y. rewrite Y in X. destruct (_ || _); congruence.
      * apply in_app_or in X. destruct X as [X|X]; [apply W3 in X; destruct X as [X|(_ & _ & X)]; [|auto]|apply W2 in X; tauto].
        apply (p_procs _ _ _ _ _ GP). right. rewrite app_nil_r. apply (p_late _ _ _ _ _ GP), X.
  - split; cbn [a_val a_cur]; rewrite ?B1, ?B2; auto.
    + intros n Hn. apply new_val_res; assumption.
    + apply (h_inv k H).
  - destruct B9. split; auto.
Qed.

(* ---- the second half ---- *)

Lemma agree_queues late todo a k q1 q2 q3 : agree D late todo a k ->
  agree D late todo a (set_procq q1 (set_postq q2 (set_drvq q3 k))).
Proof.
  intros []. split; ks; auto.
  - destruct g_fast. split; auto.
  - destruct g_proc. split; auto.
  - destruct g_val. split; auto.
  - destruct g_sens. split; auto.
Qed.

Lemma agree_todo late todo todo' a k : Permutation todo todo' -> agree D late todo a k -> agree D late todo' a k.
Proof.
  intros P []. split; auto. destruct g_proc.
  assert (I : forall p, In p todo <-> In p todo') by (intros p; split; apply Permutation_in; auto using Permutation_sym).
  split; auto.
  - intros p. rewrite p_pend, !in_app_iff, I. reflexivity.
  - eapply Permutation_NoDup; [|exact p_nodup]. now repeat apply Permutation_app_head.
  - intros p. rewrite in_app_iff, <- I, <- in_app_iff. apply p_running.
  - intros p. rewrite in_app_iff, <- I, <- in_app_iff. apply p_procs.
Qed.

Lemma agree_late late a k : agree D late [] a k -> agree D [] late (no_late a) k.
Proof.
  intros []. split; auto.
  - destruct g_proc. rewrite app_nil_r in *. split; cbn [app no_late a_timeout a_late]; auto.
    intros p. split; [intros []|discriminate].
  - destruct g_val. split; auto.
  - destruct g_sens. split; auto.
Qed.

Lemma after_twice c f g acts : (forall p, f p = true -> g p = true -> False) ->
  aeq (after_acts eqv D (after_acts eqv D c (done_by f acts)) (done_by g acts))
      (after_acts eqv D c (done_by (fun p => f p || g p) acts)).
Proof.
  intros Dj. unfold after_acts, done_by. split; cbn [a_now a_delta a_cur a_wave a_val a_timeout a_sens a_late]; auto.
  - rewrite <- orb_assoc. f_equal. induction (procs D) as [|p l IH]; [reflexivity|]. cbn [existsb].
    rewrite <- IH. specialize (Dj p). destruct (f p), (g p); cbn [orb existsb]; rewrite ?orb_false_r; auto.
    + destruct Dj; reflexivity.
    + rewrite orb_assoc. reflexivity.
    + destruct (existsb (fun p0 => existsb zero_delay (if f p0 then acts p0 else [])) l); destruct (existsb zero_delay (acts p)); reflexivity.
  - intros n p. specialize (Dj p). destruct (f p), (g p); cbn [orb]; try reflexivity. destruct Dj; reflexivity.
  - intros p. specialize (Dj p). destruct (f p), (g p); cbn [orb]; try reflexivity. destruct Dj; reflexivity.
  - intros n p. specialize (Dj p). destruct (f p), (g p); cbn [orb]; try reflexivity. destruct Dj; reflexivity.
Qed.

Lemma second_half a T k sh acts late : 
  agree D (k_postq k) (k_procq k) a k -> a_now a = T -> a_late a = late -> a_delta a = false ->
  NoDup (k_procq k ++ k_postq k) -> (forall l, Permutation l (sh l)) -> k_drvq k = [] ->
  forall first, (forall p, In p (k_procq k) <-> first p = true) -> (forall p, In p (k_postq k) <-> late p = true) ->
  (forall p, first p || late p = true -> legal_acts D T p (fun n => a_sens a n p) false (acts p)) ->
  exists q1 k5 q2 k6, run_procq eqv D sh acts k = Ok (q1, k5) /\ run_postq eqv D acts k5 = Ok (q2, k6) /\
    k_iter k6 = k_iter k /\ idle_queues k6 /\ NoDup q1 /\ NoDup q2 /\ (forall p, In p q1 <-> first p = true) /\
    let a1 := after_acts eqv D a (done_by first acts) in
    (if a_delta a1 then agree D (k_postq k6) [] a1 k6 /\ q2 = []
     else agree D (k_postq k6) [] (after_acts eqv D (no_late a) (done_by (fun p => first p || late p) acts)) k6 /\
          forall p, In p q2 <-> late p = true).
Proof.
  intros G Hn Hl Hd Nd Sh Dq first Hf Hlt Lg.
  assert (Nd1 : NoDup (k_procq k)) by (eapply nodup_left; exact Nd).
  assert (Nd2 : NoDup (k_postq k)) by (eapply nodup_right; exact Nd).
  assert (Dj : forall p, first p = true -> late p = true -> False).
  { intros p X Y. apply Hf in X. apply Hlt in Y. clear -Nd X Y. induction (k_procq k) as [|q l IH]; [destruct X|].
    cbn [app] in Nd. inversion Nd; subst. destruct X as [->|X]; [|auto]. apply H1, in_or_app. now right. }
  set (q := sh (k_procq k)). pose proof (Sh (k_procq k)) as Ps. fold q in Ps.
  assert (Ndq : NoDup q) by (eapply Permutation_NoDup; eauto).
  assert (Hq : forall p, In p q <-> first p = true).
  { intros p. rewrite <- Hf. split; apply Permutation_in; auto using Permutation_sym. }
  assert (Lgq : forall p, In p q -> legal_acts D (a_now a) p (fun n => a_sens a n p) false (acts p)).
  { intros p X. rewrite Hn. apply Lg. apply Hq in X. rewrite X. reflexivity. }
  assert (Pin : forall p, In p (k_postq k ++ k_procq k) -> In p (procs D)).
  { intros p X. apply (p_procs _ _ _ _ _ (g_proc _ _ _ _ _ G)). now right. }
  destruct (procs_run eqv eqv_ok D (k_postq k) acts q a (set_procq q k)) as (k4 & E4 & G4); auto.
  { apply (agree_queues _ _ _ _ q (k_postq k) (k_drvq k)). eapply agree_todo; eauto. }
  pose proof (run_procs_frame _ _ _ _ _ _ E4) as (F1 & F2 & F3 & F4). ks.
  assert (E1 : aeq (a_procs eqv acts q a) (after_acts eqv D a (done_by first acts))).
  { apply a_procs_spec; auto. intros p X. apply Pin, in_or_app. right.
    apply (Permutation_in _ (Permutation_sym Ps)), X. }
  pose proof (agree_ext _ _ _ _ _ _ E1 G4) as G5.
  set (a1 := after_acts eqv D a (done_by first acts)) in *.
  exists q, (set_procq [] k4). unfold run_procq. fold q. rewrite E4. cbn [bind]. rewrite F1, Nat.eqb_refl.
  pose proof (g_delta _ _ _ _ _ G5) as Gd.
  unfold run_postq. ks. destruct (k_delta k4) eqn:Dk.
  - exists [], (set_procq [] k4). split; [reflexivity|]. split; [reflexivity|]. ks. split; [exact F4|].
    split; [split; ks; [reflexivity|congruence]|]. split; [exact Ndq|]. split; [constructor|]. split; [exact Hq|].
    cbn zeta. rewrite <- Gd. split; [|reflexivity]. rewrite F2.
    apply (agree_queues _ _ _ _ [] (k_postq k4) (k_drvq k4)). exact G5.
  - pose proof (agree_late _ _ _ G5) as G6.
    assert (G6' : agree D [] (k_postq k) (no_late a1) (set_procq [] k4)).
    { apply (agree_queues _ _ _ _ [] (k_postq k4) (k_drvq k4)). exact G6. }
    destruct (procs_run eqv eqv_ok D [] acts (k_postq k) (no_late a1) (set_procq [] k4)) as (k6 & E6 & G7); auto.
    { intros p X. pose proof X as X'. apply Hlt in X'.
      assert (Fp : done_by first acts p = []).
      { unfold done_by. destruct (first p) eqn:Ef; [|reflexivity]. destruct (Dj p Ef X'). }
      unfold a1, no_late, after_acts. cbn [a_now a_sens]. rewrite Fp, Hn. unfold sens_after. cbn [fold_left].
      apply Lg. rewrite X', orb_true_r. reflexivity. }
    pose proof (run_procs_frame _ _ _ _ _ _ E6) as (F6 & F7 & F8 & F9). ks.
    rewrite F2, E6. cbn [bind]. rewrite F7, F2, Nat.eqb_refl.
    exists (k_postq k), (set_postq [] k6). split; [reflexivity|]. split; [reflexivity|]. ks. split; [congruence|].
    split; [split; ks; [exact F6|congruence]|]. split; [exact Ndq|]. split; [exact Nd2|]. split; [exact Hq|].
    cbn zeta. rewrite <- Gd. split; [|exact Hlt].
    apply (agree_queues _ _ _ _ (k_procq k6) [] (k_drvq k6)).
    eapply agree_ext; [|exact G7].
    eapply aeq_trans; [apply (a_procs_spec eqv D acts (k_postq k) late); auto|].
    { intros p X. apply Pin, in_or_app. now left. }
    change (no_late a1) with (after_acts eqv D (no_late a) (done_by first acts)). apply after_twice, Dj.
Qed.

(* ---- the whole cycle ---- *)

Lemma cycle_ok a k sh acts : agree D (k_postq k) [] a k -> idle_queues k ->
  (k_delta k = true \/ hsize (k_evq k) <> 0) -> (forall l, Permutation l (sh l)) ->
  legal_cycle eqv D (next_time k) acts a ->
  exists r k' a' first late, model_cycle eqv D sh acts k = Ok (r, k') /\ due D a (next_time k) /\
    ideal_cycle eqv D (next_time k) acts a = (a', first, late) /\
    agree D (k_postq k') [] a' k' /\ idle_queues k' /\
    NoDup (ran r) /\ NoDup (ran_late r) /\
    (forall p, In p (ran r) <-> first p = true) /\ (forall p, In p (ran_late r) <-> late p = true) /\
    k_iter k' = (if k_delta k then k_iter k + 1 else 0)%Z.
Proof.
  intros G Iq Busy Sh Lg. set (T := next_time k) in *.
  pose proof G as [G1 G2 G3 G4 Gs G5 G6 G7 G8 G9].
  assert (Due : due D a T /\ (T < 2 ^ 63)%N /\ (forall p t, a_timeout a p = Some t -> (T <= t)%N)).
  { unfold T, next_time. destruct (k_delta k) eqn:Dl.
    - split; [split; congruence|]. split; [exact Gs|]. apply (p_future _ _ _ _ _ G7).
    - destruct Busy as [|Busy]; [discriminate|]. unfold heap_min_key. destruct (Nat.ltb_spec (hsize (k_evq k)) 1); [lia|].
      pose proof (T_range a k G Busy) as Tr. pose proof (min_T a k G Busy) as Mt.
      destruct (no_tasks a k G Dl) as (N1 & N2 & N3 & N4).
      assert (Tm : forall p t, a_timeout a p = Some t -> (KEY (k_evq k) 1 <= t)%N).
      { intros p t X. apply (Mt t (EProc p)), (p_event _ _ _ _ _ G7). split; [exact X|].
        pose proof (p_future _ _ _ _ _ G7 p t X) as Y. assert (t <> k_now k); [|lia]. intros ->.
        apply (p_now _ _ _ _ _ G7) in X. rewrite N2 in X. destruct X. }
      split; [|split; [lia|exact Tm]]. split; [congruence|]. intros _. split; [rewrite <- G1; lia|]. split; [|exact Tm].
      intros n p t v Hp X. specialize (G5 n p Hp). unfold drv_ok in G5. rewrite N3 in G5. destruct G5 as (D1 & D2 & D3).
        destruct (k_nfast k n).
        * destruct D3 as (D3 & D4 & [D5|[D5 _]]); [rewrite D5 in X; destruct X|congruence].
        * destruct D3 as ([D3|(_ & D3 & _)] & D4 & D5); [|congruence]. rewrite D3 in X. apply view_in in X.
          rewrite Forall_forall in D5. specialize (D5 _ X). unfold covered in D5. cbn [twhen] in D5. rewrite N1, N3 in D5.
          destruct (N.eqb_spec t (k_now k)); [destruct D5 as [[]|]; discriminate|]. eapply Mt, D5. }
  destruct Due as (Due & Ts & Fut).
  set (it := (if k_delta k then k_iter k + 1 else 0)%Z).
  assert (It : (-1 <= it)%Z).
  { unfold it. pose proof (v_iter _ _ _ G8). destruct (k_delta k); lia. }
  assert (St : exists k1 k2, begin_cycle k = Ok k1 /\
     (if k_delta k then Ok k1 else take_events (hsize (k_evq k1)) k1) = Ok k2 /\
     base a T it k2 /\ dheap k2 /\ drives a T (k_drvq k2) k2 /\ queue (k_drvq k2) [] k2).
  { unfold it, T, next_time. destruct (k_delta k) eqn:Dl.
    - destruct (start_delta a k G Iq Dl) as (k1 & E1 & X). exists k1, k1. auto.
    - destruct Busy as [|Busy]; [discriminate|]. unfold heap_min_key. destruct (Nat.ltb_spec (hsize (k_evq k)) 1); [lia|].
      destruct (start_later a k G Iq Dl Busy) as (k1 & k2 & E1 & E2 & X). exists k1, k2. auto. }
  destruct St as (k1 & k2 & E1 & E2 & B2 & H2 & D2 & Q2).
  pose proof (late_of a k G) as Late. pose proof (res_of a k G) as Res.
  destruct (tasks_ok a T it Late Ts Res (k_drvq k2) k2 B2 H2 D2 Q2) as (k3 & E3 & B3 & H3 & D3 & Q3 & R3).
  pose proof (tasks_done a T it Ts Res k3 B3 D3 Q3) as Z3.
  set (k3' := set_drvq [] k3).
  assert (B3' : base a T it k3') by (apply (base_frame a T it k3); auto).
  assert (H3' : dheap k3') by (destruct H3; split; auto).
  assert (Z3' : drained a T k3').
  { destruct Z3. split; auto. }
  destruct (drain_ok a T it Late Ts Res (hsize (k_drvheap k3')) k3' B3' H3' Z3' (le_n _)) as (k4 & E4 & B4 & H4 & Z4 & C4 & R4).
  destruct (half_way a k T it k4 G Ts It Fut B4 H4 Z4 C4) as (G4' & Fi & La & Nd4).
  destruct (second_half (advance eqv D T a) T k4 sh acts (runs_late eqv D T a)) with (first := runs_first eqv D T a)
    as (q1 & k5 & q2 & k6 & E5 & E6 & I6 & Iq6 & Nq1 & Nq2 & Hq1 & Fin); auto.
  unfold model_cycle. rewrite E1. cbn [bind]. rewrite E2. cbn [bind]. unfold run_drvq. rewrite E3. cbn [bind].
  rewrite R3, Nat.eqb_refl. cbn [bind]. fold k3'. rewrite E4. cbn [bind]. rewrite E5. cbn [bind]. rewrite E6. cbn [bind].
  unfold ideal_cycle. exists (Report q1 q2), k6.
  assert (Ik : k_iter k6 = it) by (rewrite I6; apply (b_iter a T it k4 B4)).
  cbn zeta in Fin. destruct (a_delta (after_acts eqv D (advance eqv D T a) (done_by (runs_first eqv D T a) acts))).
  - destruct Fin as [Fin ->]. do 3 eexists. split; [reflexivity|]. split; [exact Due|]. split; [reflexivity|].
    split; [exact Fin|]. split; [exact Iq6|]. cbn [ran ran_late]. split; [exact Nq1|]. split; [exact Nq2|].
    split; [exact Hq1|]. split; [|exact Ik]. intros p. split; [intros []|discriminate].
  - destruct Fin as [Fin Fl]. do 3 eexists. split; [reflexivity|]. split; [exact Due|]. split; [reflexivity|].
    split; [exact Fin|]. split; [exact Iq6|]. cbn [ran ran_late]. split; [exact Nq1|]. split; [exact Nq2|].
    split; [exact Hq1|]. split; [exact Fl|exact Ik].
Qed.
End Wake.
