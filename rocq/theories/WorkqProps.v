(* C41: draining a work queue waits for all its tasks. *)
From Coq Require Import List Arith ZArith Lia Bool Permutation.
From Verif Require Import Base WorkqModel WorkqProofs.
Import ListNotations.

Lemma filter_perm {A} (f : A -> bool) l l' : Permutation l l' -> Permutation (filter f l) (filter f l').
Proof.
  intros P. induction P; cbn.
  - constructor.
  - destruct (f x); [now constructor|assumption].
  - destruct (f x), (f y); try reflexivity. constructor.
  - etransitivity; eassumption.
Qed.
Lemma filter_none {A} (f : A -> bool) l : length (filter f l) = 0 -> filter f l = [].
Proof. destruct (filter f l); [reflexivity|discriminate]. Qed.

Lemma running_works f n : sum (fun i => busy (f i)) n = 0 -> filter is_work (cat (fun i => running (f i)) n) = [].
Proof.
  induction n as [|n IH]; intros H; [reflexivity|]. cbn [sum cat] in *. rewrite filter_app, IH by lia.
  destruct (f n) as [|x| |c e|]; try reflexivity. destruct x; [discriminate H || (cbn in H; lia)|reflexivity].
Qed.
Lemma running_asyncs f n : sum (fun i => abusy (f i)) n = 0 -> filter (fun x => negb (is_work x)) (cat (fun i => running (f i)) n) = [].
Proof.
  induction n as [|n IH]; intros H; [reflexivity|]. cbn [sum cat] in *. rewrite filter_app, IH by lia.
  destruct (f n) as [|x| |c e|]; try reflexivity. destruct x; [reflexivity|cbn in H; lia].
Qed.

(* For every number of threads and rounds and every schedule, with or without
   parallelism: no assertion fails, and whenever a drain returns, the tasks given
   to the queue so far are exactly the tasks that were run, each as often as it
   was given, and no thread is still running one. *)
Theorem C41_drain : forall parallel mw es e,
  exists st st', run parallel mw init es = Ok st /\ do_event parallel mw st e = Ok st' /\
  (drained st' <> drained st ->
   Permutation (filter is_work (submitted st')) (filter is_work (done st')) /\
   forall t k, exec st' t <> XRun (Work k)).
Proof.
  intros parallel mw es e. destruct (run_good parallel mw es init (init_good parallel)) as (st & R & G).
  destruct (event_inv parallel mw st e G) as (st' & E & [G1 _] & D). exists st, st'. split; [exact R|]. split; [exact E|].
  intros Q. destruct D as [D|(A & B & C & En & Ep)]; [contradiction|].
  destruct G as [(_ & _ & _ & _ & _ & _ & _ & K8 & _) _].
  destruct G1 as (J1 & J2 & J3 & J4 & J5 & J6 & J7 & J8 & J9 & J10 & J11).
  assert (W : works (pool st') = 0 /\ sum (fun i => busy (exec st' i)) (S (maxid st')) = 0) by (unfold flight in C; lia). destruct W as [W1 W2].
  split.
  - rewrite (filter_perm _ _ _ J9). rewrite !filter_app. rewrite (filter_none _ _ W1), (running_works _ _ W2).
    rewrite (cat_nil (posted (entry st') (epoch st'))); [now rewrite !app_nil_r|].
    intros i _. unfold posted. destruct (Nat.eqb_spec (wepoch (entry st' i)) (epoch st')) as [Z|Z]; [|reflexivity].
    rewrite En, Ep in Z. destruct (K8 i Z) as [Z1 _]. congruence.
  - intros t k Z. destruct (le_lt_dec t (maxid st')) as [L|L].
    + pose proof (sum_zero _ _ W2 t ltac:(lia)) as Y. cbv beta in Y. rewrite Z in Y. discriminate.
    + destruct (J4 t L) as [_ Y]. congruence.
Qed.

(* At every moment, no task was run that was not given, and none was run more
   often than it was given. *)
Theorem C41_at_most_once : forall parallel mw es st, run parallel mw init es = Ok st ->
  exists rest, Permutation (submitted st) (done st ++ rest).
Proof.
  intros parallel mw es st R. destruct (run_good parallel mw es init (init_good parallel)) as (st' & R' & [G _]). rewrite R in R'. injection R' as <-.
  destruct G as (_ & _ & _ & _ & _ & _ & _ & _ & J9 & _). eexists. exact J9.
Qed.

(* When the count of pending asynchronous tasks is zero, which is what
   async_barrier waits for, all of them were run. *)
Theorem C41_async_barrier : forall parallel mw es st, run parallel mw init es = Ok st ->
  (0 <= async_pending st)%Z /\
  (async_pending st = 0%Z ->
   Permutation (filter (fun x => negb (is_work x)) (submitted st)) (filter (fun x => negb (is_work x)) (done st))).
Proof.
  intros parallel mw es st R. destruct (run_good parallel mw es init (init_good parallel)) as (st' & R' & [G _]). rewrite R in R'. injection R' as <-.
  pose proof G as (_ & _ & _ & _ & _ & _ & _ & J8 & J9 & J10 & _). split; [lia|]. intros Z.
  assert (W : asyncs (pool st) = 0 /\ sum (fun i => abusy (exec st i)) (S (maxid st)) = 0) by lia. destruct W as [W1 W2].
  rewrite (filter_perm _ _ _ J9). rewrite !filter_app. rewrite (filter_none _ _ W1), (running_asyncs _ _ W2).
  replace (filter _ (cat (posted _ _) _)) with (@nil task); [now rewrite !app_nil_r|].
  assert (P : forall n, filter (fun x => negb (is_work x)) (cat (posted (entry st) (epoch st)) n) = []); [|now rewrite P].
  induction n as [|n IH]; [reflexivity|]. cbn [cat]. rewrite filter_app, IH. unfold posted.
  destruct (Nat.eqb_spec (wepoch (entry st n)) (epoch st)) as [Y|Y]; [|reflexivity].
  destruct (J8 n Y) as (_ & L & _ & _ & K). rewrite L, firstn_all. cbn [app]. apply filter_none. exact (works_all _ K).
Qed.

(* A drain does return: once no task is left and no thread is busy, the next scan
   of the counters finds nothing outstanding. *)
Lemma scan_run parallel mw : forall k st i, main st = MScanW (epoch st) (maxid st) i (Z.of_nat (sum (post (entry st) (epoch st - 1)) i) - Z.of_nat (sum (comp (entry st) (epoch st)) i))%Z ->
  exec st 0 = XNone -> i + k = maxid st ->
  sum (post (entry st) (epoch st - 1)) (S (maxid st)) = sum (comp (entry st) (epoch st)) (S (maxid st)) ->
  exists st', run parallel mw st (repeat MainStep (2 * (S k))) = Ok st' /\ stat st' = IDLE /\ main st' = MOut /\ drained st' = S (drained st).
Proof.
  induction k as [|k IH]; intros st i M X Hk P.
  - replace i with (maxid st) in * by lia. cbn [repeat Nat.mul Nat.add run do_event]. rewrite X. unfold main_step at 1. rewrite M. cbv zeta. cbn [bind set_main exec]. rewrite X.
    unfold main_step. cbn [set_main main entry]. rewrite Nat.eqb_refl.
    set (acc := if cepoch _ =? _ then _ else _).
    assert (Ha : acc = 0%Z).
    { cbn [sum] in P. assert (E1 : post (entry st) (epoch st - 1) (maxid st) = if wepoch (entry st (maxid st)) =? epoch st - 1 then wcount (entry st (maxid st)) else 0) by reflexivity.
      assert (E2 : comp (entry st) (epoch st) (maxid st) = if cepoch (entry st (maxid st)) =? epoch st then ccount (entry st (maxid st)) else 0) by reflexivity.
      subst acc. destruct (wepoch (entry st (maxid st)) =? epoch st - 1); destruct (cepoch (entry st (maxid st)) =? epoch st); lia. }
    rewrite Ha. cbn [Z.ltb Z.eqb Z.compare bind]. eexists. split; [reflexivity|]. auto.
  - replace (2 * S (S k)) with (S (S (2 * S k))) by lia. cbn [repeat run do_event]. rewrite X. unfold main_step at 1. rewrite M. cbv zeta. cbn [bind set_main exec]. rewrite X.
    unfold main_step at 1. cbn [set_main main entry]. destruct (Nat.eqb_spec i (maxid st)) as [Q|Q]; [lia|]. cbn [bind].
    set (acc := if cepoch _ =? _ then _ else _).
    assert (Ha : acc = (Z.of_nat (sum (post (entry st) (epoch st - 1)) (S i)) - Z.of_nat (sum (comp (entry st) (epoch st)) (S i)))%Z).
    { cbn [sum]. assert (E1 : post (entry st) (epoch st - 1) i = if wepoch (entry st i) =? epoch st - 1 then wcount (entry st i) else 0) by reflexivity.
      assert (E2 : comp (entry st) (epoch st) i = if cepoch (entry st i) =? epoch st then ccount (entry st i) else 0) by reflexivity.
      subst acc. destruct (wepoch (entry st i) =? epoch st - 1); destruct (cepoch (entry st i) =? epoch st); lia. }
    destruct (IH (set_main st (MScanW (epoch st) (maxid st) (S i) acc)) (S i)) as (st' & R & K).
    + cbn [set_main main epoch maxid entry]. now rewrite Ha.
    + exact X.
    + cbn. lia.
    + exact P.
    + exists st'. split; [exact R|exact K].
Qed.

Theorem C41_drain_returns : forall mw es st, run true mw init es = Ok st ->
  main st = MDrain -> (forall t, exec st t = XNone) -> (forall x, In x (pool st) -> is_work x = false) ->
  exists st', run true mw st (repeat MainStep (3 + 2 * maxid st)) = Ok st' /\ stat st' = IDLE /\ main st' = MOut /\ drained st' = S (drained st).
Proof.
  intros mw es st R M X Np. destruct (run_good true mw es init (init_good true)) as (st0 & R' & [G _]). rewrite R in R'. injection R' as <-.
  destruct G as (J1 & J2 & J3 & J4 & J5 & J6 & J7 & J8 & J9 & J10 & J11). unfold scan_ok in J11. rewrite M in J11.
  replace (3 + 2 * maxid st) with (S (2 * S (maxid st))) by lia. cbn [repeat run do_event]. rewrite (X 0). unfold main_step at 1. rewrite M. cbn [bind].
  destruct (scan_run true mw (maxid st) (set_main st (MScanW (epoch st) (maxid st) 0 0)) 0) as (st' & Rs & K).
  - reflexivity.
  - apply X.
  - reflexivity.
  - cbn [set_main entry epoch maxid]. specialize (J5 (or_introl J11)). rewrite J5.
    assert (F : flight st = 0); [|lia]. unfold flight.
    assert (works (pool st) = 0).
    { clear - Np. unfold works. induction (pool st) as [|x l IH]; [reflexivity|]. cbn [filter]. rewrite (Np x (or_introl eq_refl)). apply IH. intros y Hy. apply Np. now right. }
    assert (sum (fun i => busy (exec st i)) (S (maxid st)) = 0); [|lia].
    rewrite (sum_ext _ (fun _ => 0)) by (intros; now rewrite X). generalize (S (maxid st)). induction n; cbn; lia.
  - exists st'. split; [exact Rs|exact K].
Qed.

Print Assumptions C41_drain.
Print Assumptions C41_at_most_once.
Print Assumptions C41_async_barrier.
Print Assumptions C41_drain_returns.

(* Two rounds with a worker; in the second one the main thread drains while the
   worker has run the task but not yet counted it. *)
Definition two_rounds : list event :=
  [Spawn; Do 0 1; Do 0 2; Start; Drain; Take 1 1; Exec 1; AsyncDo 9; Exec 1; Exec 1; Take 0 0; Exec 0; Exec 0; Exec 0] ++ repeat MainStep 5 ++
  [Do 0 3; Do 1 4; Start; Drain; Take 1 0; Exec 1; Take 0 0; Exec 0; Exec 0; Exec 0] ++ repeat MainStep 5 ++ [Exec 1; Exec 1] ++ repeat MainStep 5.
Example two_rounds_run : exists st, run true 4 init two_rounds = Ok st /\
  drained st = 2 /\ done st = [Work 4; Work 3; Work 1; Work 2] /\ submitted st = [Work 4; Work 3; Work 2; Work 1] /\ epoch st = 3.
Proof. eexists. split; [vm_compute; reflexivity|]. auto. Qed.
Example two_rounds_waits : exists st, run true 4 init (firstn 34 two_rounds) = Ok st /\ main st = MDrain /\ drained st = 1 /\
  filter is_work (submitted st) = [Work 4; Work 3; Work 2; Work 1].
Proof. eexists. split; [vm_compute; reflexivity|]. auto. Qed.
