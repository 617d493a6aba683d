(* C37 and C38: locks exclude each other, and no waiter is forgotten. *)
From Coq Require Import List Arith Lia Bool.
From Verif Require Import Base LockModel LockSpec LockProofs.
Import ListNotations.

(* For every number of threads and locks, every mapping of locks to parking bays
   and every schedule: no assertion of the code fails, and a lock that one thread
   got is held by no other thread. *)
Theorem C37_mutual_exclusion : forall bay_of spins es,
  exists st, run bay_of spins init es = Ok st /\
    forall t u l, In l (held st t) -> In l (held st u) -> t = u.
Proof.
  intros bay_of spins es. destruct (run_inv bay_of spins es init (init_inv bay_of)) as (st & E & I0).
  exists st. split; [exact E|]. destruct I0 as (_ & _ & I3 & _). intros t u l H H'.
  apply (I3 t u l); left; assumption.
Qed.

(* No schedule lets a thread finish nvc_lock on a lock while another thread still
   has it: before the step that hands out the lock nobody had it. *)
Theorem C37_acquire_when_free : forall bay_of spins es st t st' l,
  run bay_of spins init es = Ok st -> run bay_of spins st [Step t] = Ok st' ->
  In l (held st' t) -> ~ In l (held st t) ->
  forall u, ~ In l (held st u).
Proof.
  intros bay_of spins es st t st' l E E' H N u Hu.
  destruct (run_inv bay_of spins es init (init_inv bay_of)) as (st0 & E0 & I0). rewrite E in E0. injection E0 as <-.
  destruct (run_inv bay_of spins [Step t] st I0) as (st1 & E1 & J). rewrite E' in E1. injection E1 as <-.
  assert (u <> t) by (intros ->; auto).
  assert (Hu' : In l (held st' u)).
  { cbn [run do_event] in E'. destruct (step bay_of spins st t) as [s|] eqn:Es; [|discriminate]. cbn [bind] in E'. injection E' as <-.
    assert (Q : held s u = held st u); [|now rewrite Q].
    unfold step in Es. destruct (pcs st t); cbv zeta in Es;
      repeat match type of Es with
             | context[if ?b then _ else _] => destruct b
             | context[match mutex ?b with _ => _ end] => destruct (mutex b)
             | context[match parked ?b with _ => _ end] => destruct (parked b)
             end; try discriminate; injection Es as <-; cbn [held set_pc set_lock set_bay set_held acquired]; auto;
      apply upd_other; assumption. }
  destruct J as (_ & _ & I3 & _). assert (u = t); [|contradiction].
  apply (I3 u t l); left; assumption.
Qed.

(* Whenever a thread sleeps in nvc_lock, another thread has the lock, or some
   thread is inside nvc_unlock on a lock of the same parking bay. *)
Theorem C38_sleeper_has_waker : forall bay_of spins es st t l,
  run bay_of spins init es = Ok st -> asleep (pcs st t) l ->
  (exists u, In l (held st u)) \/
  (exists u l', unlocking (pcs st u) l' /\ bay_of l' = bay_of l).
Proof.
  intros bay_of spins es st t l E H.
  destruct (run_inv bay_of spins es init (init_inv bay_of)) as (st0 & E0 & I0). rewrite E in E0. injection E0 as <-.
  destruct I0 as (I1 & I2 & I3 & I4 & I5 & I6 & I7 & I8 & I9 & I10). unfold asleep in H.
  destruct (I9 t l) as [L|(u & l' & Hb & Hl)]; [now rewrite H| |].
  - destruct (I1 l) as (u & [Hu|Hu]); [now rewrite L|left; eauto|].
    right. exists u, l. split; [|reflexivity]. destruct (pcs st u); try discriminate; injection Hu as ->; reflexivity.
  - right. exists u, l'. split; [|exact Hl]. destruct (pcs st u); try discriminate; injection Hb as ->; reflexivity.
Qed.

(* When a thread leaves nvc_unlock while the lock is still free, no thread of the
   bay is left asleep on it unless yet another nvc_unlock of the bay is under
   way. *)
Theorem C38_released_lock_has_no_sleeper : forall bay_of spins es st l,
  run bay_of spins init es = Ok st ->
  (forall u, ~ In l (held st u)) -> (forall u l', bay_of l' = bay_of l -> ~ unlocking (pcs st u) l') ->
  forall t, ~ asleep (pcs st t) l.
Proof.
  intros bay_of spins es st l E Hh Hu t H.
  destruct (C38_sleeper_has_waker bay_of spins es st t l E H) as [(u & K)|(u & l' & K & Kb)].
  - exact (Hh u K).
  - exact (Hu u l' Kb K).
Qed.

Lemma step_one bay_of spins st st' t n : step bay_of spins st t = Ok st' ->
  forall R, run bay_of spins st' (repeat (Step t) n) = R ->
  run bay_of spins st (repeat (Step t) (S n)) = R.
Proof. intros E R H. cbn [repeat run do_event]. rewrite E. exact H. Qed.

Lemma is_locked_BOTH b : is_locked b = false -> bits_eqb b BOTH = false.
Proof. destruct b as [[] []]; [discriminate|discriminate|reflexivity|reflexivity]. Qed.
Lemma bits_eqb_refl b : bits_eqb b b = true.
Proof. destruct b as [[] []]; reflexivity. Qed.

(* A thread that wants a free lock gets it in a few steps of its own, when the
   other threads rest, whatever happened before. *)
Theorem C38_free_lock_acquired : forall bay_of spins es st t l,
  run bay_of spins init es = Ok st ->
  locking (pcs st t) l ->
  (forall u, u <> t -> resting (pcs st u)) ->
  (forall u, ~ In l (held st u)) ->
  exists n st', (n <= 9)%nat /\ run bay_of spins st (repeat (Step t) n) = Ok st' /\
    In l (held st' t) /\ pcs st' t = Idle.
Proof.
  intros bay_of spins es st t l E Hp Hr Hh.
  destruct (run_inv bay_of spins es init (init_inv bay_of)) as (st0 & E0 & I0). rewrite E in E0. injection E0 as <-.
  destruct I0 as (I1 & I2 & I3 & I4 & I5 & I6 & I7 & I8 & I9 & I10).
  assert (NU : forall u k, unl (pcs st u) = Some k -> False).
  { intros u k H. destruct (Nat.eq_dec u t) as [->|Nu].
    - destruct (pcs st t); cbn in Hp, H; try contradiction; discriminate.
    - destruct (Hr u Nu) as [Q|[k' Q]]; [|red in Q]; rewrite Q in H; discriminate. }
  assert (NB : forall u k, bc (pcs st u) = Some k -> False).
  { intros u k H. destruct (Nat.eq_dec u t) as [->|Nu].
    - destruct (pcs st t); cbn in Hp, H; try contradiction; discriminate.
    - destruct (Hr u Nu) as [Q|[k' Q]]; [|red in Q]; rewrite Q in H; discriminate. }
  assert (NM : forall u k, u <> t -> mtx (pcs st u) = Some k -> False).
  { intros u k Nu H. destruct (Hr u Nu) as [Q|[k' Q]]; [|red in Q]; rewrite Q in H; discriminate. }
  assert (Hf : is_locked (lock st l) = false).
  { destruct (is_locked (lock st l)) eqn:Q; [|reflexivity]. destruct (I1 l Q) as (u & [K|K]); [destruct (Hh u K)|destruct (NU u l K)]. }
  assert (Hn : pcs st t <> KSleep l).
  { intros Q. destruct (I9 t l) as [L|(u & l' & Hb & _)]; [now rewrite Q| |eauto]. rewrite L in Hf. discriminate. }
  assert (Hm : mutex (bays st (bay_of l)) = None \/ exists k, mtx (pcs st t) = Some k).
  { destruct (mutex (bays st (bay_of l))) as [u|] eqn:Q; [|now left]. destruct (I7 _ _ Q) as (k & Hk & _).
    destruct (Nat.eq_dec u t) as [->|Nu]; [right; eauto|]. exfalso. eauto. }
  assert (Hpk : forall k, pk (pcs st t) = Some k -> parked (bays st (bay_of k)) <> 0).
  { intros k Hk Q. destruct (I8 (bay_of k)) as (P & _ & L & F). assert (K : In t P) by (apply F; eauto).
    rewrite Q in L. destruct P; [destruct K|discriminate]. }
  specialize (I10 t). clear I1 I2 I3 I4 I5 I6 I7 I8 I9 E NU NB NM Hr Hh es.
  (* run backwards through the code *)
  set (fin n st' := exists st'', run bay_of spins st' (repeat (Step t) n) = Ok st'' /\ In l (held st'' t) /\ pcs st'' t = Idle).
  assert (one : forall n s s', step bay_of spins s t = Ok s' -> fin n s' -> fin (S n) s).
  { intros n s s' Es (s2 & R & K). exists s2. split; [|exact K]. cbn [repeat run do_event]. rewrite Es. exact R. }
  assert (tryl : forall s b, is_locked (lock s l) = false -> b = lock s l -> pcs s t = LTry l b -> fin 1 s).
  { intros s b F -> P. eapply (one 0).
    - unfold step. rewrite P, F, bits_eqb_refl. reflexivity.
    - eexists. split; [reflexivity|]. cbn [acquired set_pc set_held set_lock held pcs]. rewrite !upd_same. split; [now left|reflexivity]. }
  assert (spinl : forall s b k, is_locked (lock s l) = false -> is_locked b = false -> pcs s t = LSpin l b k -> b = lock s l -> fin 2 s).
  { intros s b k F Fb P ->. eapply (one 1).
    - unfold step. rewrite P, Fb. reflexivity.
    - eapply tryl; cbn [set_pc lock pcs]; [exact F|reflexivity|apply upd_same]. }
  assert (relo : forall s, is_locked (lock s l) = false -> pcs s t = LReload l -> fin 2 s).
  { intros s F P. eapply (one 1).
    - unfold step. rewrite P. cbv zeta. rewrite F. reflexivity.
    - eapply tryl; cbn [set_pc lock pcs]; [exact F|reflexivity|apply upd_same]. }
  assert (kunl : forall s, is_locked (lock s l) = false -> pcs s t = KUnlock l -> fin 3 s).
  { intros s F P. eapply (one 2).
    - unfold step. rewrite P. reflexivity.
    - apply relo; cbn [set_pc set_bay lock pcs]; [exact F|apply upd_same]. }
  assert (kchk : forall s, is_locked (lock s l) = false -> pcs s t = KCheck l -> fin 4 s).
  { intros s F P. eapply (one 3).
    - unfold step. rewrite P. cbv zeta. rewrite is_locked_BOTH by exact F. reflexivity.
    - apply kunl; cbn [set_pc lock pcs]; [exact F|apply upd_same]. }
  assert (kmut : forall s, is_locked (lock s l) = false -> mutex (bays s (bay_of l)) = None -> pcs s t = KMutex l -> fin 5 s).
  { intros s F M P. eapply (one 4).
    - unfold step. rewrite P. cbv zeta. rewrite M. reflexivity.
    - apply kchk; cbn [set_pc set_bay lock pcs]; [exact F|apply upd_same]. }
  assert (mark : forall s, is_locked (lock s l) = false -> mutex (bays s (bay_of l)) = None -> pcs s t = LMark l -> fin 6 s).
  { intros s F M P. eapply (one 5).
    - unfold step. rewrite P. destruct (bits_eqb_spec (lock s l) LOCKED) as [Q|_]; [rewrite Q in F; discriminate|]. reflexivity.
    - apply kmut; cbn [set_pc set_bay lock pcs bays]; [exact F|exact M|apply upd_same]. }
  assert (kdec : forall s, is_locked (lock s l) = false -> parked (bays s (bay_of l)) <> 0 -> pcs s t = KDec l -> fin 4 s).
  { intros s F M P. destruct (parked (bays s (bay_of l))) eqn:Q; [contradiction|]. eapply (one 3).
    - unfold step. rewrite P. cbv zeta. rewrite Q. reflexivity.
    - apply kunl; cbn [set_pc set_bay lock pcs bays]; [exact F|apply upd_same]. }
  assert (retn : forall n, (n <= 9)%nat -> fin n st -> exists n0 st', (n0 <= 9)%nat /\ run bay_of spins st (repeat (Step t) n0) = Ok st' /\
    In l (held st' t) /\ pcs st' t = Idle) by (intros n Hn' (s & K); exists n, s; split; [exact Hn'|exact K]).
  destruct (pcs st t) eqn:Ep; cbn [locking] in Hp; try contradiction; subst l0;
    try (assert (Mu : mutex (bays st (bay_of l)) = None) by (destruct Hm as [Q|[k' Q]]; [exact Q|discriminate])).
  - (* LFast *) destruct (bits_eqb_spec (lock st l) ZERO) as [Q|Q].
    + apply (retn 1); [lia|]. eapply (one 0).
      * unfold step. rewrite Ep, Q. reflexivity.
      * eexists. split; [reflexivity|]. cbn [acquired set_pc set_held set_lock held pcs]. rewrite !upd_same. split; [now left|reflexivity].
    + apply (retn 3); [lia|]. eapply (one 2).
      * unfold step. rewrite Ep. destruct (bits_eqb_spec (lock st l) ZERO); [contradiction|]. reflexivity.
      * eapply spinl; cbn [set_pc lock pcs]; [exact Hf|exact Hf|apply upd_same|reflexivity].
  - (* LSpin *) destruct (is_locked s) eqn:Es.
    + destruct (k <? spins) eqn:Ek.
      * apply (retn 3); [lia|]. eapply (one 2); [unfold step; rewrite Ep, Es, Ek; reflexivity|].
        eapply spinl; cbn [set_pc lock pcs]; [exact Hf|exact Hf|apply upd_same|reflexivity].
      * apply (retn 7); [lia|]. eapply (one 6); [unfold step; rewrite Ep, Es, Ek; reflexivity|].
        apply mark; cbn [set_pc lock pcs bays]; [exact Hf|exact Mu|apply upd_same].
    + destruct (bits_eqb_spec (lock st l) s) as [Q|Q].
      * apply (retn 2); [lia|]. eapply (spinl st s k); auto.
      * apply (retn 4); [lia|]. eapply (one 3); [unfold step; rewrite Ep, Es; reflexivity|].
        eapply (one 2).
        -- unfold step. cbn [set_pc pcs lock]. rewrite upd_same, Es. destruct (bits_eqb_spec (lock st l) s); [contradiction|]. reflexivity.
        -- eapply spinl; cbn [set_pc lock pcs]; [exact Hf|exact Hf|apply upd_same|reflexivity].
  - (* LMark *) apply (retn 6); [lia|]. apply mark; auto.
  - (* LTry *) cbn [try_ok] in I10. destruct (bits_eqb_spec (lock st l) s) as [Q|Q].
    + apply (retn 1); [lia|]. eapply (tryl st s); auto.
    + apply (retn 3); [lia|]. eapply (one 2).
      * unfold step. rewrite Ep, I10. destruct (bits_eqb_spec (lock st l) s); [contradiction|]. reflexivity.
      * eapply spinl; cbn [set_pc lock pcs]; [exact Hf|exact Hf|apply upd_same|reflexivity].
  - apply (retn 2); [lia|]. apply relo; auto.
  - apply (retn 5); [lia|]. apply kmut; auto.
  - apply (retn 4); [lia|]. apply kchk; auto.
  - apply (retn 3); [lia|]. apply kunl; auto.
  - contradiction.
  - (* KWoken *) apply (retn 5); [lia|]. eapply (one 4).
    + unfold step. rewrite Ep. cbv zeta. rewrite Mu. reflexivity.
    + apply kdec; cbn [set_pc set_bay lock pcs bays]; [exact Hf| |apply upd_same]. rewrite upd_same. cbn [parked]. apply Hpk. reflexivity.
  - apply (retn 4); [lia|]. apply kdec; auto.
Qed.

Print Assumptions C37_mutual_exclusion.
Print Assumptions C37_acquire_when_free.
Print Assumptions C38_sleeper_has_waker.
Print Assumptions C38_released_lock_has_no_sleeper.
Print Assumptions C38_free_lock_acquired.

(* Thread 0 takes lock 5; thread 1 spins, parks and sleeps on it; thread 0
   releases it and wakes thread 1, which gets it. *)
Definition contend : list event :=
  [CallLock 0 5; Step 0; CallLock 1 5] ++ repeat (Step 1) 6.
Example contend_sleeps : exists st, run (fun _ => 0) 2 init (contend ++ [Step 1]) = Ok st /\
  asleep (pcs st 1) 5 /\ In 5 (held st 0) /\ lock st 5 = BOTH.
Proof. eexists. split; [vm_compute; reflexivity|]. split; [reflexivity|]. split; [now left|reflexivity]. Qed.
Example contend_released : exists st,
  run (fun _ => 0) 2 init (contend ++ [Step 1; CallUnlock 0 5] ++ repeat (Step 0) 6) = Ok st /\
  pcs st 0 = Idle /\ locking (pcs st 1) 5 /\ lock st 5 = Bits false true /\ (forall u, u <> 1 -> resting (pcs st u)) /\
  (forall u, ~ In 5 (held st u)).
Proof.
  eexists. split; [vm_compute; reflexivity|]. cbn. split; [reflexivity|]. split; [reflexivity|]. split; [reflexivity|]. split.
  - intros [|[|u]] H; [now left|congruence|now left].
  - intros [|[|u]]; intros [].
Qed.
