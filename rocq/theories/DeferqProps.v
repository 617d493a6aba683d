(* C43: deferred work queues and their shuffling (src/rt/model.c). *)
From Coq Require Import List Arith Bool Lia Permutation.
From Verif Require Import Base DeferqModel.
Import ListNotations.

Section Q.
Context {T : Type}.

Definition qlist (a : nat -> T) (n : nat) : list T := map a (seq 0 n).

Lemma qlist_S (a : nat -> T) n : qlist a (S n) = qlist a n ++ [a n].
Proof. unfold qlist. now rewrite seq_S, map_app. Qed.

Lemma qlist_ext (a b : nat -> T) n : (forall i, i < n -> a i = b i) -> qlist a n = qlist b n.
Proof. intros H. apply map_ext_in. intros i I. apply in_seq in I. apply H. lia. Qed.

Lemma qlist_upd_ge (a : nat -> T) n i x : n <= i -> qlist (upd a i x) n = qlist a n.
Proof. intros H. apply qlist_ext. intros j L. apply upd_other. lia. Qed.

Lemma qlist_upd_perm (a : nat -> T) x : forall n i, i < n ->
  Permutation (a i :: qlist (upd a i x) n) (x :: qlist a n).
Proof.
  induction n as [|n IH]; intros i L; [lia|]. rewrite !qlist_S.
  destruct (Nat.eq_dec i n) as [E|N].
  - subst i. rewrite upd_same, qlist_upd_ge by lia.
    apply perm_trans with (a n :: x :: qlist a n).
    + constructor. apply Permutation_sym, Permutation_cons_append.
    + apply perm_trans with (x :: a n :: qlist a n); [apply perm_swap|].
      constructor. apply Permutation_cons_append.
  - rewrite upd_other by lia. rewrite !app_comm_cons. apply Permutation_app_tail. apply IH. lia.
Qed.

Lemma shuffle_above rnd : forall cur step (a : nat -> T) i, cur <= i ->
  shuffle_loop rnd step cur a i = a i.
Proof.
  induction cur as [|cur IH]; intros step a i L; cbn [shuffle_loop]; [reflexivity|].
  rewrite IH by lia. pose proof (Nat.mod_upper_bound (rnd step) (S cur)).
  unfold upd. destruct (Nat.eqb_spec i (rnd step mod S cur)); [lia|].
  destruct (Nat.eqb_spec i cur); [lia|reflexivity].
Qed.

Lemma swap_perm (a : nat -> T) n i : i <= n ->
  Permutation (qlist (upd (upd a n (a i)) i (a n)) (S n)) (qlist a (S n)).
Proof.
  intros L.
  assert (H1 : Permutation (upd a n (a i) i :: qlist (upd (upd a n (a i)) i (a n)) (S n))
                           (a n :: qlist (upd a n (a i)) (S n))) by (apply qlist_upd_perm; lia).
  assert (H2 : Permutation (a n :: qlist (upd a n (a i)) (S n)) (a i :: qlist a (S n)))
    by (apply qlist_upd_perm; lia).
  assert (E : upd a n (a i) i = a i).
  { unfold upd. destruct (Nat.eqb_spec i n); congruence. }
  rewrite E in H1. eapply Permutation_cons_inv. eapply perm_trans; [exact H1|exact H2].
Qed.

Lemma shuffle_perm rnd : forall cur step (a : nat -> T),
  Permutation (qlist (shuffle_loop rnd step cur a) cur) (qlist a cur).
Proof.
  induction cur as [|cur IH]; intros step a; cbn [shuffle_loop]; [reflexivity|].
  set (i := rnd step mod S cur).
  assert (Hi : i <= cur) by (pose proof (Nat.mod_upper_bound (rnd step) (S cur)); subst i; lia).
  set (b := upd (upd a cur (a i)) i (a cur)).
  rewrite qlist_S. rewrite (shuffle_above rnd cur (S step) b cur) by lia.
  eapply perm_trans; [apply Permutation_app_tail; apply IH|].
  rewrite <- qlist_S. apply swap_perm. exact Hi.
Qed.

Lemma shuffle_shift (rnd : nat -> nat) k : forall cur step (a : nat -> T),
  shuffle_loop rnd (k + step) cur a = shuffle_loop (fun j => rnd (k + j)) step cur a.
Proof.
  induction cur as [|cur IH]; intros step a; cbn [shuffle_loop]; [reflexivity|].
  rewrite <- IH. now rewrite Nat.add_succ_r.
Qed.

(* Every order is produced by some random sequence. *)
Lemma shuffle_onto : forall n (a : nat -> T) l, Permutation l (qlist a n) ->
  exists rnd, (forall i, rnd i < n + 1) /\ qlist (shuffle_loop rnd 0 n a) n = l.
Proof.
  induction n as [|n IH]; intros a l P.
  - exists (fun _ => 0). split; [lia|]. cbn in P. symmetry in P. apply Permutation_nil in P. now subst.
  - destruct l as [|x0 l0]; [apply Permutation_length in P; rewrite qlist_S, app_length in P; cbn in P; lia|].
    destruct (exists_last (l := x0 :: l0)) as (l' & x & E); [discriminate|]. rewrite E in *. clear x0 l0 E.
    assert (I : In x (qlist a (S n))).
    { eapply Permutation_in; [exact P|]. apply in_or_app. right. now left. }
    apply in_map_iff in I. destruct I as (i & Ei & Hi). apply in_seq in Hi.
    set (b := upd (upd a n (a i)) i (a n)).
    assert (Bn : b n = x).
    { subst b. unfold upd. rewrite Nat.eqb_refl. destruct (Nat.eqb_spec n i) as [E|E]; congruence. }
    destruct (IH b l') as (rnd & Hr & Hl).
    { pose proof (swap_perm a n i ltac:(lia)) as SP. fold b in SP. rewrite qlist_S, Bn in SP.
      apply (Permutation_app_inv_r [x]). eapply perm_trans; [exact P|]. symmetry. exact SP. }
    exists (fun k => match k with 0 => i | S k => rnd k end). split.
    + intros [|k]; [lia|]. specialize (Hr k). lia.
    + cbn [shuffle_loop]. rewrite (Nat.mod_small i (S n)) by lia. fold b.
      set (F := fun k => match k with 0 => i | S k => rnd k end).
      assert (Es : shuffle_loop F 1 n b = shuffle_loop rnd 0 n b) by exact (shuffle_shift F 1 n 0 b).
      rewrite Es, qlist_S, Hl. f_equal. rewrite shuffle_above by lia. now rewrite Bn.
Qed.

Lemma do_all_ok : forall ts (q : deferq T), qcount q <= qmax q ->
  exists q', deferq_do_all q ts = Ok q' /\ qcount q' <= qmax q' /\
             qcount q' = qcount q + length ts /\
             qlist (qtasks q') (qcount q') = qlist (qtasks q) (qcount q) ++ ts.
Proof.
  induction ts as [|t ts IH]; intros q I; cbn [deferq_do_all].
  - exists q. rewrite app_nil_r. cbn. repeat split; lia || reflexivity.
  - unfold deferq_do.
    set (q1 := if qcount q =? qmax q then deferq_grow q else q).
    assert (Hq : qcount q1 = qcount q /\ qtasks q1 = qtasks q /\ qcount q1 < qmax q1).
    { subst q1. destruct (Nat.eqb_spec (qcount q) (qmax q)); cbn; repeat split; lia. }
    destruct Hq as (E1 & E2 & L). replace (qcount q1 <? qmax q1) with true by (symmetry; now apply Nat.ltb_lt).
    cbn [bind].
    destruct (IH (Q (S (qcount q1)) (qmax q1) (upd (qtasks q1) (qcount q1) t))) as (q' & H1 & H2 & H3 & H4).
    { cbn. lia. }
    exists q'. split; [exact H1|]. split; [exact H2|]. cbn [qcount qtasks] in *. split; [cbn; lia|].
    rewrite H4, qlist_S, upd_same, E1, E2, qlist_upd_ge by lia. now rewrite <- app_assoc.
Qed.
End Q.

(* However many tasks are scheduled (with the storage growing as needed) and
   whatever the random numbers are, running the shuffled queue executes exactly
   the scheduled tasks, each as often as it was scheduled, and leaves an empty
   queue; unshuffled they run in scheduling order. *)
Theorem C43_shuffle_is_reordering :
  forall (T : Type) (store : nat -> T) (tasks : list T) (rnd : nat -> nat),
    exists q, deferq_do_all (Q 0 0 store) tasks = Ok q /\
      fst (deferq_run q) = tasks /\
      Permutation (fst (deferq_run (deferq_shuffle rnd q))) tasks /\
      qcount (snd (deferq_run (deferq_shuffle rnd q))) = 0.
Proof.
  intros T store tasks rnd.
  destruct (do_all_ok tasks (Q 0 0 store)) as (q & H1 & H2 & H3 & H4); [cbn; lia|].
  exists q. cbn in H4. split; [exact H1|]. split; [exact H4|]. split; [|reflexivity].
  cbn. rewrite <- H4. apply shuffle_perm.
Qed.

(* Every execution order is possible. *)
Theorem C43_shuffle_reaches_every_order :
  forall (T : Type) (store : nat -> T) (tasks order : list T),
    Permutation order tasks ->
    exists rnd q, deferq_do_all (Q 0 0 store) tasks = Ok q /\
                  fst (deferq_run (deferq_shuffle rnd q)) = order.
Proof.
  intros T store tasks order P.
  destruct (do_all_ok tasks (Q 0 0 store)) as (q & H1 & H2 & H3 & H4); [cbn; lia|].
  cbn in H4. destruct (shuffle_onto (qcount q) (qtasks q) order) as (rnd & _ & Hr).
  { rewrite H4. exact P. }
  exists rnd, q. split; [exact H1|]. exact Hr.
Qed.

Example C43_example :
  match deferq_do_all (Q 0 0 (fun _ => 0)) [10; 20; 30; 40; 50] with
  | Ok q => fst (deferq_run (deferq_shuffle (fun i => 7 * i + 3) q)) = [20; 10; 50; 30; 40]
  | Fault => False
  end.
Proof. vm_compute. reflexivity. Qed.

Print Assumptions C43_shuffle_is_reordering.
Print Assumptions C43_shuffle_reaches_every_order.
