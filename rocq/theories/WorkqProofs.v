(* The invariant of work queues. *)
From Coq Require Import List Arith ZArith Lia Bool Permutation.
From Verif Require Import Base WorkqModel.
Import ListNotations.

Fixpoint sum (f : nat -> nat) (n : nat) : nat := match n with O => 0 | S n => sum f n + f n end.
Fixpoint cat {A} (f : nat -> list A) (n : nat) : list A := match n with O => [] | S n => cat f n ++ f n end.

Lemma sum_ext f g n : (forall i, i < n -> f i = g i) -> sum f n = sum g n.
Proof. induction n as [|n IH]; intros H; [reflexivity|]. cbn. rewrite IH by (intros; apply H; lia). now rewrite H by lia. Qed.
Lemma cat_ext {A} (f g : nat -> list A) n : (forall i, i < n -> f i = g i) -> cat f n = cat g n.
Proof. induction n as [|n IH]; intros H; [reflexivity|]. cbn. rewrite IH by (intros; apply H; lia). now rewrite H by lia. Qed.
Lemma sum_upd f g t n : t < n -> (forall i, i < n -> i <> t -> g i = f i) -> sum g n + f t = sum f n + g t.
Proof.
  induction n as [|n IH]; intros Ht H; [lia|]. cbn. destruct (Nat.eq_dec t n) as [->|N].
  - rewrite (sum_ext g f) by (intros; apply H; lia). lia.
  - rewrite (H n) by lia. specialize (IH ltac:(lia) ltac:(intros; apply H; lia)). lia.
Qed.
Lemma cat_upd {A} (f g : nat -> list A) t n : t < n -> (forall i, i < n -> i <> t -> g i = f i) ->
  Permutation (cat g n ++ f t) (cat f n ++ g t).
Proof.
  induction n as [|n IH]; intros Ht H; [lia|]. cbn. destruct (Nat.eq_dec t n) as [->|N].
  - rewrite (cat_ext g f) by (intros; apply H; lia). rewrite <- !app_assoc. apply Permutation_app_head, Permutation_app_comm.
  - rewrite (H n) by lia. specialize (IH ltac:(lia) ltac:(intros; apply H; lia)).
    rewrite <- !app_assoc. rewrite (Permutation_app_comm (f n)), (Permutation_app_comm (f n) (g t)). rewrite !app_assoc. now apply Permutation_app_tail.
Qed.
Lemma sum_zero f n : sum f n = 0 -> forall i, i < n -> f i = 0.
Proof. induction n as [|n IH]; intros H i Hi; [lia|]. cbn in H. destruct (Nat.eq_dec i n) as [->|N]; [lia|]. apply IH; lia. Qed.
Lemma sum_le f g n : (forall i, i < n -> f i <= g i) -> sum f n <= sum g n.
Proof. induction n as [|n IH]; intros H; [cbn; lia|]. cbn. specialize (IH ltac:(intros; apply H; lia)). specialize (H n ltac:(lia)). lia. Qed.
Lemma sum_more f n m : n <= m -> sum f n <= sum f m.
Proof. intros H. induction H as [|m H IH]; cbn; lia. Qed.
Lemma sum_tail f n m : n <= m -> (forall i, n <= i -> i < m -> f i = 0) -> sum f m = sum f n.
Proof.
  induction m as [|m IH]; intros H K; [now replace n with 0 by lia|]. destruct (Nat.eq_dec n (S m)) as [->|N]; [reflexivity|].
  cbn. rewrite (IH ltac:(lia) ltac:(intros; apply K; lia)). rewrite K by lia. lia.
Qed.
Lemma cat_tail {A} (f : nat -> list A) n m : n <= m -> (forall i, n <= i -> i < m -> f i = []) -> cat f m = cat f n.
Proof.
  induction m as [|m IH]; intros H K; [now replace n with 0 by lia|]. destruct (Nat.eq_dec n (S m)) as [->|N]; [reflexivity|].
  cbn. rewrite (IH ltac:(lia) ltac:(intros; apply K; lia)). rewrite K by lia. apply app_nil_r.
Qed.
Lemma cat_nil {A} (f : nat -> list A) n : (forall i, i < n -> f i = []) -> cat f n = [].
Proof. intros H. rewrite (cat_tail f 0 n) by (try lia; intros; apply H; lia). reflexivity. Qed.

Definition post (en : nat -> entryq) (e i : nat) : nat := if wepoch (en i) =? e then wcount (en i) else 0.
Definition comp (en : nat -> entryq) (e i : nat) : nat := if cepoch (en i) =? e then ccount (en i) else 0.
Definition posted (en : nat -> entryq) (e i : nat) : list task := if wepoch (en i) =? e then firstn (wcount (en i)) (tasks (en i)) else [].
Definition busy (x : xpc) : nat := match x with XRun (Work _) | XLoad | XStore _ _ => 1 | _ => 0 end.
Definition abusy (x : xpc) : nat := match x with XRun (Async _) | XDec => 1 | _ => 0 end.
Definition running (x : xpc) : list task := match x with XRun x => [x] | _ => [] end.
Definition works (l : list task) : nat := length (filter is_work l).
Definition asyncs (l : list task) : nat := length (filter (fun x => negb (is_work x)) l).

Definition flight (st : sys) : nat := works (pool st) + sum (fun i => busy (exec st i)) (S (maxid st)).

Definition scan_ok (st : sys) : Prop :=
  let lo i := (Z.of_nat (sum (post (entry st) (epoch st - 1)) i) - Z.of_nat (sum (comp (entry st) (epoch st)) i))%Z in
  let ok e m := stat st = START /\ e = epoch st /\ m <= maxid st /\ (forall j, m < j -> post (entry st) (epoch st - 1) j = 0) in
  match main st with
  | MOut => True
  | MDrain => stat st = START
  | MScanW e m i acc => ok e m /\ i <= m /\ (lo i <= acc)%Z
  | MScanC e m i acc => ok e m /\ i <= m /\ (lo i + Z.of_nat (post (entry st) (epoch st - 1) i) <= acc)%Z
  end.

Definition inv (st : sys) : Prop :=
  1 <= epoch st /\ maxthread st <= maxid st /\
  (forall i, wepoch (entry st i) <= epoch st /\ cepoch (entry st i) <= epoch st) /\
  (forall i, maxid st < i -> entry st i = empty_q /\ exec st i = XNone) /\
  (stat st = START \/ (forall i, wepoch (entry st i) <> epoch st) ->
   sum (post (entry st) (epoch st - 1)) (S (maxid st)) = sum (comp (entry st) (epoch st)) (S (maxid st)) + flight st) /\
  (forall t c e, exec st t = XStore c e -> e = epoch st /\ c = comp (entry st) (epoch st) t + 1) /\
  (stat st = IDLE -> flight st = 0) /\
  (forall i, wepoch (entry st i) = epoch st ->
     stat st = IDLE /\ wcount (entry st i) = length (tasks (entry st i)) /\ 1 <= wcount (entry st i) /\ i <= maxthread st /\
     works (tasks (entry st i)) = length (tasks (entry st i))) /\
  Permutation (submitted st)
    (done st ++ pool st ++ cat (fun i => running (exec st i)) (S (maxid st)) ++ cat (posted (entry st) (epoch st)) (S (maxid st))) /\
  async_pending st = Z.of_nat (asyncs (pool st) + sum (fun i => abusy (exec st i)) (S (maxid st))) /\
  scan_ok st.

Lemma init_inv : inv init.
Proof.
  unfold inv, flight, scan_ok. cbn. split; [lia|]. split; [lia|]. split; [lia|]. split; [auto|]. split; [reflexivity|]. split; [discriminate|].
  split; [auto|]. split; [discriminate|]. auto.
Qed.

Lemma works_app a b : works (a ++ b) = works a + works b.
Proof. unfold works. now rewrite filter_app, app_length. Qed.
Lemma asyncs_app a b : asyncs (a ++ b) = asyncs a + asyncs b.
Proof. unfold asyncs. now rewrite filter_app, app_length. Qed.

Lemma remove_nth_perm {A} : forall i (l : list A) x, nth_error l i = Some x -> Permutation l (x :: remove_nth i l).
Proof.
  induction i as [|i IH]; intros [|y l] x H; try discriminate; cbn in *.
  - now injection H as ->.
  - rewrite (IH _ _ H) at 1. apply perm_swap.
Qed.
Lemma works_perm l l' : Permutation l l' -> works l = works l'.
Proof. intros P. unfold works. induction P; cbn; try destruct (is_work x); try destruct (is_work y); cbn; try congruence; lia. Qed.
Lemma asyncs_perm l l' : Permutation l l' -> asyncs l = asyncs l'.
Proof. intros P. unfold asyncs. induction P; cbn; try destruct (is_work x); try destruct (is_work y); cbn; try congruence; lia. Qed.

(* Moves a common prefix or finds a common element. *)
Lemma perm4 {A} (s d p r q r' : list A) x : Permutation s (d ++ (x :: p) ++ r ++ q) -> Permutation r' (x :: r) ->
  Permutation s (d ++ p ++ r' ++ q).
Proof.
  intros H K. rewrite H. apply Permutation_app_head. rewrite K. cbn [app]. apply Permutation_middle.
Qed.

Lemma take_inv st t i x : inv st -> may_take st t = true -> nth_error (pool st) i = Some x ->
  inv (Sys (epoch st) (maxthread st) (stat st) (entry st) (maxid st) (remove_nth i (pool st)) (upd (exec st) t (XRun x)) (main st)
           (async_pending st) (submitted st) (done st) (drained st)).
Proof.
  intros (J1 & J2 & J3 & J4 & J5 & J6 & J7 & J8 & J9 & J10 & J11) Hm Hn.
  unfold may_take in Hm. apply andb_true_iff in Hm. destruct Hm as [Hm Hmn]. apply andb_true_iff in Hm. destruct Hm as [Ht Hx].
  apply Nat.leb_le in Ht. assert (Ex : exec st t = XNone) by (destruct (exec st t); try discriminate; reflexivity).
  pose proof (remove_nth_perm _ _ _ Hn) as P. pose proof (works_perm _ _ P) as Pw. pose proof (asyncs_perm _ _ P) as Pa.
  assert (B : sum (fun i0 => busy (upd (exec st) t (XRun x) i0)) (S (maxid st)) + 0 = sum (fun i0 => busy (exec st i0)) (S (maxid st)) + busy (XRun x)).
  { pose proof (sum_upd (fun i0 => busy (exec st i0)) (fun i0 => busy (upd (exec st) t (XRun x) i0)) t (S (maxid st)) ltac:(lia)) as Q.
    cbv beta in Q. rewrite upd_same, Ex in Q. apply Q. intros j _ Nj. now rewrite upd_other. }
  assert (B' : sum (fun i0 => abusy (upd (exec st) t (XRun x) i0)) (S (maxid st)) + 0 = sum (fun i0 => abusy (exec st i0)) (S (maxid st)) + abusy (XRun x)).
  { pose proof (sum_upd (fun i0 => abusy (exec st i0)) (fun i0 => abusy (upd (exec st) t (XRun x) i0)) t (S (maxid st)) ltac:(lia)) as Q.
    cbv beta in Q. rewrite upd_same, Ex in Q. apply Q. intros j _ Nj. now rewrite upd_other. }
  assert (R : Permutation (cat (fun i0 => running (upd (exec st) t (XRun x) i0)) (S (maxid st))) (x :: cat (fun i0 => running (exec st i0)) (S (maxid st)))).
  { pose proof (cat_upd (fun i0 => running (exec st i0)) (fun i0 => running (upd (exec st) t (XRun x) i0)) t (S (maxid st)) ltac:(lia)) as Q.
    cbv beta in Q. rewrite upd_same, Ex in Q. cbn [running] in Q. rewrite app_nil_r in Q. rewrite Q; [|intros j _ Nj; now rewrite upd_other].
    symmetry. apply Permutation_cons_append. }
  assert (Fl : works (remove_nth i (pool st)) + sum (fun i0 => busy (upd (exec st) t (XRun x) i0)) (S (maxid st)) = flight st).
  { unfold flight. rewrite Pw. unfold works at 2. cbn [filter]. destruct x; cbn [is_work length busy] in *; fold (works (remove_nth i (pool st))); lia. }
  unfold inv, flight. cbn [epoch maxthread stat entry maxid pool exec main async_pending submitted done drained].
  split; [exact J1|]. split; [exact J2|]. split; [exact J3|]. split.
  { intros j Hj. rewrite upd_other by lia. auto. }
  split; [rewrite Fl; exact J5|]. split.
  { intros u c e. destruct (Nat.eq_dec u t) as [->|Nu]; [rewrite upd_same; discriminate|rewrite upd_other by exact Nu; apply J6]. }
  split; [rewrite Fl; exact J7|]. split; [exact J8|]. split.
  { eapply perm4; [|exact R]. rewrite J9. apply Permutation_app_head. now apply Permutation_app_tail. }
  split; [|exact J11].
  rewrite J10. f_equal. rewrite Pa. unfold asyncs at 1. cbn [filter]. destruct x; cbn [is_work negb length abusy] in *; fold (asyncs (remove_nth i (pool st))); lia.
Qed.

(* The counters of a thread that executes a task. *)
Lemma exec_sums st t p : t <= maxid st ->
  sum (fun i => busy (upd (exec st) t p i)) (S (maxid st)) + busy (exec st t) = sum (fun i => busy (exec st i)) (S (maxid st)) + busy p /\
  sum (fun i => abusy (upd (exec st) t p i)) (S (maxid st)) + abusy (exec st t) = sum (fun i => abusy (exec st i)) (S (maxid st)) + abusy p /\
  Permutation (cat (fun i => running (upd (exec st) t p i)) (S (maxid st)) ++ running (exec st t))
              (cat (fun i => running (exec st i)) (S (maxid st)) ++ running p).
Proof.
  intros Ht. split; [|split].
  - pose proof (sum_upd (fun i => busy (exec st i)) (fun i => busy (upd (exec st) t p i)) t (S (maxid st)) ltac:(lia)) as Q.
    cbv beta in Q. rewrite upd_same in Q. apply Q. intros j _ Nj. now rewrite upd_other.
  - pose proof (sum_upd (fun i => abusy (exec st i)) (fun i => abusy (upd (exec st) t p i)) t (S (maxid st)) ltac:(lia)) as Q.
    cbv beta in Q. rewrite upd_same in Q. apply Q. intros j _ Nj. now rewrite upd_other.
  - pose proof (cat_upd (fun i => running (exec st i)) (fun i => running (upd (exec st) t p i)) t (S (maxid st)) ltac:(lia)) as Q.
    cbv beta in Q. rewrite upd_same in Q. apply Q. intros j _ Nj. now rewrite upd_other.
Qed.

Lemma exec_inv st t : inv st -> inv (exec_step st t).
Proof.
  intros I0. pose proof I0 as (J1 & J2 & J3 & J4 & J5 & J6 & J7 & J8 & J9 & J10 & J11). unfold exec_step.
  destruct (exec st t) as [|x| |c e|] eqn:Ex; [exact I0| | | |];
    (assert (Ht : t <= maxid st) by (destruct (le_lt_dec t (maxid st)) as [L|L]; [exact L|]; destruct (J4 t L); congruence)).
  - (* the function is called *)
    set (p := if is_work x then XLoad else XDec).
    destruct (exec_sums st t p Ht) as (S1 & S2 & S3). rewrite Ex in S1, S2, S3. cbn [running] in S3.
    assert (busy p = busy (XRun x) /\ abusy p = abusy (XRun x) /\ running p = []) as (P1 & P2 & P3) by (destruct x; cbn; auto).
    assert (Fl : works (pool st) + sum (fun i0 => busy (upd (exec st) t p i0)) (S (maxid st)) = flight st) by (unfold flight; lia).
    unfold inv, flight. cbn [epoch maxthread stat entry maxid pool exec main async_pending submitted done drained].
    split; [exact J1|]. split; [exact J2|]. split; [exact J3|]. split.
    { intros j Hj. rewrite upd_other by lia. auto. }
    split; [rewrite Fl; exact J5|]. split.
    { intros u c e. destruct (Nat.eq_dec u t) as [->|Nu]; [rewrite upd_same; unfold p; destruct (is_work x); discriminate|rewrite upd_other by exact Nu; apply J6]. }
    split; [rewrite Fl; exact J7|]. split; [exact J8|]. split.
    { rewrite P3, app_nil_r in S3. rewrite J9. cbn [app]. rewrite <- S3. rewrite <- (Permutation_middle (done st)) || idtac.
      rewrite <- !app_assoc. cbn [app]. rewrite !app_assoc. rewrite <- Permutation_middle. reflexivity. }
    split; [|exact J11]. rewrite J10. f_equal. lia.
  - (* comp and epoch are loaded *)
    cbv zeta. set (p := XStore _ _). destruct (exec_sums st t p Ht) as (S1 & S2 & S3). rewrite Ex in S1, S2, S3. cbn [running p busy abusy] in S1, S2, S3.
    rewrite !app_nil_r in S3.
    assert (Fl : works (pool st) + sum (fun i0 => busy (upd (exec st) t p i0)) (S (maxid st)) = flight st) by (unfold flight; lia).
    unfold inv, flight, set_exec. cbn [epoch maxthread stat entry maxid pool exec main async_pending submitted done drained].
    split; [exact J1|]. split; [exact J2|]. split; [exact J3|]. split.
    { intros j Hj. rewrite upd_other by lia. auto. }
    split; [rewrite Fl; exact J5|]. split.
    { intros u c e. destruct (Nat.eq_dec u t) as [->|Nu]; [|rewrite upd_other by exact Nu; apply J6]. rewrite upd_same. unfold p. intros [= <- <-]. split; reflexivity. }
    split; [rewrite Fl; exact J7|]. split; [exact J8|]. split.
    { rewrite J9. do 2 apply Permutation_app_head. apply Permutation_app_tail. now symmetry. }
    split; [|exact J11]. rewrite J10. f_equal. lia.
  - (* comp is stored *)
    cbv zeta. destruct (exec_sums st t XNone Ht) as (S1 & S2 & S3). rewrite Ex in S1, S2, S3. cbn [running busy abusy] in S1, S2, S3.
    rewrite !app_nil_r in S3. destruct (J6 t c e Ex) as [-> Ec].
    set (q := EntryQ (tasks (entry st t)) (wcount (entry st t)) (wepoch (entry st t)) c (epoch st)).
    assert (Wp : forall k i, post (upd (entry st) t q) k i = post (entry st) k i).
    { intros k i. unfold post. destruct (Nat.eq_dec i t) as [->|N]; [rewrite upd_same; reflexivity|now rewrite upd_other]. }
    assert (Wd : forall k i, posted (upd (entry st) t q) k i = posted (entry st) k i).
    { intros k i. unfold posted. destruct (Nat.eq_dec i t) as [->|N]; [rewrite upd_same; reflexivity|now rewrite upd_other]. }
    assert (We : forall i, wepoch (upd (entry st) t q i) = wepoch (entry st i) /\ wcount (upd (entry st) t q i) = wcount (entry st i) /\ tasks (upd (entry st) t q i) = tasks (entry st i)).
    { intros i. destruct (Nat.eq_dec i t) as [->|N]; [rewrite upd_same; auto|now rewrite upd_other]. }
    assert (Ct : comp (upd (entry st) t q) (epoch st) t = comp (entry st) (epoch st) t + 1).
    { unfold comp at 1. rewrite upd_same. cbn [q cepoch ccount]. rewrite Nat.eqb_refl. exact Ec. }
    assert (Cs : forall n, t < n -> sum (comp (upd (entry st) t q) (epoch st)) n = sum (comp (entry st) (epoch st)) n + 1).
    { intros n Hn. pose proof (sum_upd (comp (entry st) (epoch st)) (comp (upd (entry st) t q) (epoch st)) t n Hn) as Q.
      rewrite Ct in Q. specialize (Q ltac:(intros j _ Nj; unfold comp; now rewrite upd_other)). lia. }
    assert (Cl : forall n, sum (comp (entry st) (epoch st)) n <= sum (comp (upd (entry st) t q) (epoch st)) n).
    { intros n. apply sum_le. intros i _. destruct (Nat.eq_dec i t) as [->|N]; [rewrite Ct; lia|unfold comp; now rewrite upd_other]. }
    assert (Ps : forall n, sum (post (upd (entry st) t q) (epoch st - 1)) n = sum (post (entry st) (epoch st - 1)) n) by (intros n; apply sum_ext; auto).
    assert (Fl : works (pool st) + sum (fun i0 => busy (upd (exec st) t XNone i0)) (S (maxid st)) + 1 = flight st) by (unfold flight; lia).
    unfold inv, flight. cbn [epoch maxthread stat entry maxid pool exec main async_pending submitted done drained].
    split; [exact J1|]. split; [exact J2|]. split.
    { intros i. destruct (We i) as (-> & _ & _). specialize (J3 i). split; [lia|]. destruct (Nat.eq_dec i t) as [->|N]; [rewrite upd_same; cbn; lia|rewrite upd_other by exact N; lia]. }
    split. { intros j Hj. rewrite !upd_other by lia. auto. }
    split.
    { intros H. rewrite Ps, Cs by lia. assert (H' : stat st = START \/ (forall i, wepoch (entry st i) <> epoch st)).
      { destruct H as [H|H]; [now left|]. right. intros i. rewrite <- (proj1 (We i)). apply H. }
      specialize (J5 H'). lia. } split.
    { intros u c' e' H. destruct (Nat.eq_dec u t) as [->|Nu]; [rewrite upd_same in H; discriminate|]. rewrite upd_other in H by exact Nu.
      unfold comp. rewrite upd_other by exact Nu. now apply J6. }
    split. { intros H. specialize (J7 H). lia. } split.
    { intros i. destruct (We i) as (-> & -> & ->). apply J8. } split.
    { rewrite (cat_ext (posted (upd (entry st) t q) (epoch st)) (posted (entry st) (epoch st))) by auto.
      rewrite J9. do 2 apply Permutation_app_head. apply Permutation_app_tail. now symmetry. }
    split; [rewrite J10; f_equal; lia|].
    unfold scan_ok in *. cbn [epoch maxthread stat entry maxid pool exec main] in *.
    destruct (main st) as [| |e m i acc|e m i acc]; auto.
    + destruct J11 as ((A & B & C & D) & F & G). split; [split; [exact A|]; split; [exact B|]; split; [exact C|]; intros j Hj; rewrite Wp; auto|]. split; [exact F|].
      rewrite Ps. specialize (Cl i). lia.
    + destruct J11 as ((A & B & C & D) & F & G). split; [split; [exact A|]; split; [exact B|]; split; [exact C|]; intros j Hj; rewrite Wp; auto|]. split; [exact F|].
      rewrite Ps, Wp. specialize (Cl i). lia.
  - (* async_pending is decremented *)
    destruct (exec_sums st t XNone Ht) as (S1 & S2 & S3). rewrite Ex in S1, S2, S3. cbn [running busy abusy] in S1, S2, S3.
    rewrite !app_nil_r in S3.
    assert (Fl : works (pool st) + sum (fun i0 => busy (upd (exec st) t XNone i0)) (S (maxid st)) = flight st) by (unfold flight; lia).
    unfold inv, flight. cbn [epoch maxthread stat entry maxid pool exec main async_pending submitted done drained].
    split; [exact J1|]. split; [exact J2|]. split; [exact J3|]. split.
    { intros j Hj. rewrite upd_other by lia. auto. }
    split; [rewrite Fl; exact J5|]. split.
    { intros u c e. destruct (Nat.eq_dec u t) as [->|Nu]; [rewrite upd_same; discriminate|rewrite upd_other by exact Nu; apply J6]. }
    split; [rewrite Fl; exact J7|]. split; [exact J8|]. split.
    { rewrite J9. do 2 apply Permutation_app_head. apply Permutation_app_tail. now symmetry. }
    split; [|exact J11]. rewrite J10. lia.
Qed.

Lemma post_new en e i t q : wepoch q = S e -> post (upd en t q) e i = if i =? t then 0 else post en e i.
Proof.
  intros H. unfold post. destruct (Nat.eqb_spec i t) as [->|N]; [|now rewrite upd_other].
  rewrite upd_same, H. destruct (Nat.eqb_spec (S e) e); [lia|reflexivity].
Qed.

Lemma do_inv st t k : inv st -> stat st = IDLE -> t <= maxid st -> main st = MOut \/ main st = MDrain -> inv (workq_do st t k).
Proof.
  intros (J1 & J2 & J3 & J4 & J5 & J6 & J7 & J8 & J9 & J10 & J11) Hs Ht Hm.
  assert (main st = MOut) as Hm'.
  { destruct Hm as [Hm|Hm]; [exact Hm|]. unfold scan_ok in J11. rewrite Hm in J11. congruence. }
  unfold workq_do. set (q := EntryQ _ _ _ _ _).
  assert (Eq : tasks q = posted (entry st) (epoch st) t ++ [Work k]) by reflexivity.
  assert (Lq : wcount q = length (tasks q)).
  { rewrite Eq, app_length. cbn [q wcount length]. f_equal. unfold posted. destruct (Nat.eqb_spec (wepoch (entry st t)) (epoch st)) as [E|E]; [|reflexivity].
    destruct (J8 t E) as (_ & L & _). rewrite firstn_length. lia. }
  unfold inv, flight. cbn [epoch maxthread stat entry maxid pool exec main async_pending submitted done drained].
  split; [exact J1|]. split; [lia|]. split.
  { intros i. destruct (Nat.eq_dec i t) as [->|N]; [|rewrite upd_other by exact N; apply J3]. rewrite upd_same. cbn [q wepoch cepoch]. specialize (J3 t). lia. }
  split. { intros i Hi. rewrite upd_other by lia. auto. }
  split. { intros [H|H]; [congruence|]. exfalso. specialize (H t). rewrite upd_same in H. now apply H. }
  split. { intros u c e H. destruct (J6 u c e H) as [A B]. split; [exact A|]. rewrite B. f_equal. unfold comp.
    destruct (Nat.eq_dec u t) as [->|N]; [rewrite upd_same; reflexivity|now rewrite upd_other]. }
  split; [exact J7|]. split.
  { intros i. destruct (Nat.eq_dec i t) as [->|N].
    - rewrite upd_same. intros _. split; [exact Hs|]. split; [exact Lq|].
      rewrite Lq, Eq, works_app, !app_length. cbn [works is_work filter length]. split; [lia|]. split; [lia|]. unfold posted.
      destruct (Nat.eqb_spec (wepoch (entry st t)) (epoch st)) as [E|E]; [|reflexivity].
      destruct (J8 t E) as (_ & L & _ & _ & W). rewrite L, firstn_all, W. reflexivity.
    - rewrite upd_other by exact N. intros H. destruct (J8 i H) as (A & B & C & D & E). split; [exact A|]. split; [exact B|]. split; [exact C|]. split; [lia|exact E]. }
  split.
  { assert (P : Permutation (cat (posted (upd (entry st) t q) (epoch st)) (S (maxid st))) (Work k :: cat (posted (entry st) (epoch st)) (S (maxid st)))).
    { pose proof (cat_upd (posted (entry st) (epoch st)) (posted (upd (entry st) t q) (epoch st)) t (S (maxid st)) ltac:(lia)
        ltac:(intros j _ Nj; unfold posted; now rewrite upd_other)) as Q.
      assert (Pt : posted (upd (entry st) t q) (epoch st) t = posted (entry st) (epoch st) t ++ [Work k]).
      { unfold posted at 1. rewrite upd_same. cbn [q wepoch]. rewrite Nat.eqb_refl. fold q. rewrite Lq, firstn_all. exact Eq. }
      rewrite Pt in Q. rewrite (Permutation_app_comm (posted (entry st) (epoch st) t) [Work k]) in Q.
      rewrite app_assoc in Q. apply Permutation_app_inv_r in Q. rewrite Q. symmetry. apply Permutation_cons_append. }
    rewrite P, J9. rewrite !app_assoc. apply Permutation_middle. }
  split; [exact J10|]. unfold scan_ok. cbn [main]. now rewrite Hm'.
Qed.

Lemma empty_none en k i : en i = empty_q -> post en k i = 0 /\ comp en k i = 0 /\ posted en k i = [].
Proof. intros E. unfold post, comp, posted. rewrite E. cbn [empty_q wepoch wcount cepoch ccount tasks firstn]. now destruct (0 =? k). Qed.

Lemma spawn_inv st : inv st ->
  inv (Sys (epoch st) (maxthread st) (stat st) (entry st) (S (maxid st)) (pool st) (exec st) (main st)
           (async_pending st) (submitted st) (done st) (drained st)).
Proof.
  intros (J1 & J2 & J3 & J4 & J5 & J6 & J7 & J8 & J9 & J10 & J11). destruct (J4 (S (maxid st)) ltac:(lia)) as [En Ex].
  assert (S1 : forall k, sum (post (entry st) k) (S (S (maxid st))) = sum (post (entry st) k) (S (maxid st))).
  { intros k. apply sum_tail; [lia|]. intros i A B. replace i with (S (maxid st)) by lia. now apply (empty_none (entry st) k). }
  assert (S2 : forall k, sum (comp (entry st) k) (S (S (maxid st))) = sum (comp (entry st) k) (S (maxid st))).
  { intros k. apply sum_tail; [lia|]. intros i A B. replace i with (S (maxid st)) by lia. now apply (empty_none (entry st) k). }
  assert (S3 : sum (fun i => busy (exec st i)) (S (S (maxid st))) = sum (fun i => busy (exec st i)) (S (maxid st))).
  { apply sum_tail; [lia|]. intros i A B. replace i with (S (maxid st)) by lia. now rewrite Ex. }
  assert (S4 : sum (fun i => abusy (exec st i)) (S (S (maxid st))) = sum (fun i => abusy (exec st i)) (S (maxid st))).
  { apply sum_tail; [lia|]. intros i A B. replace i with (S (maxid st)) by lia. now rewrite Ex. }
  assert (S5 : cat (fun i => running (exec st i)) (S (S (maxid st))) = cat (fun i => running (exec st i)) (S (maxid st))).
  { apply cat_tail; [lia|]. intros i A B. replace i with (S (maxid st)) by lia. now rewrite Ex. }
  assert (S6 : cat (posted (entry st) (epoch st)) (S (S (maxid st))) = cat (posted (entry st) (epoch st)) (S (maxid st))).
  { apply cat_tail; [lia|]. intros i A B. replace i with (S (maxid st)) by lia. now apply (empty_none (entry st) (epoch st)). }
  unfold inv, flight. cbn [epoch maxthread stat entry maxid pool exec main async_pending submitted done drained].
  rewrite S1, S2, S3, S4, S5, S6.
  split; [exact J1|]. split; [lia|]. split; [exact J3|]. split; [intros i Hi; apply J4; lia|]. split; [exact J5|]. split; [exact J6|]. split; [exact J7|].
  split; [exact J8|]. split; [exact J9|]. split; [exact J10|].
  unfold scan_ok in *. cbn [epoch maxthread stat entry maxid pool exec main] in *. destruct (main st) as [| |e m i acc|e m i acc]; auto; intuition.
Qed.

Lemma async_inv st k : inv st -> inv (Sys (epoch st) (maxthread st) (stat st) (entry st) (maxid st) (pool st ++ [Async k]) (exec st) (main st)
                (async_pending st + 1)%Z (Async k :: submitted st) (done st) (drained st)).
Proof.
  intros (J1 & J2 & J3 & J4 & J5 & J6 & J7 & J8 & J9 & J10 & J11).
  assert (Fl : works (pool st ++ [Async k]) = works (pool st)) by (rewrite works_app; cbn; lia).
  unfold inv, flight. cbn [epoch maxthread stat entry maxid pool exec main async_pending submitted done drained]. rewrite Fl.
  split; [exact J1|]. split; [exact J2|]. split; [exact J3|]. split; [exact J4|]. split; [exact J5|]. split; [exact J6|]. split; [exact J7|].
  split; [exact J8|]. split.
  { rewrite J9. rewrite <- !app_assoc. cbn [app]. rewrite !app_assoc. rewrite <- !(app_assoc (done st ++ pool st)). apply Permutation_middle. }
  split; [|exact J11]. rewrite J10, asyncs_app. cbn. lia.
Qed.

Lemma async1_inv st k : inv st -> inv (Sys (epoch st) (maxthread st) (stat st) (entry st) (maxid st) (pool st) (exec st) (main st)
                (async_pending st) (Async k :: submitted st) (Async k :: done st) (drained st)).
Proof.
  intros (J1 & J2 & J3 & J4 & J5 & J6 & J7 & J8 & J9 & J10 & J11).
  unfold inv, flight. cbn [epoch maxthread stat entry maxid pool exec main async_pending submitted done drained].
  split; [exact J1|]. split; [exact J2|]. split; [exact J3|]. split; [exact J4|]. split; [exact J5|]. split; [exact J6|]. split; [exact J7|].
  split; [exact J8|]. split; [cbn [app]; now constructor|]. split; [exact J10|exact J11].
Qed.

Lemma set_main_inv st p : inv st -> scan_ok (set_main st p) -> inv (set_main st p).
Proof. intros (J1 & J2 & J3 & J4 & J5 & J6 & J7 & J8 & J9 & J10 & J11) H. unfold inv. cbn [set_main epoch maxthread stat entry maxid pool exec async_pending submitted done drained]. auto 15. Qed.

(* Changing the status to idle when nothing is in flight. *)
Lemma idle_inv st : inv st -> stat st = START -> flight st = 0 ->
  inv (Sys (epoch st) (maxthread st) IDLE (entry st) (maxid st) (pool st) (exec st) MOut
           (async_pending st) (submitted st) (done st) (S (drained st))).
Proof.
  intros (J1 & J2 & J3 & J4 & J5 & J6 & J7 & J8 & J9 & J10 & J11) Hs Hf.
  unfold inv, flight. cbn [epoch maxthread stat entry maxid pool exec main async_pending submitted done drained].
  split; [exact J1|]. split; [exact J2|]. split; [exact J3|]. split; [exact J4|]. split; [intros _; apply J5; now left|]. split; [exact J6|].
  split; [intros _; exact Hf|]. split; [intros i H; destruct (J8 i H); congruence|]. split; [exact J9|]. split; [exact J10|exact Logic.I].
Qed.

Lemma main_inv st : inv st -> exists st', main_step st = Ok st' /\ inv st' /\ (drained st' <> drained st -> flight st' = 0 /\ stat st' = IDLE).
Proof.
  intros I0. pose proof I0 as (J1 & J2 & J3 & J4 & J5 & J6 & J7 & J8 & J9 & J10 & J11). unfold main_step. unfold scan_ok in J11.
  destruct (main st) as [| |e m i acc|e m i acc] eqn:Em.
  - eexists. split; [reflexivity|]. split; [exact I0|congruence].
  - eexists. split; [reflexivity|]. split; [|cbn; congruence]. apply set_main_inv; [exact I0|]. unfold scan_ok. cbn [set_main main epoch stat entry maxid].
    split; [|cbn; lia]. split; [exact J11|]. split; [reflexivity|]. split; [lia|]. intros j Hj. apply empty_none. now apply J4.
  - destruct J11 as ((A & B & C & D) & F & G). cbv zeta. eexists. split; [reflexivity|]. split; [|cbn; congruence].
    apply set_main_inv; [exact I0|]. unfold scan_ok. cbn [set_main main epoch stat entry maxid]. split; [split; [exact A|]; split; [exact B|]; split; [exact C|exact D]|].
    split; [exact F|]. unfold post at 2. subst e. destruct (_ =? _); lia.
  - destruct J11 as ((A & B & C & D) & F & G). cbv zeta. subst e. set (acc' := if cepoch (entry st i) =? epoch st then _ else _).
    assert (Ha : (Z.of_nat (sum (post (entry st) (epoch st - 1)) (S i)) - Z.of_nat (sum (comp (entry st) (epoch st)) (S i)) <= acc')%Z).
    { cbn [sum]. unfold acc', comp at 2. destruct (_ =? _); lia. }
    destruct (Nat.eqb_spec i m) as [->|Ni].
    + assert (P : sum (post (entry st) (epoch st - 1)) (S (maxid st)) = sum (post (entry st) (epoch st - 1)) (S m)).
      { apply sum_tail; [lia|]. intros j Hj _. apply D. lia. }
      pose proof (sum_more (comp (entry st) (epoch st)) (S m) (S (maxid st)) ltac:(lia)) as Q. specialize (J5 (or_introl A)).
      destruct (Z.ltb_spec acc' 0) as [L|L]; [lia|]. destruct (Z.eqb_spec acc' 0) as [Z0|Z0].
      * eexists. split; [reflexivity|]. assert (Hf : flight st = 0) by lia. split; [now apply idle_inv|]. intros _. split; [exact Hf|reflexivity].
      * eexists. split; [reflexivity|]. split; [|cbn; congruence]. apply set_main_inv; [exact I0|]. exact A.
    + eexists. split; [reflexivity|]. split; [|cbn; congruence]. apply set_main_inv; [exact I0|]. unfold scan_ok. cbn [set_main main epoch stat entry maxid].
      split; [split; [exact A|]; split; [reflexivity|]; split; [exact C|exact D]|]. split; [lia|exact Ha].
Qed.

Definition loop_ok (st0 st : sys) (e i n : nat) : Prop :=
  (maxthread st = maxthread st0 /\ maxid st = maxid st0 /\ exec st = exec st0 /\ main st = main st0 /\
   async_pending st = async_pending st0 /\ submitted st = submitted st0 /\ stat st = stat st0 /\ drained st = drained st0) /\
  (forall j, tasks (entry st j) = tasks (entry st0 j) /\ wcount (entry st j) = wcount (entry st0 j) /\ wepoch (entry st j) = wepoch (entry st0 j)) /\
  (forall j, j <> 0 -> entry st j = entry st0 j) /\
  epoch st = (if n =? 0 then e else S e) /\
  n = sum (post (entry st0) e) i /\
  (n = 0 -> entry st 0 = entry st0 0) /\
  n = comp (entry st) (S e) 0 + works (pool st) /\
  cepoch (entry st 0) <= epoch st /\
  asyncs (pool st) = asyncs (pool st0) /\
  Permutation (done st ++ pool st) (done st0 ++ pool st0 ++ cat (posted (entry st0) e) i).

Lemma works_all l : works l = length l -> asyncs l = 0.
Proof.
  unfold works, asyncs. induction l as [|x l IH]; [reflexivity|]. cbn [filter length]. destruct (is_work x); cbn [negb length]; intros H.
  - apply IH. lia.
  - exfalso. assert (length (filter is_work l) <= length l); [|lia]. clear. induction l as [|y l IH]; cbn [filter length]; [lia|]. destruct (is_work y); cbn [length]; lia.
Qed.

Lemma start_loop_ok parallel st0 e : 
  (forall j, wepoch (entry st0 j) = e -> wcount (entry st0 j) = length (tasks (entry st0 j)) /\ 1 <= wcount (entry st0 j) /\
     works (tasks (entry st0 j)) = length (tasks (entry st0 j))) ->
  forall fuel i n st, loop_ok st0 st e i n ->
  exists st' n', start_loop parallel e fuel i n st = Ok st' /\ loop_ok st0 st' e (i + fuel) n'.
Proof.
  intros HP. induction fuel as [|fuel IH]; intros i n st L.
  - exists st, n. rewrite Nat.add_0_r. split; [reflexivity|exact L].
  - cbn [start_loop]. pose proof L as ((G1 & G2 & G3 & G4 & G5 & G6 & G7 & G8) & L2 & L3 & L4 & L5 & L6 & L7 & L8 & L9 & L10).
    destruct (L2 i) as (T1 & T2 & T3). rewrite T1, T2, T3. replace (i + S fuel) with (S i + fuel) by lia.
    destruct (Nat.eqb_spec (wepoch (entry st0 i)) e) as [E|E].
    + destruct (HP i E) as (H1 & H2 & H3). cbv zeta. destruct (Nat.eqb_spec (wcount (entry st0 i)) 0) as [Z|_]; [lia|].
      rewrite H1, firstn_all, <- H1. set (xs := tasks (entry st0 i)) in *.
      assert (Pi : post (entry st0) e i = wcount (entry st0 i)) by (unfold post; rewrite E, Nat.eqb_refl; reflexivity).
      assert (Di : posted (entry st0) e i = xs) by (unfold posted; rewrite E, Nat.eqb_refl, H1; apply firstn_all).
      assert (Ep : (if n =? 0 then S (epoch st) else epoch st) = S e) by (rewrite L4; destruct (n =? 0); reflexivity).
      rewrite Ep.
      match goal with |- context[if ?b then _ else _] => destruct b end.
      * apply IH. unfold loop_ok. cbn [epoch maxthread stat entry maxid pool exec main async_pending submitted done drained].
        split; [auto 10|]. split.
        { intros j. destruct (Nat.eq_dec j 0) as [->|N]; [rewrite upd_same; cbn [complete tasks wcount wepoch]; apply L2|rewrite upd_other by exact N; apply L2]. }
        split; [intros j N; rewrite upd_other by exact N; auto|]. split; [destruct (Nat.eqb_spec (n + wcount (entry st0 i)) 0); [lia|reflexivity]|].
        split; [cbn [sum]; lia|]. split; [intros; lia|]. split.
        { unfold comp. rewrite upd_same. cbn [complete cepoch ccount]. rewrite Nat.eqb_refl. unfold comp in L7. lia. }
        split; [rewrite upd_same; cbn; lia|]. split; [exact L9|]. cbn [cat]. rewrite Di. rewrite <- (app_assoc (rev xs)).
        transitivity (xs ++ (done st0 ++ pool st0 ++ cat (posted (entry st0) e) i)).
        { apply Permutation_app; [symmetry; apply Permutation_rev|exact L10]. }
        rewrite Permutation_app_comm, <- !app_assoc. reflexivity.
      * apply IH. unfold loop_ok. cbn [epoch maxthread stat entry maxid pool exec main async_pending submitted done drained].
        split; [auto 10|]. split; [exact L2|]. split; [exact L3|]. split; [destruct (Nat.eqb_spec (n + wcount (entry st0 i)) 0); [lia|reflexivity]|].
        split; [cbn [sum]; lia|]. split; [intros; lia|]. split; [rewrite works_app; lia|]. split; [rewrite L4 in L8; destruct (n =? 0); lia|].
        split; [rewrite asyncs_app, (works_all xs H3); lia|]. cbn [cat]. rewrite Di. rewrite !app_assoc. apply Permutation_app_tail. now rewrite L10, !app_assoc.
    + apply IH. unfold loop_ok.
      assert (Pi : post (entry st0) e i = 0) by (unfold post; destruct (Nat.eqb_spec (wepoch (entry st0 i)) e); [contradiction|reflexivity]).
      assert (Di : posted (entry st0) e i = []) by (unfold posted; destruct (Nat.eqb_spec (wepoch (entry st0 i)) e); [contradiction|reflexivity]).
      split; [auto 10|]. split; [exact L2|]. split; [exact L3|]. split; [exact L4|]. split; [cbn [sum]; lia|]. split; [exact L6|]. split; [exact L7|].
      split; [exact L8|]. split; [exact L9|]. cbn [cat]. rewrite Di, app_nil_r. exact L10.
Qed.

Lemma start_inv parallel st : inv st -> stat st = IDLE -> main st = MOut ->
  exists st', workq_start parallel st = Ok st' /\ inv st' /\ drained st' = drained st.
Proof.
  intros (J1 & J2 & J3 & J4 & J5 & J6 & J7 & J8 & J9 & J10 & J11) Hs Hm. specialize (J7 Hs). unfold workq_start.
  assert (Wp : works (pool st) = 0 /\ sum (fun i => busy (exec st i)) (S (maxid st)) = 0) by (unfold flight in J7; lia). destruct Wp as [Wp Bz].
  destruct (start_loop_ok parallel (set_stat st START) (epoch st)) with (fuel := S (maxthread st)) (i := 0) (n := 0) (st := set_stat st START)
    as (st' & n & E & ((G1 & G2 & G3 & G4 & G5 & G6 & G7 & G8) & L2 & L3 & L4 & L5 & L6 & L7 & L8 & L9 & L10)).
  { intros j Hj. destruct (J8 j Hj) as (_ & A & B & _ & C). auto. }
  { unfold loop_ok. cbn [set_stat epoch maxthread stat entry maxid pool exec main async_pending submitted done drained Nat.eqb sum cat].
    split; [auto 10|]. split; [auto|]. split; [auto|]. split; [reflexivity|]. split; [reflexivity|]. split; [auto|]. split.
    { rewrite Wp. unfold comp. specialize (J3 0). destruct (Nat.eqb_spec (cepoch (entry st 0)) (S (epoch st))); lia. }
    split; [apply J3|]. split; [reflexivity|]. now rewrite app_nil_r. }
  cbn [set_stat epoch maxthread stat entry maxid pool exec main async_pending submitted done drained] in *.
  exists st'. split; [exact E|]. split; [|exact G8].
  assert (Sn : sum (post (entry st) (epoch st)) (S (maxid st)) = n).
  { rewrite L5. apply sum_tail; [lia|]. intros j Hj _. unfold post. destruct (Nat.eqb_spec (wepoch (entry st j)) (epoch st)) as [Q|Q]; [|reflexivity].
    destruct (J8 j Q) as (_ & _ & _ & K & _). lia. }
  assert (Ct : cat (posted (entry st) (epoch st)) (S (maxid st)) = cat (posted (entry st) (epoch st)) (0 + S (maxthread st))).
  { apply cat_tail; [lia|]. intros j Hj _. unfold posted. destruct (Nat.eqb_spec (wepoch (entry st j)) (epoch st)) as [Q|Q]; [|reflexivity].
    destruct (J8 j Q) as (_ & _ & _ & K & _). lia. }
  assert (Pe : forall k j, post (entry st') k j = post (entry st) k j).
  { intros k j. destruct (L2 j) as (A & B & C). unfold post. now rewrite B, C. }
  assert (Nb : forall t, busy (exec st t) = 0).
  { intros t. destruct (le_lt_dec t (maxid st)) as [Q|Q]; [apply (sum_zero _ _ Bz); lia|]. destruct (J4 t Q) as [_ ->]. reflexivity. }
  assert (Fl : flight st' = works (pool st')) by (unfold flight; rewrite G2, G3; lia).
  assert (We : forall i, n <> 0 \/ wepoch (entry st i) <> epoch st).
  { intros i. destruct (Nat.eq_dec (wepoch (entry st i)) (epoch st)) as [Q|Q]; [|now right]. left. destruct (J8 i Q) as (_ & _ & A & B & _).
    intros ->. pose proof (sum_zero _ _ Sn i ltac:(lia)) as Z. unfold post in Z. rewrite Q, Nat.eqb_refl in Z. lia. }
  assert (W' : forall i, wepoch (entry st' i) <> epoch st').
  { intros i. destruct (L2 i) as (_ & _ & ->). rewrite L4. specialize (J3 i). destruct (Nat.eqb_spec n 0) as [Z|Z]; [|lia].
    destruct (We i) as [Q|Q]; [contradiction|exact Q]. }
  unfold inv. rewrite G1, G2, G3, G5, G6, G7. split; [rewrite L4; destruct (n =? 0); lia|]. split; [exact J2|]. split.
  { intros i. destruct (L2 i) as (_ & _ & ->). specialize (J3 i). split; [rewrite L4; destruct (n =? 0); lia|].
    destruct (Nat.eq_dec i 0) as [->|N]; [exact L8|]. rewrite L3 by exact N. rewrite L4. destruct (n =? 0); lia. }
  split. { intros i Hi. rewrite L3 by lia. auto. } split.
  { intros _. rewrite Fl. rewrite (sum_ext _ (post (entry st) (epoch st' - 1))) by auto. rewrite L4. destruct (Nat.eqb_spec n 0) as [Z|Z].
    - assert (Ee : forall i, entry st' i = entry st i) by (intros i; destruct (Nat.eq_dec i 0) as [->|N]; auto).
      rewrite (sum_ext (comp (entry st') (epoch st)) (comp (entry st) (epoch st))) by (intros i _; unfold comp; now rewrite Ee).
      assert (K : stat st = START \/ (forall i, wepoch (entry st i) <> epoch st)).
      { right. intros i. destruct (We i) as [Q|Q]; [contradiction|exact Q]. }
      specialize (J5 K). lia.
    - replace (S (epoch st) - 1) with (epoch st) by lia. rewrite Sn.
      assert (C0 : forall i, i <> 0 -> comp (entry st') (S (epoch st)) i = 0).
      { intros i N. unfold comp. rewrite L3 by exact N. specialize (J3 i). destruct (Nat.eqb_spec (cepoch (entry st i)) (S (epoch st))); [lia|reflexivity]. }
      assert (C1 : sum (comp (entry st') (S (epoch st))) (S (maxid st)) = comp (entry st') (S (epoch st)) 0).
      { change (comp (entry st') (S (epoch st)) 0) with (sum (comp (entry st') (S (epoch st))) 1). apply sum_tail; [lia|]. intros i Hi _. apply C0. lia. }
      rewrite C1. exact L7. }
  split. { intros t c e0 H. specialize (Nb t). rewrite H in Nb. discriminate. } split; [discriminate|]. split.
  { intros i H. destruct (W' i H). }
  split. { rewrite J9. rewrite Ct. rewrite (cat_nil (posted (entry st') (epoch st'))).
    - rewrite app_nil_r. rewrite (app_assoc (done st') (pool st')). rewrite L10. rewrite !app_assoc. rewrite <- !(app_assoc (done st ++ pool st)).
      apply Permutation_app_head, Permutation_app_comm.
    - intros i _. unfold posted. destruct (Nat.eqb_spec (wepoch (entry st' i)) (epoch st')) as [Q|Q]; [destruct (W' i Q)|reflexivity]. }
  split; [rewrite L9; exact J10|]. unfold scan_ok. rewrite G4, Hm. exact Logic.I.
Qed.

(* Without parallelism no task of the queue ever reaches the pool. *)
Lemma start_loop_pool : forall fuel e i n st st', start_loop false e fuel i n st = Ok st' -> pool st' = pool st /\ exec st' = exec st /\ maxid st' = maxid st.
Proof.
  induction fuel as [|fuel IH]; intros e i n st st' H; cbn [start_loop] in H; [injection H as <-; auto|].
  destruct (wepoch (entry st i) =? e); [|eauto]. cbv zeta in H. destruct (wcount (entry st i) =? 0); [discriminate|].
  rewrite orb_true_r in H. apply IH in H. exact H.
Qed.

Definition inv2 (parallel : bool) (st : sys) : Prop := parallel = false -> flight st = 0.

Definition good (parallel : bool) (st : sys) : Prop := inv st /\ inv2 parallel st.
(* What a step that completes a drain guarantees. *)
Definition drain_ok (st st' : sys) : Prop := drained st' = drained st \/ (stat st = START /\ stat st' = IDLE /\ flight st' = 0 /\ entry st' = entry st /\ epoch st' = epoch st).

Lemma event_inv parallel mw st e : good parallel st ->
  exists st', do_event parallel mw st e = Ok st' /\ good parallel st' /\ drain_ok st st'.
Proof.
  intros [I0 I2]. unfold good, inv2, drain_ok in *. destruct e as [t k| | | |k| |t i|t]; cbn [do_event].
  - destruct (stat st) eqn:Es; [|eexists; split; [reflexivity|]; auto].
    destruct (_ && _) eqn:B; [|eexists; split; [reflexivity|]; auto]. apply andb_true_iff in B. destruct B as [B1 B2]. apply Nat.leb_le in B1.
    eexists. split; [reflexivity|]. split; [|left; reflexivity]. split; [|exact I2]. apply do_inv; auto.
    destruct I0 as (_ & _ & _ & _ & _ & _ & _ & _ & _ & _ & J). unfold scan_ok in J. destruct (main st); auto; destruct J as ((Q & _) & _); congruence.
  - destruct (stat st) eqn:Es; [|eexists; split; [reflexivity|]; auto]. destruct (main_free st) eqn:B; [|eexists; split; [reflexivity|]; auto].
    assert (Hm : main st = MOut) by (unfold main_free in B; destruct (exec st 0), (main st); try discriminate; reflexivity).
    destruct (start_inv parallel st I0 Es Hm) as (st' & E & J & D). exists st'. split; [exact E|]. split; [|now left]. split; [exact J|].
    intros ->. specialize (I2 eq_refl). unfold workq_start in E. apply start_loop_pool in E. destruct E as (E1 & E2 & E3). unfold flight in *. now rewrite E1, E2, E3.
  - destruct (stat st) eqn:Es; [eexists; split; [reflexivity|]; auto|]. destruct (main_free st) eqn:B; [|eexists; split; [reflexivity|]; auto].
    assert (Hm : main st = MOut) by (unfold main_free in B; destruct (exec st 0), (main st); try discriminate; reflexivity).
    destruct parallel.
    + eexists. split; [reflexivity|]. split; [|now left]. split; [|discriminate]. apply set_main_inv; [exact I0|exact Es].
    + eexists. split; [reflexivity|]. specialize (I2 eq_refl). split; [|right; auto 10]. split; [|auto]. rewrite Hm. now apply idle_inv.
  - destruct (exec st 0); try (eexists; split; [reflexivity|]; auto).
    destruct (main_inv st I0) as (st' & E & J & D). exists st'. split; [exact E|].
    assert (K : flight st' = flight st /\ (drained st' = drained st \/ (stat st = START /\ entry st' = entry st /\ epoch st' = epoch st))).
    { unfold main_step in E. destruct I0 as (_ & _ & _ & _ & _ & _ & _ & _ & _ & _ & J11). unfold scan_ok in J11.
      destruct (main st); [injection E as <-; auto|injection E as <-; auto|injection E as <-; auto|].
      cbv zeta in E. destruct (i =? m); [|injection E as <-; auto]. destruct (_ <? _)%Z; [discriminate|]. destruct (_ =? _)%Z; [|injection E as <-; auto].
      injection E as <-. split; [reflexivity|]. right. destruct J11 as ((Q & _) & _). auto. }
    destruct K as [K1 K2]. split; [split; [exact J|intros P; rewrite K1; auto]|].
    destruct K2 as [K2|(K2 & K3 & K4)]; [now left|]. destruct (Nat.eq_dec (drained st') (drained st)) as [Q|Q]; [now left|]. destruct (D Q). right. auto 10.
  - destruct (main_free st); [|eexists; split; [reflexivity|]; auto]. destruct (mw =? 1); (eexists; split; [reflexivity|]); (split; [|now left]); split.
    + now apply async1_inv.
    + exact I2.
    + now apply async_inv.
    + unfold flight in *. cbn [pool exec maxid]. intros P. specialize (I2 P). rewrite works_app. cbn [works is_work filter length]. lia.
  - eexists. split; [reflexivity|]. split; [|now left]. split; [now apply spawn_inv|].
    intros P. specialize (I2 P). unfold flight in *. cbn [pool exec maxid]. cbn [sum] in *. destruct I0 as (_ & _ & _ & J4 & _).
    destruct (J4 (S (maxid st)) ltac:(lia)) as [_ ->]. cbn. lia.
  - destruct (may_take st t) eqn:M; [|eexists; split; [reflexivity|]; auto]. destruct (nth_error (pool st) i) as [x|] eqn:N; [|eexists; split; [reflexivity|]; auto].
    pose proof (take_inv st t i x I0 M N) as J. eexists. split; [reflexivity|]. split; [|now left]. split; [exact J|].
    intros P. specialize (I2 P). unfold flight in *. cbn [pool exec maxid].
    pose proof (remove_nth_perm _ _ _ N) as Pm. apply works_perm in Pm. unfold may_take in M. apply andb_true_iff in M. destruct M as [M _].
    apply andb_true_iff in M. destruct M as [M1 M2]. apply Nat.leb_le in M1.
    destruct (exec_sums st t (XRun x) M1) as (S1 & _). destruct (exec st t); try discriminate. destruct x; cbn [busy] in S1; unfold works at 2 in Pm; cbn [filter is_work length] in Pm.
    + fold (works (remove_nth i (pool st))) in Pm. lia.
    + fold (works (remove_nth i (pool st))) in Pm. lia.
  - eexists. split; [reflexivity|]. split; [|left; unfold exec_step; destruct (exec st t); reflexivity]. split; [now apply exec_inv|].
    intros P. specialize (I2 P). unfold exec_step. destruct (exec st t) eqn:Ex; auto.
    all: assert (Ht : t <= maxid st) by (destruct (le_lt_dec t (maxid st)) as [L|L]; [exact L|]; destruct I0 as (_ & _ & _ & J4 & _); destruct (J4 t L); congruence).
    + destruct (exec_sums st t (if is_work x then XLoad else XDec) Ht) as (S1 & _). rewrite Ex in S1. unfold flight in *. cbn [pool exec maxid]. destruct x; cbn [is_work busy] in *; lia.
    + cbv zeta. unfold set_exec, flight in *. cbn [pool exec maxid]. match goal with |- context[upd _ t ?p] => destruct (exec_sums st t p Ht) as (S1 & _) end. rewrite Ex in S1. cbn [busy] in S1. lia.
    + cbv zeta. unfold flight in *. cbn [pool exec maxid]. destruct (exec_sums st t XNone Ht) as (S1 & _). rewrite Ex in S1. cbn [busy] in S1. lia.
    + unfold flight in *. cbn [pool exec maxid]. destruct (exec_sums st t XNone Ht) as (S1 & _). rewrite Ex in S1. cbn [busy] in S1. lia.
Qed.

Lemma run_good parallel mw : forall es st, good parallel st -> exists st', run parallel mw st es = Ok st' /\ good parallel st'.
Proof.
  induction es as [|e es IH]; intros st G; cbn [run]; [eauto|].
  destruct (event_inv parallel mw st e G) as (st1 & E & G1 & _). rewrite E. cbn [bind]. now apply IH.
Qed.

Lemma init_good parallel : good parallel init.
Proof. split; [apply init_inv|]. intros _. reflexivity. Qed.
