(* Proofs about processes that share a library *)
From Coq Require Import List Arith NArith Bool Lia Sorted Permutation.
From Verif Require Import LibSpec LibModel LibProofs.
Import ListNotations.
Local Open Scope N_scope.

Lemma sorted_snoc : forall (l : list N) x, StronglySorted N.lt (l ++ [x]) -> StronglySorted N.lt l /\ Forall (fun y => y < x) l.
Proof.
  induction l as [|y l IH]; intros x H; [split; constructor|]. cbn in H. inversion H as [|? ? S F]; subst. apply IH in S. destruct S as [S G].
  apply Forall_app in F. destruct F as [F1 F2]. inversion F2; subst. split; constructor; auto.
Qed.
Section World.
Context {K : Type}.
Variable size : index K -> nat.
Lemma times_app : forall a b : list (op K), times (a ++ b) = times a ++ times b.
Proof. induction a as [|[p|p n k|p t] a IH]; intros b; cbn; auto. rewrite IH. reflexivity. Qed.
Lemma clocked_app : forall a b : list (op K), clocked (a ++ b) -> clocked a.
Proof.
  intros a. induction b as [|o b IH] using rev_ind; [rewrite app_nil_r; auto|]. rewrite app_assoc. intros H. apply IH.
  unfold clocked in *. rewrite times_app in H. destruct o as [p|p n k|p t]; cbn in H; try (rewrite app_nil_r in H; exact H).
  rewrite app_comm_cons in H. apply sorted_snoc in H. tauto.
Qed.
Lemma clocked_save : forall (a : list (op K)) p t, clocked (a ++ [Save p t]) -> 0 < t /\ Forall (fun y => y < t) (times a).
Proof.
  intros a p t H. unfold clocked in H. rewrite times_app in H. cbn [times] in H. rewrite app_comm_cons in H. apply sorted_snoc in H.
  destruct H as [_ H]. inversion H; subst. auto.
Qed.
Lemma run_snoc : forall h o, run size (h ++ [o]) = step size (run size h) o.
Proof. intros h o. unfold run. rewrite fold_left_app. reflexivity. Qed.
Lemma upd_same : forall (f : nat -> process K) p x, upd f p x p = x.
Proof. intros f p x. unfold upd. rewrite Nat.eqb_refl. reflexivity. Qed.
Lemma upd_other : forall (f : nat -> process K) p q x, q <> p -> upd f p x q = f q.
Proof. intros f p q x H. unfold upd. destruct (Nat.eqb_spec q p); congruence. Qed.

(* The lists are in order. *)
Lemma all_ordered : forall h, ordered (on_disk (run size h)) /\ forall p, ordered (list_of (procs (run size h) p)).
Proof.
  induction h as [|o h IH] using rev_ind; [split; intros; constructor|]. rewrite run_snoc. destruct IH as [D P].
  set (w := run size h) in *. destruct o as [p|p n k|p t]; cbn [step].
  - unfold on_disk in *. destruct (disk w) as [[i st]|] eqn:E; cbn [disk procs]; (split; [rewrite ?E; auto; try constructor|]); intros q;
      (destruct (Nat.eq_dec q p) as [->|Q]; [rewrite upd_same|rewrite upd_other by auto; auto]); cbn [list_of]; try constructor.
    apply merge_ordered; auto. constructor.
  - cbn [disk procs]. split; [exact D|]. intros q.
    destruct (Nat.eq_dec q p) as [->|Q]; [rewrite upd_same|rewrite upd_other by auto; auto]. cbn [list_of]. apply add_ordered; auto.
  - cbv zeta. cbn [disk procs].
    set (l := match disk w with None => _ | Some (i, st) => _ end).
    assert (L : ordered l).
    { unfold l, on_disk in *. destruct (disk w) as [[i st]|]; auto. destruct (stamp_eqb st _); auto. apply merge_ordered; auto. }
    split; [exact L|]. intros q. destruct (Nat.eq_dec q p) as [->|Q]; [rewrite upd_same|rewrite upd_other by auto; auto]. exact L.
Qed.

Definition synced (h : list (op K)) (w : world K) : Prop :=
  (forall p, fst (seen (procs w p)) = 0 \/ In (fst (seen (procs w p))) (times h)) /\
  match disk w with
  | None => True
  | Some (i, st) => 0 < fst st /\ In (fst st) (times h) /\ forall p, seen (procs w p) = st -> forall n, has n i -> has n (list_of (procs w p))
  end.
Lemma all_synced : forall h, clocked h -> synced h (run size h).
Proof.
  induction h as [|o h IH] using rev_ind; intros C; [split; [left; reflexivity|exact I]|]. rewrite run_snoc.
  specialize (IH (clocked_app _ _ C)). set (w := run size h) in *. destruct IH as [A B].
  assert (T : forall x, In x (times h) -> In x (times (h ++ [o]))) by (intros x X; rewrite times_app; apply in_or_app; auto).
  destruct o as [p|p n k|p t]; cbn [step].
  - destruct (disk w) as [[i st]|] eqn:E.
    + destruct B as (B1 & B2 & B3). split; cbn [disk procs].
      * intros q. destruct (Nat.eq_dec q p) as [->|Q]; [rewrite upd_same; cbn [seen]; auto|rewrite upd_other by auto]. destruct (A q); auto.
      * repeat split; auto. intros q. destruct (Nat.eq_dec q p) as [->|Q]; [rewrite upd_same|rewrite upd_other by auto; auto].
        intros _ m M. cbn [list_of]. apply merge_has. auto.
    + split; cbn [disk procs]; [|exact I]. intros q.
      destruct (Nat.eq_dec q p) as [->|Q]; [rewrite upd_same; cbn [seen]; auto|rewrite upd_other by auto]. destruct (A q); auto.
  - split; cbn [disk procs].
    + intros q. destruct (Nat.eq_dec q p) as [->|Q]; [rewrite upd_same; cbn [seen]|rewrite upd_other by auto]; [destruct (A p); auto|destruct (A q); auto].
    + destruct (disk w) as [[i st]|]; auto. destruct B as (B1 & B2 & B3). repeat split; auto. intros q.
      destruct (Nat.eq_dec q p) as [->|Q]; [rewrite upd_same|rewrite upd_other by auto; auto]. cbn [seen list_of]. intros S m M. apply add_has. auto.
  - cbv zeta. set (l := match disk w with None => _ | Some (i, st) => _ end). destruct (clocked_save _ _ _ C) as [C1 C2].
    assert (X : In t (times (h ++ [Save p t]))) by (rewrite times_app; apply in_or_app; right; left; reflexivity).
    split; cbn [disk procs].
    + intros q. destruct (Nat.eq_dec q p) as [->|Q]; [rewrite upd_same; cbn [seen fst]; auto|rewrite upd_other by auto]. destruct (A q); auto.
    + cbn [fst]. repeat split; auto. intros q. destruct (Nat.eq_dec q p) as [->|Q]; [rewrite upd_same; auto|rewrite upd_other by auto].
      intros S. exfalso. specialize (A q). rewrite S in A. cbn [fst] in A. destruct A as [A|A]; [lia|].
      rewrite Forall_forall in C2. specialize (C2 _ A). cbn in C2. lia.
Qed.
Lemma stamp_true : forall a b, stamp_eqb a b = true -> b = a.
Proof. intros [a b] [c d] H. unfold stamp_eqb in H. apply andb_prop in H. destruct H as [H1 H2]. apply N.eqb_eq in H1. apply Nat.eqb_eq in H2. cbn in *. subst. reflexivity. Qed.
Lemma disk_step : forall h o n, clocked h -> has n (on_disk (run size h)) -> has n (on_disk (run size (h ++ [o]))).
Proof.
  intros h o n C H. rewrite run_snoc. pose proof (all_synced h C) as [_ B]. set (w := run size h) in *. unfold on_disk in H |- *.
  destruct (disk w) as [[i st]|] eqn:E; [|destruct H]. destruct o as [p|p m k|p t]; cbn [step]; rewrite ?E; cbn [disk]; rewrite ?E; try exact H.
  destruct (stamp_eqb st (seen (procs w p))) eqn:S; [|apply merge_has; auto]. apply stamp_true in S. destruct B as (_ & _ & B). apply (B p); auto.
Qed.
Lemma disk_grows : forall b a n, clocked (a ++ b) -> has n (on_disk (run size a)) -> has n (on_disk (run size (a ++ b))).
Proof.
  induction b as [|o b IH] using rev_ind; intros a n C H; [rewrite app_nil_r; auto|]. rewrite app_assoc in *.
  apply disk_step; [eapply clocked_app; eauto|]. apply IH; auto. eapply clocked_app; eauto.
Qed.
Lemma list_step : forall w o p n, o <> Open p -> has n (list_of (procs w p)) -> has n (list_of (procs (step size w o) p)).
Proof.
  intros w o p n N H. destruct o as [q|q m k|q t]; cbn [step].
  - destruct (disk w) as [[i st]|]; cbn [procs]; rewrite upd_other by congruence; auto.
  - cbn [procs]. destruct (Nat.eq_dec p q) as [->|Q]; [rewrite upd_same|rewrite upd_other by auto; auto]. cbn [list_of]. apply add_has. auto.
  - cbv zeta. cbn [procs]. destruct (Nat.eq_dec p q) as [->|Q]; [rewrite upd_same|rewrite upd_other by auto; auto]. cbn [list_of].
    destruct (disk w) as [[i st]|]; auto. destruct (stamp_eqb _ _); auto. apply merge_has. auto.
Qed.
Lemma list_keeps : forall h w p n, ~ In (Open p) h -> has n (list_of (procs w p)) -> has n (list_of (procs (fold_left (step size) h w) p)).
Proof.
  induction h as [|o h IH]; intros w p n N H; auto. cbn [fold_left]. apply IH; [intros X; apply N; right; auto|].
  apply list_step; auto. intros ->. apply N. left; auto.
Qed.
Lemma no_loss : forall h n, clocked h -> saved h n -> has n (on_disk (run size h)).
Proof.
  intros h n C (h1 & h2 & h3 & p & k & t & -> & N).
  replace (h1 ++ Put p n k :: h2 ++ Save p t :: h3) with (((h1 ++ Put p n k :: h2) ++ [Save p t]) ++ h3) in *
    by (rewrite <- !app_assoc; reflexivity).
  apply disk_grows; auto. rewrite run_snoc.
  assert (H : has n (list_of (procs (run size (h1 ++ Put p n k :: h2)) p))).
  { unfold run. rewrite fold_left_app. cbn [fold_left]. apply list_keeps; auto. cbn [step procs]. rewrite upd_same. cbn [list_of]. apply add_has. auto. }
  set (w := run size (h1 ++ Put p n k :: h2)) in *. cbn [step]. cbv zeta. unfold on_disk. cbn [disk].
  destruct (disk w) as [[i st]|]; auto. destruct (stamp_eqb _ _); auto. apply merge_has. auto.
Qed.

Definition held (h : list (op K)) (p : nat) (n : text) : Prop := exists h1 h2 k, h = h1 ++ Put p n k :: h2 /\ ~ In (Open p) h2.
Lemma held_more : forall h p n o, held h p n -> o <> Open p -> held (h ++ [o]) p n.
Proof.
  intros h p n o (h1 & h2 & k & -> & N) O. exists h1, (h2 ++ [o]), k. split; [rewrite <- app_assoc; reflexivity|].
  intros X. apply in_app_or in X. destruct X as [X|[X|[]]]; auto.
Qed.
Lemma saved_more : forall (h : list (op K)) n o, saved h n -> saved (h ++ [o]) n.
Proof.
  intros h n o (h1 & h2 & h3 & p & k & t & -> & N). exists h1, h2, (h3 ++ [o]), p, k, t. split; auto.
  rewrite <- !app_assoc. cbn [app]. rewrite <- !app_assoc. reflexivity.
Qed.
Lemma held_saved : forall h p n t, held h p n -> saved (h ++ [Save p t]) n.
Proof.
  intros h p n t (h1 & h2 & k & -> & N). exists h1, h2, [], p, k, t. split; auto. rewrite <- !app_assoc. reflexivity.
Qed.
Lemma only_saved : forall h, (forall n, has n (on_disk (run size h)) -> saved h n) /\
  forall p n, has n (list_of (procs (run size h) p)) -> held h p n \/ saved h n.
Proof.
  induction h as [|o h IH] using rev_ind; [split; intros; contradiction|]. rewrite run_snoc. destruct IH as [D P].
  set (w := run size h) in *. unfold on_disk in D |- *. destruct o as [p|p m k|p t]; cbn [step].
  - destruct (disk w) as [[i st]|] eqn:E; cbn [disk procs]; rewrite ?E; (split; [intros n H; apply saved_more; auto; try contradiction|]); intros q n;
      (destruct (Nat.eq_dec q p) as [->|Q]; [rewrite upd_same|rewrite upd_other by auto]); cbn [list_of]; intros H;
      try (destruct (P q n H); [left; apply held_more; auto; congruence|right; apply saved_more; auto]; fail).
    + apply merge_has in H. destruct H as [H|[]]. right. apply saved_more. auto.
    + destruct H.
  - cbn [disk procs]. split; [intros n H; apply saved_more; auto|]. intros q n.
    destruct (Nat.eq_dec q p) as [->|Q]; [rewrite upd_same|rewrite upd_other by auto]; cbn [list_of]; intros H.
    + apply add_has in H. destruct H as [->|H]; [left; exists h, [], k; split; auto|].
      destruct (P p n H); [left; apply held_more; auto; congruence|right; apply saved_more; auto].
    + destruct (P q n H); [left; apply held_more; auto; congruence|right; apply saved_more; auto].
  - cbv zeta. cbn [disk procs]. set (l := match disk w with None => _ | Some (i, st) => _ end).
    assert (L : forall n, has n l -> saved (h ++ [Save p t]) n).
    { intros n H. assert (G : has n (match disk w with Some (i, _) => i | None => [] end) \/ has n (list_of (procs w p))).
      { unfold l in H. destruct (disk w) as [[i st]|]; auto. destruct (stamp_eqb _ _); auto. apply merge_has in H. auto. }
      destruct G as [G|G]; [apply saved_more; auto|]. destruct (P p n G); [apply held_saved; auto|apply saved_more; auto]. }
    split; auto. intros q n. destruct (Nat.eq_dec q p) as [->|Q]; [rewrite upd_same|rewrite upd_other by auto]; cbn [list_of]; intros H; auto.
    destruct (P q n H); [left; apply held_more; auto; congruence|right; apply saved_more; auto].
Qed.

(* One process *)
Definition puts (p : nat) (l : index K) : list (op K) := map (fun x => Put p (fst x) (snd x)) l.
Definition adds (l : index K) (i : index K) : index K := fold_left (fun i x => add (fst x) (snd x) i) l i.
Lemma run_puts : forall p l w, disk (fold_left (step size) (puts p l) w) = disk w /\
  seen (procs (fold_left (step size) (puts p l) w) p) = seen (procs w p) /\
  list_of (procs (fold_left (step size) (puts p l) w) p) = adds l (list_of (procs w p)).
Proof.
  intros p. induction l as [|[n k] l IH]; intros w; auto. cbn [puts map fold_left fst snd].
  destruct (IH (step size w (Put p n k))) as (A & B & C). unfold puts in *. rewrite A, B, C. cbn [step disk procs]. rewrite upd_same. auto.
Qed.
Lemma adds_ordered : forall l i, ordered i -> ordered (adds l i).
Proof. induction l as [|[n k] l IH]; intros i H; auto. cbn. apply IH. apply add_ordered; auto. Qed.
Lemma adds_find : forall l i n, ordered i -> ~ In n (map fst l) -> find n (adds l i) = find n i.
Proof.
  induction l as [|[m k] l IH]; intros i n O N; auto. cbn [adds fold_left fst snd]. unfold adds in IH. rewrite IH; [|apply add_ordered; auto|intros X; apply N; right; auto].
  rewrite add_find by auto. destruct (text_eqb m n) eqn:E; auto. apply text_eqb_eq in E. subst. exfalso. apply N. left; auto.
Qed.
Lemma adds_in : forall l i n k, ordered i -> NoDup (map fst l) -> In (n, k) l -> find n (adds l i) = Some k.
Proof.
  induction l as [|[m x] l IH]; intros i n k O D H; [destruct H|]. cbn [map fst] in D. inversion D; subst. destruct H as [H|H].
  - injection H as -> ->. change (adds ((n, k) :: l) i) with (adds l (add n k i)). rewrite adds_find; auto; [|apply add_ordered; auto].
    rewrite add_find, eqb_refl by auto. reflexivity.
  - change (adds ((m, x) :: l) i) with (adds l (add m x i)). apply IH; auto. apply add_ordered; auto.
Qed.
Lemma adds_perm : forall a b, NoDup (map fst a) -> Permutation a b -> adds a [] = adds b [].
Proof.
  intros a b D P. assert (E : ordered (@nil (text * K))) by constructor. apply ordered_unique; try apply adds_ordered; auto. intros n.
  assert (Db : NoDup (map fst b)) by (eapply Permutation_NoDup; [apply Permutation_map; exact P|auto]).
  destruct (in_dec (list_eq_dec N.eq_dec) n (map fst a)) as [I|I].
  - apply in_map_iff in I. destruct I as ([m k] & <- & I). cbn [fst]. rewrite (adds_in a [] m k), (adds_in b [] m k); auto.
    eapply Permutation_in; eauto.
  - rewrite !adds_find; auto. intros X. apply I. eapply Permutation_in; [apply Permutation_map; apply Permutation_sym; exact P|auto].
Qed.
End World.
