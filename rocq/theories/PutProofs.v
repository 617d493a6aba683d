(* Proofs about the update of signal values *)
From Coq Require Import List Arith NArith Bool Lia.
From Verif Require Import PutSpec PutModel.
Import ListNotations.

Lemma load_length : forall m a n, length (load m a n) = n.
Proof. intros. unfold load. rewrite map_length, seq_length. reflexivity. Qed.
Lemma load_nth : forall m a n i, i < n -> nth i (load m a n) 0%N = m (a + i).
Proof.
  intros m a n i H. unfold load. rewrite (nth_indep _ 0%N (m 0)) by (rewrite map_length, seq_length; auto).
  rewrite map_nth, seq_nth by auto. reflexivity.
Qed.
Lemma store_in : forall m a l i, i < length l -> store m a l (a + i) = nth i l 0%N.
Proof.
  intros m a l i H. unfold store. destruct (Nat.leb_spec a (a + i)); [|lia]. destruct (Nat.ltb_spec (a + i) (a + length l)); [|lia].
  cbn [andb]. f_equal. lia.
Qed.
Lemma store_out : forall m a l x, ~ inside a (length l) x -> store m a l x = m x.
Proof.
  intros m a l x H. unfold store, inside in *. destruct (Nat.leb_spec a x); auto. destruct (Nat.ltb_spec x (a + length l)); auto. lia.
Qed.
Lemma round_is : forall k early m p1 p2 src, disjoint p1 p2 k -> disjoint p1 src k -> shifted m p1 p2 src k (round k early m p1 p2 src).
Proof.
  intros k early m p1 p2 src D1 D2.
  assert (G : forall l, length l = k -> (forall i, i < k -> nth i l 0%N = m (src + i)) ->
    shifted m p1 p2 src k (store (store m p1 (load m p2 k)) p2 l)).
  { intros l L V. split; [|split].
    - intros i I. rewrite store_out by (rewrite L; intros X; apply (D1 (p1 + i)); unfold inside in *; lia).
      rewrite store_in by (rewrite load_length; auto). apply load_nth; auto.
    - intros i I. rewrite store_in by (rewrite L; auto). apply V; auto.
    - intros x X Y. rewrite !store_out; auto; [rewrite load_length; auto|rewrite L; auto]. }
  destruct early; cbn [round]; apply G; try apply load_length; intros i I; rewrite load_nth by auto; auto.
  apply store_out. rewrite load_length. intros X. apply (D2 (src + i)); unfold inside in *; lia.
Qed.
Lemma rounds_is : forall fuel k early m0 m p1 p2 src n d len, 1 <= k -> d + len = n -> disjoint p1 p2 n -> disjoint p1 src n -> disjoint p2 src n ->
  shifted m0 p1 p2 src d m ->
  exists d' len' m', rounds fuel k early m (p1 + d) (p2 + d) (src + d) len = (m', p1 + d', p2 + d', src + d', len') /\
    d' + len' = n /\ shifted m0 p1 p2 src d' m' /\ (len <= fuel -> len' < k).
Proof.
  induction fuel as [|fuel IH]; intros k early m0 m p1 p2 src n d len K N D1 D2 D3 S; cbn [rounds].
  - exists d, len, m. repeat split; try apply S; auto. lia.
  - destruct (Nat.ltb_spec (k - 1) len) as [L|L]; [|exists d, len, m; repeat split; try apply S; auto; lia].
    assert (E1 : disjoint (p1 + d) (p2 + d) k).
    { intros x X Y. unfold inside in *. apply (D1 x); unfold inside; [|].
      - (* both blocks within the regions *) lia.
      - lia. }
    assert (E2 : disjoint (p1 + d) (src + d) k) by (intros x X Y; unfold inside in *; apply (D2 x); unfold inside; lia).
    pose proof (round_is k early m (p1 + d) (p2 + d) (src + d) E1 E2) as (R1 & R2 & R3). destruct S as (S1 & S2 & S3).
    destruct (IH k early m0 (round k early m (p1 + d) (p2 + d) (src + d)) p1 p2 src n (d + k) (len - k)) as (d' & len' & m' & E & A & B & C);
      auto; try lia.
    { split; [|split].
      - intros i I. destruct (Nat.lt_ge_cases i d) as [J|J].
        + rewrite R3; [apply S1; auto| |]; intros X; unfold inside in X; [lia|]. apply (D1 (p1 + i)); unfold inside; lia.
        + replace (p1 + i) with (p1 + d + (i - d)) by lia. rewrite R1 by lia. replace (p2 + d + (i - d)) with (p2 + i) by lia.
          apply S3; intros X; unfold inside in X; [apply (D1 (p2 + i)); unfold inside; lia|lia].
      - intros i I. destruct (Nat.lt_ge_cases i d) as [J|J].
        + rewrite R3; [apply S2; auto| |]; intros X; unfold inside in X; [|lia]. apply (D1 (p2 + i)); unfold inside; lia.
        + replace (p2 + i) with (p2 + d + (i - d)) by lia. rewrite R2 by lia. replace (src + d + (i - d)) with (src + i) by lia.
          apply S3; intros X; unfold inside in X; [apply (D2 (src + i)); unfold inside; lia|apply (D3 (src + i)); unfold inside; lia].
      - intros x X Y. unfold inside in X, Y. rewrite R3; [apply S3| |]; unfold inside; lia. }
    exists d', len', m'. rewrite !Nat.add_assoc in E. split; [exact E|]. repeat split; try apply B; auto. intros F. apply C. lia.
Qed.
Lemma shifted_none : forall m p1 p2 src, shifted m p1 p2 src 0 m.
Proof. intros. repeat split; intros; try lia; auto. Qed.
Lemma copy2_is : forall x86 m p1 p2 src len, disjoint p1 p2 len -> disjoint p1 src len -> disjoint p2 src len ->
  shifted m p1 p2 src len (copy2 x86 m p1 p2 src len).
Proof.
  intros x86 m p1 p2 src len D1 D2 D3. unfold copy2. destruct (Nat.eqb_spec len 1) as [->|_]; [apply round_is; auto|]. unfold copy2_loops.
  assert (S0 : exists d0 len0 m0, (if x86 then rounds len 16 true m p1 p2 src len else (m, p1, p2, src, len)) = (m0, p1 + d0, p2 + d0, src + d0, len0) /\
    d0 + len0 = len /\ shifted m p1 p2 src d0 m0).
  { destruct x86.
    - destruct (rounds_is len 16 true m m p1 p2 src len 0 len) as (d & l & m' & E & A & B & _); auto; try lia; [apply shifted_none|].
      rewrite !Nat.add_0_r in E. eauto 8.
    - exists 0, len, m. rewrite !Nat.add_0_r. repeat split; auto; intros; lia. }
  destruct S0 as (d0 & l0 & m0 & E0 & A0 & B0). rewrite E0.
  destruct (rounds_is l0 8 false m m0 p1 p2 src len d0 l0) as (d1 & l1 & m1 & E1 & A1 & B1 & _); auto; try lia. rewrite E1.
  destruct (rounds_is l1 4 false m m1 p1 p2 src len d1 l1) as (d2 & l2 & m2 & E2 & A2 & B2 & _); auto; try lia. rewrite E2.
  destruct (rounds_is l2 1 false m m2 p1 p2 src len d2 l2) as (d3 & l3 & m3 & E3 & A3 & B3 & C3); auto; try lia. rewrite E3.
  assert (l3 = 0) by lia. replace len with d3 by lia. exact B3.
Qed.

Lemma zeros_is : forall m a b mask, all_zeros m a b mask = true <-> forall i, i < 16 -> mask i = true -> m (a + i) = m (b + i).
Proof.
  intros m a b mask. unfold all_zeros. rewrite forallb_forall. split.
  - intros H i I M. specialize (H i). rewrite M in H. cbn [negb orb] in H. apply N.lxor_eq. apply N.eqb_eq. apply H. apply in_seq. lia.
  - intros H i I. apply in_seq in I. destruct (mask i) eqn:M; cbn [negb orb]; auto. rewrite H by (auto; lia). rewrite N.lxor_nilpotent. reflexivity.
Qed.
Lemma cmp_loop_is : forall fuel m a b pos size, size < pos + fuel -> (cmp_loop fuel m a b pos size = true <-> forall i, pos <= i < size -> m (a + i) = m (b + i)).
Proof.
  induction fuel as [|fuel IH]; intros m a b pos size F; [cbn; split; auto; intros; lia|]. cbn [cmp_loop].
  destruct (Nat.ltb_spec (pos + 15) size) as [L|L].
  - destruct (all_zeros m (a + pos) (b + pos) (fun _ => true)) eqn:Z.
    + rewrite zeros_is in Z. rewrite IH by lia. split; intros H i I; [|apply H; lia]. destruct (Nat.lt_ge_cases i (pos + 16)); [|apply H; lia].
      specialize (Z (i - pos)). replace (a + pos + (i - pos)) with (a + i) in Z by lia. replace (b + pos + (i - pos)) with (b + i) in Z by lia. apply Z; auto. lia.
    + split; [discriminate|]. intros H. rewrite <- Z. apply zeros_is. intros i I _. rewrite <- !Nat.add_assoc. apply H. lia.
  - destruct (Nat.ltb_spec pos size) as [M|M]; [|split; auto; intros; lia]. rewrite zeros_is. split; intros H i I.
    + specialize (H (i - pos)). replace (a + pos + (i - pos)) with (a + i) in H by lia. replace (b + pos + (i - pos)) with (b + i) in H by lia.
      apply H; [lia|]. apply Nat.ltb_lt. lia.
    + intros X. apply Nat.ltb_lt in X. rewrite <- !Nat.add_assoc. apply H. lia.
Qed.
Lemma cmp_bytes_is : forall sse41 m a b size, cmp_bytes sse41 m a b size = true <-> equal_at m a b size.
Proof.
  intros sse41 m a b size. unfold cmp_bytes, equal_at. destruct (Nat.eqb_spec size 1) as [->|_].
  - rewrite N.eqb_eq. split; [intros H i I; assert (i = 0) by lia; subst; rewrite !Nat.add_0_r; auto|].
    intros H. specialize (H 0). rewrite !Nat.add_0_r in H. apply H. lia.
  - destruct sse41.
    + rewrite cmp_loop_is by lia. split; intros H i I; apply H; lia.
    + rewrite forallb_forall. split; intros H i I; [apply N.eqb_eq; apply H; apply in_seq; lia|]. apply N.eqb_eq. apply H. apply in_seq in I. lia.
Qed.
Lemma qword_is : forall a b, qword_eqb a b = true <-> a = b.
Proof.
  induction a as [|x a IH]; intros [|y b]; cbn; split; intros H; try discriminate; auto.
  - apply andb_prop in H. destruct H as [H1 H2]. apply N.eqb_eq in H1. apply IH in H2. subst; auto.
  - injection H as -> ->. rewrite N.eqb_refl. apply IH. reflexivity.
Qed.
