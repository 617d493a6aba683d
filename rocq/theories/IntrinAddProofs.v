(* The packed addition computes the binary sum. *)
From Coq Require Import List ZArith NArith Arith Bool Lia.
From Verif Require Import Base IntrinModel.
Import ListNotations.

(* The number in the lowest bits of [n] elements, the first the most significant. *)
Fixpoint lv (m : nat -> N) (p n : nat) : N :=
  match n with O => 0%N | S k => (2 * lv m p k + m (p + k)%nat mod 2)%N end.

Lemma lv_ext : forall n (m m' : nat -> N) p q, (forall i, i < n -> N.modulo (m (p + i)) 2 = N.modulo (m' (q + i)) 2) -> lv m p n = lv m' q n.
Proof.
  induction n as [|n IH]; intros m m' p q E; [reflexivity|]. cbn [lv].
  rewrite (IH m m' p q) by (intros; apply E; lia). rewrite (E n) by lia. reflexivity.
Qed.
Lemma lv_app : forall b m p a, lv m p (a + b) = (lv m p a * 2 ^ N.of_nat b + lv m (p + a)%nat b)%N.
Proof.
  induction b as [|b IH]; intros m p a.
  - rewrite Nat.add_0_r. cbn [lv]. rewrite N.mul_1_r, N.add_0_r. reflexivity.
  - rewrite Nat.add_succ_r. cbn [lv]. rewrite IH, Nat2N.inj_succ, N.pow_succ_r', Nat.add_assoc. lia.
Qed.
Lemma lv_lt : forall n m p, (lv m p n < 2 ^ N.of_nat n)%N.
Proof.
  induction n as [|n IH]; intros m p; [cbn; lia|]. cbn [lv]. rewrite Nat2N.inj_succ, N.pow_succ_r'.
  specialize (IH m p). pose proof (N.mod_lt (m (p + n)) 2%N ltac:(lia)). lia.
Qed.

(* ---- bits of sums ---- *)
Lemma bits_below : forall a r t j, (j < t)%N -> N.testbit (a * 2 ^ t + r) j = N.testbit r j.
Proof.
  intros a r t j H. rewrite <- (N.mod_pow2_bits_low (a * 2 ^ t + r) t j H), <- (N.mod_pow2_bits_low r t j H).
  f_equal. rewrite N.add_comm. apply N.mod_add. apply N.pow_nonzero. lia.
Qed.
Lemma bits_above : forall a r t j, (r < 2 ^ t)%N -> (t <= j)%N -> N.testbit (a * 2 ^ t + r) j = N.testbit a (j - t).
Proof.
  intros a r t j L H. replace j with (j - t + t)%N at 1 by lia. rewrite <- N.div_pow2_bits.
  f_equal. rewrite N.div_add_l by (apply N.pow_nonzero; lia). rewrite N.div_small by exact L. lia.
Qed.

(* ---- packing ---- *)
Lemma land_step : forall b r c k, (b < 256)%N -> (c < 256)%N ->
  N.land (b + 256 * r) (c + 256 * k) = (N.land b c + 256 * N.land r k)%N.
Proof.
  intros b r c k Hb Hc. apply N.bits_inj. intros i.
  replace (b + 256 * r)%N with (r * 2 ^ 8 + b)%N by (change (2 ^ 8)%N with 256%N; lia).
  replace (c + 256 * k)%N with (k * 2 ^ 8 + c)%N by (change (2 ^ 8)%N with 256%N; lia).
  replace (N.land b c + 256 * N.land r k)%N with (N.land r k * 2 ^ 8 + N.land b c)%N by (change (2 ^ 8)%N with 256%N; lia).
  assert (L : (N.land b c < 2 ^ 8)%N).
  { assert (E : N.land b c = (N.land b c mod 2 ^ 8)%N).
    { rewrite <- N.land_ones, <- N.land_assoc, (N.land_ones c 8), (N.mod_small c) by exact Hc. reflexivity. }
    rewrite E. apply N.mod_lt. discriminate. }
  rewrite N.land_spec. destruct (N.lt_ge_cases i 8) as [C|C].
  - rewrite !bits_below by exact C. rewrite N.land_spec. reflexivity.
  - rewrite !bits_above by assumption. rewrite N.land_spec. reflexivity.
Qed.
Lemma land_1 : forall b, N.land b 1 = (b mod 2)%N.
Proof. intros b. change 1%N with (N.ones 1). rewrite N.land_ones. reflexivity. Qed.

Definition bytes (m : nat -> N) (p n : nat) : Prop := forall i, i < n -> N.lt (m (p + i)) 256.

Lemma mod2_cases : forall b, (b mod 2 = 0 \/ b mod 2 = 1)%N.
Proof. intros b. pose proof (N.mod_lt b 2 ltac:(discriminate)) as H. generalize dependent (b mod 2)%N. intros n H. lia. Qed.

Lemma pack_ok : forall m p, bytes m p 8 -> pack_low_bits m p = lv m p 8.
Proof.
  intros m p B. unfold pack_low_bits, load64. cbn [load_le lv].
  replace 0x0101010101010101%N with (1 + 256 * (1 + 256 * (1 + 256 * (1 + 256 * (1 + 256 * (1 + 256 * (1 + 256 * (1 + 256 * 0))))))))%N by reflexivity.
  pose proof (B 0 ltac:(lia)) as B0. pose proof (B 1 ltac:(lia)) as B1. pose proof (B 2 ltac:(lia)) as B2.
  pose proof (B 3 ltac:(lia)) as B3. pose proof (B 4 ltac:(lia)) as B4. pose proof (B 5 ltac:(lia)) as B5.
  pose proof (B 6 ltac:(lia)) as B6. pose proof (B 7 ltac:(lia)) as B7.
  replace (S (S (S (S (S (S (S p))))))) with (p + 7) by lia. replace (S (S (S (S (S (S p)))))) with (p + 6) by lia.
  replace (S (S (S (S (S p))))) with (p + 5) by lia. replace (S (S (S (S p)))) with (p + 4) by lia.
  replace (S (S (S p))) with (p + 3) by lia. replace (S (S p)) with (p + 2) by lia. replace (S p) with (p + 1) by lia.
  rewrite Nat.add_0_r in *.
  rewrite !land_step by (assumption || reflexivity). rewrite !land_1.
  destruct (mod2_cases (m p)) as [E|E]; rewrite E; clear E;
  destruct (mod2_cases (m (p + 1)%nat)) as [E|E]; rewrite E; clear E;
  destruct (mod2_cases (m (p + 2)%nat)) as [E|E]; rewrite E; clear E;
  destruct (mod2_cases (m (p + 3)%nat)) as [E|E]; rewrite E; clear E;
  destruct (mod2_cases (m (p + 4)%nat)) as [E|E]; rewrite E; clear E;
  destruct (mod2_cases (m (p + 5)%nat)) as [E|E]; rewrite E; clear E;
  destruct (mod2_cases (m (p + 6)%nat)) as [E|E]; rewrite E; clear E;
  destruct (mod2_cases (m (p + 7)%nat)) as [E|E]; rewrite E; clear E; vm_compute; reflexivity.
Qed.

Definition b01 (h : bool) : N := if h then 3%N else 2%N.

Lemma spread_check : forallb (fun v => forallb (fun j =>
    (N.shiftr (spread (N.of_nat v)) (8 * N.of_nat j) mod 256 =? b01 (N.testbit (N.of_nat v) (7 - N.of_nat j)))%N)
    (seq 0 8)) (seq 0 256) = true.
Proof. vm_compute. reflexivity. Qed.
Lemma spread_ok : forall v j, j < 8 ->
  (N.shiftr (spread v) (8 * N.of_nat j) mod 256 = b01 (N.testbit v (7 - N.of_nat j)))%N.
Proof.
  intros v j H.
  assert (E : spread v = spread (v mod 256)) by (unfold spread; rewrite N.mod_mod by discriminate; reflexivity).
  assert (T : N.testbit v (7 - N.of_nat j) = N.testbit (v mod 256) (7 - N.of_nat j)).
  { change 256%N with (2 ^ 8)%N. rewrite N.mod_pow2_bits_low by lia. reflexivity. }
  rewrite E, T. pose proof (N.mod_lt v 256 ltac:(discriminate)) as L.
  generalize dependent (v mod 256)%N. intros w E T L. clear E T v. rename w into v.
  pose proof spread_check as K. rewrite forallb_forall in K.
  specialize (K (N.to_nat v)). rewrite N2Nat.id in K. specialize (K ltac:(apply in_seq; lia)). rewrite forallb_forall in K.
  specialize (K j ltac:(apply in_seq; lia)). apply N.eqb_eq in K. exact K.
Qed.

Lemma within_iff : forall a p n, within a p n = true <-> p <= a < p + n.
Proof. intros. unfold within. rewrite andb_true_iff, Nat.leb_le, Nat.ltb_lt. lia. Qed.
Lemma within_not : forall a p n, within a p n = false <-> ~ (p <= a < p + n).
Proof. intros. rewrite <- within_iff. destruct (within a p n); split; congruence. Qed.

Lemma spread_at : forall m p v j, j < 8 -> spread_bits m p v (p + j) = b01 (N.testbit v (7 - N.of_nat j)).
Proof.
  intros m p v j H. unfold spread_bits, store64.
  destruct (within (p + j) p 8) eqn:W; [|apply within_not in W; lia].
  replace (p + j - p) with j by lia. apply spread_ok. exact H.
Qed.
Lemma spread_off : forall m p v a, ~ (p <= a < p + 8) -> spread_bits m p v a = m a.
Proof.
  intros m p v a H. unfold spread_bits, store64. apply within_not in H. rewrite H. reflexivity.
Qed.

(* ---- addition ---- *)

(* [a] and [b] start [n] elements and are the same place or do not overlap. *)
Definition apart (a b n : nat) : Prop := a + n <= b \/ b + n <= a.
Definition same_or_apart (a b n : nat) : Prop := a = b \/ apart a b n.

Definition outside (m m' : nat -> N) (p n : nat) : Prop := forall a, ~ (p <= a < p + n) -> m' a = m a.

Definition total (m : nat -> N) (l r size t : nat) (c : N) : N := (lv m (l + t)%nat (size - t)%nat + lv m (r + t)%nat (size - t)%nat + c)%N.

Record sum_inv (m0 : nat -> N) (l r size : nat) (c : N) (res t : nat) (carry : N) (m : nat -> N) : Prop := {
  si_t : t <= size;
  si_carry : exists rem, (rem < 2 ^ N.of_nat (size - t))%N /\ total m0 l r size t c = (carry * 2 ^ N.of_nat (size - t) + rem)%N;
  si_c : (carry <= 1)%N;
  si_out : outside m0 m (res + t) (size - t);
  si_in : forall i, t <= i < size -> m (res + i) = b01 (N.testbit (total m0 l r size t c) (N.of_nat (size - 1 - i)))
}.

Lemma sum_inv_init : forall m l r size c res, (c <= 1)%N -> sum_inv m l r size c res size c m.
Proof.
  intros m l r size c res H. split.
  - lia.
  - exists 0%N. unfold total. rewrite Nat.sub_diag. cbn. split; [reflexivity|lia].
  - exact H.
  - intros a _. reflexivity.
  - intros i Hi. lia.
Qed.

Lemma read_old : forall m0 m p res t size k, outside m0 m (res + t) (size - t) -> same_or_apart p res size ->
  t <= size -> k <= t -> forall i, i < k -> m (p + (t - k) + i) = m0 (p + (t - k) + i).
Proof. intros m0 m p res t size k O SA Ht Hk i Hi. apply O. destruct SA as [->|[A|A]]; lia. Qed.

Lemma sum_step : forall m0 l r size c res t carry m k m' sum,
  sum_inv m0 l r size c res t carry m -> k <= t ->
  sum = (lv m0 (l + (t - k))%nat k + lv m0 (r + (t - k))%nat k + carry)%N ->
  outside m m' (res + (t - k)) k ->
  (forall j, j < k -> m' (res + (t - k) + j) = b01 (N.testbit sum (N.of_nat (k - 1 - j)))) ->
  sum_inv m0 l r size c res (t - k) (if N.testbit sum (N.of_nat k) then 1 else 0)%N m'.
Proof.
  intros m0 l r size c res t carry m k m' sum [Ht (rem & Lr & Er) Hc O I] Hk Es O' I'.
  set (T := N.of_nat (size - t)) in *.
  assert (S1 : size - (t - k) = k + (size - t)) by lia.
  assert (TE : total m0 l r size (t - k) c = (sum * 2 ^ T + rem)%N).
  { unfold total. rewrite S1, !lv_app. fold T.
    replace (l + (t - k) + k) with (l + t) by lia. replace (r + (t - k) + k) with (r + t) by lia.
    unfold total in Er. subst sum. lia. }
  assert (Ls : (sum < 2 * 2 ^ N.of_nat k)%N).
  { subst sum. pose proof (lv_lt k m0 (l + (t - k))). pose proof (lv_lt k m0 (r + (t - k))). lia. }
  assert (Bc : N.testbit sum (N.of_nat k) = (2 ^ N.of_nat k <=? sum)%N).
  { destruct (2 ^ N.of_nat k <=? sum)%N eqn:C.
    - apply N.leb_le in C. replace sum with (1 * 2 ^ N.of_nat k + (sum - 2 ^ N.of_nat k))%N by lia.
      rewrite bits_above by lia. rewrite N.sub_diag. reflexivity.
    - apply N.leb_gt in C. replace sum with (0 * 2 ^ N.of_nat k + sum)%N by lia.
      rewrite bits_above by lia. apply N.bits_0. }
  assert (P : (2 ^ N.of_nat (k + (size - t)) = 2 ^ N.of_nat k * 2 ^ T)%N).
  { rewrite Nat2N.inj_add, N.pow_add_r. reflexivity. }
  split.
  - lia.
  - rewrite TE, S1, P, Bc. exists ((if 2 ^ N.of_nat k <=? sum then sum - 2 ^ N.of_nat k else sum) * 2 ^ T + rem)%N.
    destruct (2 ^ N.of_nat k <=? sum)%N eqn:C; [apply N.leb_le in C|apply N.leb_gt in C]; split; nia.
  - destruct (N.testbit sum (N.of_nat k)); lia.
  - intros a Ha. rewrite O' by lia. apply O. lia.
  - intros i Hi. rewrite TE. destruct (Nat.lt_ge_cases i t) as [C|C].
    + replace (res + i) with (res + (t - k) + (i - (t - k))) by lia. rewrite I' by lia.
      rewrite bits_above by (exact Lr || (unfold T; lia)). f_equal. f_equal. unfold T. lia.
    + rewrite O' by lia. rewrite I by lia. rewrite Er.
      rewrite !bits_below by (unfold T; lia). reflexivity.
Qed.

Lemma add_bits_ok : forall t m0 l r size c res carry m, sum_inv m0 l r size c res t carry m ->
  same_or_apart l res size -> same_or_apart r res size ->
  exists carry', sum_inv m0 l r size c res 0 carry' (add_bits t carry m l r res).
Proof.
  induction t as [|t IH]; intros m0 l r size c res carry m I SL SR.
  - exists carry. exact I.
  - cbn [add_bits]. set (sum := (N.land (m (l + t)%nat) 1 + N.land (m (r + t)%nat) 1 + carry)%N).
    assert (K : sum_inv m0 l r size c res (S t - 1) (if N.testbit sum (N.of_nat 1) then 1 else 0)%N
                  (put m (res + t) (N.lor (N.land sum 1) 2))).
    { apply (sum_step m0 l r size c res (S t) carry m 1 _ sum I).
      - lia.
      - unfold sum. rewrite !land_1. cbn [lv].
        pose proof (si_out _ _ _ _ _ _ _ _ _ I) as O. pose proof (si_t _ _ _ _ _ _ _ _ _ I) as Ht.
        pose proof (read_old _ _ l _ _ _ 1 O SL Ht ltac:(lia) 0 ltac:(lia)) as EL.
        pose proof (read_old _ _ r _ _ _ 1 O SR Ht ltac:(lia) 0 ltac:(lia)) as ER.
        replace (l + (S t - 1) + 0) with (l + t) in * by lia. replace (r + (S t - 1) + 0) with (r + t) in * by lia.
        rewrite EL, ER. lia.
      - intros a Ha. unfold put. destruct (Nat.eqb_spec a (res + t)); [lia|reflexivity].
      - intros j Hj. replace j with 0 by lia. replace (res + (S t - 1) + 0) with (res + t) by lia.
        unfold put. rewrite Nat.eqb_refl. replace (N.of_nat (1 - 1 - 0)) with 0%N by reflexivity.
        rewrite land_1. rewrite <- (N.bit0_mod sum). destruct (N.testbit sum 0); reflexivity. }
    replace (S t - 1) with t in K by lia. change (N.of_nat 1) with 1%N in K.
    exact (IH _ _ _ _ _ _ _ _ K SL SR).
Qed.

Lemma add_bytes_ok : forall fuel t m0 l r size c res carry m, sum_inv m0 l r size c res t carry m ->
  same_or_apart l res size -> same_or_apart r res size -> bytes m0 l size -> bytes m0 r size ->
  forall t' carry' m', add_bytes fuel t carry m l r res = (t', carry', m') -> sum_inv m0 l r size c res t' carry' m'.
Proof.
  induction fuel as [|fuel IH]; intros t m0 l r size c res carry m I SL SR BL BR t' carry' m' E; cbn [add_bytes] in E.
  - injection E as -> -> ->. exact I.
  - destruct (8 <? t) eqn:C; [apply Nat.ltb_lt in C|injection E as -> -> ->; exact I].
    refine (IH (t - 8) m0 l r size c res _ _ _ SL SR BL BR _ _ _ E).
    pose proof (si_out _ _ _ _ _ _ _ _ _ I) as O. pose proof (si_t _ _ _ _ _ _ _ _ _ I) as Ht.
    assert (EL : pack_low_bits m (l + (t - 8)) = lv m0 (l + (t - 8)) 8).
    { rewrite pack_ok.
      - apply lv_ext. intros i Hi. rewrite (read_old _ _ l _ _ _ 8 O SL Ht ltac:(lia) i Hi). reflexivity.
      - intros i Hi. rewrite (read_old _ _ l _ _ _ 8 O SL Ht ltac:(lia) i Hi).
        rewrite <- Nat.add_assoc. apply BL. lia. }
    assert (ER : pack_low_bits m (r + (t - 8)) = lv m0 (r + (t - 8)) 8).
    { rewrite pack_ok.
      - apply lv_ext. intros i Hi. rewrite (read_old _ _ r _ _ _ 8 O SR Ht ltac:(lia) i Hi). reflexivity.
      - intros i Hi. rewrite (read_old _ _ r _ _ _ 8 O SR Ht ltac:(lia) i Hi).
        rewrite <- Nat.add_assoc. apply BR. lia. }
    cbv zeta. rewrite EL, ER.
    apply (sum_step m0 l r size c res t carry m 8 _ _ I).
    + lia.
    + reflexivity.
    + intros a Ha. apply spread_off. exact Ha.
    + intros j Hj. rewrite spread_at by exact Hj. f_equal. f_equal. lia.
Qed.

Lemma packed_add_ok : forall m l r size c res, (c <= 1)%N ->
  same_or_apart l res size -> same_or_apart r res size -> bytes m l size -> bytes m r size ->
  outside m (packed_add m l r size c res) res size /\
  (forall i, i < size -> packed_add m l r size c res (res + i) =
     b01 (N.testbit (lv m l size + lv m r size + c) (N.of_nat (size - 1 - i)))).
Proof.
  intros m l r size c res Hc SL SR BL BR. unfold packed_add.
  destruct (add_bytes size size c m l r res) as [[t carry] m'] eqn:E.
  pose proof (add_bytes_ok size size m l r size c res c m (sum_inv_init m l r size c res Hc) SL SR BL BR _ _ _ E) as I.
  destruct (add_bits_ok t m l r size c res carry m' I SL SR) as (carry' & J).
  destruct J as [_ _ _ O In]. unfold total in In. rewrite !Nat.add_0_r, Nat.sub_0_r in *. split.
  - exact O.
  - intros i Hi. apply In. lia.
Qed.
