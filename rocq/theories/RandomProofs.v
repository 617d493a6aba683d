(* Lemmas on the random number generator *)
From Coq Require Import List ZArith Arith Bool Lia.
From Verif Require Import Base RandomSpec RandomModel.
Import ListNotations.
Local Open Scope Z_scope.

Lemma word_bits : forall x, word x -> forall i, 32 <= i -> Z.testbit x i = false.
Proof.
  intros x [L H] i I. destruct (Z.eq_dec x 0) as [->|N]; [apply Z.bits_0|].
  apply Z.bits_above_log2; [lia|]. apply Z.log2_lt_pow2 in H; lia.
Qed.
Lemma bits_word : forall x, 0 <= x -> (forall i, 32 <= i -> Z.testbit x i = false) -> word x.
Proof.
  intros x L H. split; [exact L|].
  assert (x = x mod 2 ^ 32) as E.
  { apply Z.bits_inj'. intros i I. destruct (Z_lt_dec i 32).
    - rewrite Z.mod_pow2_bits_low by lia. reflexivity.
    - rewrite Z.mod_pow2_bits_high by lia. apply H. lia. }
  rewrite E. apply Z.mod_pos_bound. lia.
Qed.
Lemma word_lxor : forall a b, word a -> word b -> word (Z.lxor a b).
Proof.
  intros a b A B. apply bits_word.
  - apply Z.lxor_nonneg. unfold word in *. lia.
  - intros i I. rewrite Z.lxor_spec, (word_bits a A i I), (word_bits b B i I). reflexivity.
Qed.
Lemma word_land : forall a b, 0 <= a -> word b -> word (Z.land a b).
Proof.
  intros a b A B. apply bits_word.
  - apply Z.land_nonneg. left. exact A.
  - intros i I. rewrite Z.land_spec, (word_bits b B i I). apply andb_false_r.
Qed.
Lemma word_div : forall a k, word a -> 0 <= k -> word (a / 2 ^ k).
Proof.
  intros a k [A B] K. assert (0 < 2 ^ k) by (apply Z.pow_pos_nonneg; lia).
  split; [apply Z.div_pos; lia|]. apply Z.le_lt_trans with a; [|exact B].
  apply Z.div_le_upper_bound; nia.
Qed.
Lemma word_u32 : forall a, word (u32 a).
Proof. intros a. unfold word, u32. apply Z.mod_pos_bound. lia. Qed.

(* Joining the halves *)
Lemma joined_ok : forall a b, word a ->
  Z.lor (Z.land a UPPER_MASK) (Z.land b LOWER_MASK) = joined a b.
Proof.
  intros a b A. unfold joined. change LOWER_MASK with (Z.ones 31).
  rewrite Z.land_ones by lia.
  assert (Z.land a UPPER_MASK = 2 ^ 31 * (a / 2 ^ 31)) as ->.
  { rewrite Z.mul_comm, <- Z.shiftl_mul_pow2, <- Z.shiftr_div_pow2 by lia.
    change UPPER_MASK with (Z.shiftl 1 31). apply Z.bits_inj'. intros i I.
    rewrite Z.land_spec. destruct (Z_lt_dec i 31).
    - rewrite !Z.shiftl_spec_low by lia. apply andb_false_r.
    - rewrite !Z.shiftl_spec_high by lia. rewrite Z.shiftr_spec by lia.
      replace (i - 31 + 31) with i by lia.
      destruct (Z.eq_dec i 31) as [->|N].
      + change (Z.testbit 1 (31 - 31)) with true. apply andb_true_r.
      + rewrite (word_bits a A i) by lia. reflexivity. }
  rewrite <- Z.lxor_lor.
  - rewrite <- Z.add_nocarry_lxor; [reflexivity|].
    apply Z.bits_inj'. intros i I. rewrite Z.land_spec, Z.bits_0.
    rewrite Z.mul_comm, <- Z.shiftl_mul_pow2 by lia. destruct (Z_lt_dec i 31).
    + rewrite Z.shiftl_spec_low by lia. reflexivity.
    + rewrite Z.mod_pow2_bits_high by lia. apply andb_false_r.
  - apply Z.bits_inj'. intros i I. rewrite Z.land_spec, Z.bits_0.
    rewrite Z.mul_comm, <- Z.shiftl_mul_pow2 by lia. destruct (Z_lt_dec i 31).
    + rewrite Z.shiftl_spec_low by lia. reflexivity.
    + rewrite Z.mod_pow2_bits_high by lia. apply andb_false_r.
Qed.

Lemma mix_ok : forall a b c, word a -> mix a b c = Z.lxor c (twisted (joined a b)).
Proof.
  intros a b c A. unfold mix, twisted, mag01. rewrite (joined_ok a b A).
  rewrite Z.lxor_assoc. rewrite Z.shiftr_div_pow2 by lia. change (2 ^ 1) with 2.
  change 1 with (Z.ones 1) at 1. rewrite Z.land_ones by lia. change (2 ^ 1) with 2.
  reflexivity.
Qed.

Lemma temper_ok : forall y, word y -> temper y = tempered y.
Proof.
  intros y W. unfold temper, tempered. cbv zeta.
  rewrite Z.shiftr_div_pow2 by lia.
  assert (word (Z.lxor y (y / 2 ^ 11))) as W1
    by (apply word_lxor; [exact W|apply word_div; [exact W|lia]]).
  set (y1 := Z.lxor y (y / 2 ^ 11)) in *.
  assert (forall a k m, word m -> 0 <= k -> Z.land (u32 (Z.shiftl a k)) m = Z.land (2 ^ k * a) m) as LM.
  { intros a k m M K. unfold u32. rewrite Z.shiftl_mul_pow2 by exact K.
    rewrite (Z.mul_comm a). apply Z.bits_inj'. intros i I. rewrite !Z.land_spec.
    destruct (Z_lt_dec i 32).
    - rewrite Z.mod_pow2_bits_low by lia. reflexivity.
    - rewrite (word_bits m M i) by lia. rewrite !andb_false_r. reflexivity. }
  rewrite !LM by (unfold word; lia).
  set (y2 := Z.lxor y1 (Z.land (2 ^ 7 * y1) 2636928640)).
  set (y3 := Z.lxor y2 (Z.land (2 ^ 15 * y2) 4022730752)).
  rewrite Z.shiftr_div_pow2 by lia. reflexivity.
Qed.

Lemma tempered_word : forall y, word y -> word (tempered y).
Proof.
  intros y W. unfold tempered. cbv zeta.
  assert (forall a m k, word a -> word m -> 0 <= k -> word (Z.lxor a (Z.land (2 ^ k * a) m))) as L.
  { intros a m k A M K. apply word_lxor; [exact A|]. apply word_land; [|exact M].
    unfold word in A. assert (0 < 2 ^ k) by (apply Z.pow_pos_nonneg; lia). nia. }
  assert (forall a k, word a -> 0 <= k -> word (Z.lxor a (a / 2 ^ k))) as R
    by (intros a k A K; apply word_lxor; [exact A|apply word_div; assumption]).
  apply R; [|lia]. apply L; [|unfold word; lia|lia]. apply L; [|unfold word; lia|lia].
  apply R; [exact W|lia].
Qed.

(** ** The sequence *)

Section Seq.
Variables (seed : Z) (x : nat -> Z).
Hypothesis SQ : mt_sequence seed x.

Lemma twisted_word : forall y, word y -> word (twisted y).
Proof.
  intros y W. unfold twisted. apply word_lxor.
  - change 2 with (2 ^ 1). apply word_div; [exact W|lia].
  - destruct (y mod 2 =? 0); unfold word; lia.
Qed.
Lemma joined_word : forall a b, word a -> word (joined a b).
Proof.
  intros a b [A B]. unfold joined, word.
  pose proof (Z.mod_pos_bound b (2 ^ 31) ltac:(lia)).
  assert (0 <= a / 2 ^ 31 < 2).
  { split; [apply Z.div_pos; lia|]. apply Z.div_lt_upper_bound; lia. }
  lia.
Qed.
Lemma seq_word : forall n i, (i < n)%nat -> word (x i).
Proof.
  induction n as [|n IH]; intros i I; [lia|].
  destruct SQ as (S0 & S1 & S2). destruct (Nat.eq_dec i 0) as [->|NZ].
  - rewrite S0. apply word_u32.
  - destruct (le_lt_dec 624 i) as [G|L].
    + replace i with ((i - 624) + 624)%nat by lia. rewrite S2.
      apply word_lxor; [apply IH; lia|]. apply twisted_word, joined_word, IH. lia.
    + rewrite S1 by lia. apply word_u32.
Qed.
Lemma xw : forall i, word (x i).
Proof. intros i. apply (seq_word (S i)). lia. Qed.

Lemma init_loop_ok : forall n i m, (1 <= i)%nat -> (i + n = 624)%nat ->
  (forall j, (j < i)%nat -> m j = x j) ->
  forall j, (j < 624)%nat -> init_loop n i m j = x j.
Proof.
  induction n as [|n IH]; intros i m I N H j J; cbn [init_loop].
  - apply H. lia.
  - cbv zeta. apply IH; [lia|lia| |exact J]. intros k K.
    destruct (Nat.eq_dec k i) as [->|NE].
    + rewrite upd_same. destruct SQ as (_ & S1 & _). rewrite (S1 i) by lia.
      rewrite H by lia. rewrite Z.shiftr_div_pow2 by lia. reflexivity.
    + rewrite upd_other by exact NE. apply H. lia.
Qed.

Lemma init_ok : forall j, (j < 624)%nat -> mt (mt19937_init seed) j = x j.
Proof.
  intros j J. unfold mt19937_init. cbn [mt].
  apply init_loop_ok; [lia|reflexivity| |exact J].
  intros k K. assert (k = 0)%nat as -> by lia. rewrite upd_same.
  destruct SQ as (S0 & _). symmetry. exact S0.
Qed.

(* Halfway through the twist of block [b] *)
Definition halfway (b kk : nat) (m : nat -> Z) : Prop :=
  (forall i, (i < kk)%nat -> m i = x (b + 624 + i)%nat) /\
  (forall i, (kk <= i < 624)%nat -> m i = x (b + i)%nat).

Lemma halfway_step : forall b kk m c, halfway b kk m -> (kk < 624)%nat ->
  c = x (b + kk + 397)%nat ->
  (kk + 1 < 624 -> m (kk + 1) = x (b + kk + 1))%nat ->
  forall y, y = x (b + kk + 1)%nat ->
  halfway b (S kk) (upd m kk (mix (m kk) y c)).
Proof.
  intros b kk m c [H1 H2] L -> _ y ->. split; intros i I.
  - destruct (Nat.eq_dec i kk) as [->|NE].
    + rewrite upd_same. rewrite (H2 kk) by lia. rewrite mix_ok by apply xw.
      destruct SQ as (_ & _ & S2). replace (b + 624 + kk)%nat with (b + kk + 624)%nat by lia.
      rewrite S2. reflexivity.
    + rewrite upd_other by exact NE. apply H1. lia.
  - rewrite upd_other by lia. apply H2. lia.
Qed.

Lemma twist1_ok : forall n kk b m, halfway b kk m -> (kk + n = 227)%nat ->
  halfway b 227 (twist1 n kk m).
Proof.
  induction n as [|n IH]; intros kk b m H N; cbn [twist1].
  - replace 227%nat with kk by lia. exact H.
  - apply IH; [|lia]. apply halfway_step.
    + exact H.
    + lia.
    + destruct H as [_ H2]. unfold MT_M. rewrite H2 by lia. f_equal. lia.
    + intros _. destruct H as [_ H2]. rewrite H2 by lia. f_equal. lia.
    + destruct H as [_ H2]. rewrite H2 by lia. f_equal. lia.
Qed.

Lemma twist2_ok : forall n kk b m, halfway b kk m -> (kk + n = 623)%nat -> (227 <= kk)%nat ->
  halfway b 623 (twist2 n kk m).
Proof.
  induction n as [|n IH]; intros kk b m H N G; cbn [twist2].
  - replace 623%nat with kk by lia. exact H.
  - apply IH; [|lia|lia]. apply halfway_step.
    + exact H.
    + lia.
    + destruct H as [H1 _]. unfold MT_M, MT_N. rewrite H1 by lia. f_equal. lia.
    + intros _. destruct H as [_ H2]. rewrite H2 by lia. f_equal. lia.
    + destruct H as [_ H2]. rewrite H2 by lia. f_equal. lia.
Qed.

Lemma twist_ok : forall b m, (forall i, (i < 624)%nat -> m i = x (b + i)%nat) ->
  forall i, (i < 624)%nat -> twist m i = x (b + 624 + i)%nat.
Proof.
  intros b m H i I. unfold twist. cbv zeta.
  assert (halfway b 0 m) as H0 by (split; intros j J; [lia|apply H; lia]).
  pose proof (twist1_ok 227 0 b m H0 eq_refl) as H1.
  pose proof (twist2_ok 396 227 b _ H1 eq_refl (le_n _)) as H2.
  change (MT_N - MT_M)%nat with 227%nat.
  change (MT_N - 1 - 227)%nat with 396%nat.
  change (MT_N - 1)%nat with 623%nat. change (MT_M - 1)%nat with 396%nat.
  set (m2 := twist2 396 227 (twist1 227 0 m)) in *.
  assert (halfway b 624 (upd m2 623 (mix (m2 623%nat) (m2 0%nat) (m2 396%nat)))) as H3.
  { apply (halfway_step b 623 m2).
    - exact H2.
    - lia.
    - destruct H2 as [A _]. rewrite A by lia. f_equal. lia.
    - lia.
    - destruct H2 as [A _]. rewrite A by lia. f_equal. lia. }
  destruct H3 as [A _]. apply A. exact I.
Qed.

(* After [n] calls, [n] > 0 *)
Definition at_ (s : state) (n : nat) : Prop :=
  exists b, (forall i, (i < 624)%nat -> mt s i = x (b + i)%nat) /\
    (mti s <= 624)%nat /\ (b + mti s = 624 + n)%nat.

Lemma next_ok : forall s n, at_ s n ->
  exists s', mt19937_next s = Ok (s', tempered (x (624 + n)%nat)) /\ at_ s' (S n).
Proof.
  intros s n (b & H & L & E). unfold mt19937_next.
  destruct (Nat.eqb_spec (mti s) MT_N) as [EQ|NE]; cbn [bind].
  - unfold MT_N in EQ. eexists. split.
    + f_equal. f_equal. cbn [mt mti]. rewrite temper_ok.
      * rewrite (twist_ok b (mt s) H 0) by lia. f_equal. f_equal. lia.
      * rewrite (twist_ok b (mt s) H 0) by lia. apply xw.
    + exists (b + 624)%nat. cbn [mt mti]. split; [apply twist_ok; exact H|].
      split; lia.
  - unfold MT_N in NE. rewrite (proj2 (Nat.ltb_lt (mti s) MT_N)) by (unfold MT_N; lia).
    cbn [bind]. eexists. split.
    + f_equal. f_equal. rewrite H by lia. rewrite temper_ok by apply xw.
      f_equal. f_equal. lia.
    + exists b. cbn [mt mti]. split; [exact H|]. split; lia.
Qed.

Lemma draws_from : forall k n s, at_ s n ->
  draws k seed s = Ok (map (fun i => tempered (x (624 + i)%nat)) (seq n k)).
Proof.
  induction k as [|k IH]; intros n s A; [reflexivity|]. cbn [draws seq map].
  unfold get_random.
  assert (Nat.ltb MT_N (mti s) = false) as ->.
  { destruct A as (b & _ & L & _). apply Nat.ltb_ge. unfold MT_N. exact L. }
  destruct (next_ok s n A) as (s' & -> & A'). cbn [bind].
  rewrite (IH (S n) s' A'). reflexivity.
Qed.

Lemma draws_ok : forall k,
  draws k seed start = Ok (map (fun i => tempered (x (624 + i)%nat)) (seq 0 k)).
Proof.
  intros [|k]; [reflexivity|]. cbn [draws].
  unfold get_random. change (Nat.ltb MT_N (mti start)) with true. cbv iota.
  assert (at_ (mt19937_init seed) 0) as A.
  { exists 0%nat. split; [exact init_ok|]. split; cbn [mti mt19937_init]; unfold MT_N; lia. }
  destruct (next_ok _ 0 A) as (s' & -> & A'). cbn [bind].
  rewrite (draws_from k 1 s' A'). reflexivity.
Qed.
End Seq.

(** ** There is such a sequence *)

Definition nextw (seed : Z) (l : list Z) : Z :=
  let n := length l in
  if Nat.eqb n 0 then seed mod 2 ^ 32
  else if Nat.ltb n 624 then
    (1812433253 * Z.lxor (nth (n - 1) l 0) (nth (n - 1) l 0 / 2 ^ 30) + Z.of_nat n) mod 2 ^ 32
  else Z.lxor (nth (n - 624 + 397) l 0)
         (twisted (joined (nth (n - 624) l 0) (nth (n - 624 + 1) l 0))).
Fixpoint prefix (seed : Z) (n : nat) : list Z :=
  match n with O => [] | S n => let l := prefix seed n in l ++ [nextw seed l] end.

Lemma prefix_length : forall seed n, length (prefix seed n) = n.
Proof. intros seed. induction n as [|n IH]; [reflexivity|]. cbn. rewrite app_length, IH. cbn. lia. Qed.
Lemma prefix_nth : forall seed n i, (i < n)%nat ->
  nth i (prefix seed n) 0 = nextw seed (prefix seed i).
Proof.
  intros seed. induction n as [|n IH]; intros i I; [lia|]. cbn [prefix].
  destruct (Nat.eq_dec i n) as [->|NE].
  - rewrite app_nth2 by (rewrite prefix_length; lia). rewrite prefix_length, Nat.sub_diag. reflexivity.
  - rewrite app_nth1 by (rewrite prefix_length; lia). apply IH. lia.
Qed.

Lemma sequence_exists : forall seed, exists x, mt_sequence seed x.
Proof.
  intros seed. exists (fun i => nextw seed (prefix seed i)). split; [|split].
  - reflexivity.
  - intros i I. unfold nextw at 1. rewrite prefix_length.
    rewrite (proj2 (Nat.eqb_neq i 0)) by lia. rewrite (proj2 (Nat.ltb_lt i 624)) by lia.
    rewrite prefix_nth by lia. reflexivity.
  - intros k. unfold nextw at 1. rewrite prefix_length.
    rewrite (proj2 (Nat.eqb_neq (k + 624) 0)) by lia.
    rewrite (proj2 (Nat.ltb_ge (k + 624) 624)) by lia.
    replace (k + 624 - 624)%nat with k by lia.
    rewrite !prefix_nth by lia. reflexivity.
Qed.
