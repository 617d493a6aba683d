(* Proofs about bit masks. *)
From Coq Require Import List Arith NArith ZArith Lia Bool ZifyBool.
From Verif Require Import Base MaskModel MaskSpec.
Import ListNotations.

Definition bt (w : N) (i : nat) : bool := N.testbit w (N.of_nat i).
Definition w64 (w : N) : Prop := forall i, 64 <= i -> bt w i = false.

(* ---- word level ---- *)

Lemma bt_land a b i : bt (N.land a b) i = bt a i && bt b i.
Proof. apply N.land_spec. Qed.
Lemma bt_lor a b i : bt (N.lor a b) i = bt a i || bt b i.
Proof. apply N.lor_spec. Qed.
Lemma bt_ones64 i : bt (N.ones 64) i = (i <? 64).
Proof.
  unfold bt. destruct (Nat.ltb_spec i 64).
  - apply N.ones_spec_low. lia.
  - apply N.ones_spec_high. lia.
Qed.
Lemma bt_not64 a i : bt (not64 a) i = xorb (bt a i) (i <? 64).
Proof. unfold not64. unfold bt at 1. rewrite N.lxor_spec. now rewrite <- bt_ones64. Qed.
Lemma bt_0 i : bt 0 i = false.
Proof. apply N.bits_0. Qed.
Lemma bt_shl1 n i : bt (shl1 n) i = (i =? n).
Proof.
  unfold bt, shl1. rewrite N.shiftl_1_l, N.pow2_bits_eqb.
  destruct (N.eqb_spec (N.of_nat n) (N.of_nat i)), (Nat.eqb_spec i n); auto; lia.
Qed.
Lemma bt_shl1_m1 n i : bt (shl1 n - 1) i = (i <? n).
Proof.
  unfold bt, shl1. rewrite N.shiftl_1_l.
  replace (2 ^ N.of_nat n - 1)%N with (N.ones (N.of_nat n)).
  - destruct (Nat.ltb_spec i n); [apply N.ones_spec_low|apply N.ones_spec_high]; lia.
  - rewrite N.ones_equiv. lia.
Qed.

Lemma bt_ext a b : (forall i, bt a i = bt b i) -> a = b.
Proof.
  intros H. apply N.bits_inj. intros n.
  specialize (H (N.to_nat n)). unfold bt in H. now rewrite N2Nat.id in H.
Qed.

Lemma zero_iff w : w = 0%N <-> forall i, bt w i = false.
Proof.
  split; [intros ->; apply bt_0|]. intros H. apply bt_ext. intros i.
  now rewrite H, bt_0.
Qed.

Lemma nonzero_iff w : w <> 0%N <-> exists i, bt w i = true.
Proof.
  split.
  - intros H. exists (N.to_nat (N.log2 w)). unfold bt. rewrite N2Nat.id.
    now apply N.bit_log2.
  - intros (i & H) ->. now rewrite bt_0 in H.
Qed.

Lemma land_shl1_test w n : negb (N.eqb (N.land w (shl1 n)) 0) = bt w n.
Proof.
  destruct (N.eqb_spec (N.land w (shl1 n)) 0) as [E|E]; simpl; symmetry.
  - rewrite zero_iff in E. specialize (E n).
    rewrite bt_land, bt_shl1, Nat.eqb_refl, andb_true_r in E. exact E.
  - apply nonzero_iff in E. destruct E as (i & E).
    rewrite bt_land, bt_shl1 in E. apply andb_prop in E. destruct E as (E1 & E2).
    apply Nat.eqb_eq in E2. now subst.
Qed.

Lemma mask_for_range_ok low high :
  (0 <= low)%Z -> (high < 64)%Z ->
  exists r, mask_for_range low high = Ok r /\
    forall i, bt r i = ((low <=? Z.of_nat i) && (Z.of_nat i <=? high))%Z.
Proof.
  intros Hl Hh. unfold mask_for_range.
  destruct (Z.ltb_spec high low) as [L|L].
  - exists 0%N. split; [reflexivity|]. intros i. rewrite bt_0. lia.
  - replace ((low <? 0) || (63 <? low) || (high <? 0) || (63 <? high))%Z%bool
      with false by lia.
    eexists. split; [reflexivity|]. intros i.
    destruct (Z.ltb_spec high 63); destruct (Z.ltb_spec 0 low);
      rewrite ?bt_land, ?bt_not64, ?bt_shl1_m1, ?bt_ones64; lia.
Qed.

Lemma mask_for_range_inv low high r : mask_for_range low high = Ok r ->
  forall i, bt r i = ((low <=? Z.of_nat i) && (Z.of_nat i <=? high))%Z.
Proof.
  intros E.
  assert (H : (high < low \/ (0 <= low /\ high < 64))%Z).
  { unfold mask_for_range in E. destruct (Z.ltb_spec high low); [lia|].
    destruct ((low <? 0) || (63 <? low) || (high <? 0) || (63 <? high))%Z%bool eqn:E1;
      [discriminate|]. lia. }
  destruct H as [H|H].
  - unfold mask_for_range in E. destruct (Z.ltb_spec high low); [|lia].
    injection E as <-. intros i. rewrite bt_0. lia.
  - destruct (mask_for_range_ok low high) as (r' & E' & H'); try lia.
    rewrite E in E'. injection E' as <-. exact H'.
Qed.

Lemma find_first (f : nat -> bool) n k :
  match find f (seq k n) with
  | Some i => k <= i < k + n /\ f i = true /\ forall j, k <= j < i -> f j = false
  | None => forall j, k <= j < k + n -> f j = false
  end.
Proof.
  revert k. induction n as [|n IH]; intros k; simpl.
  - intros j Hj. lia.
  - destruct (f k) eqn:E.
    + split; [lia|]. split; [exact E|]. intros j Hj. lia.
    + specialize (IH (S k)). destruct (find f (seq (S k) n)) as [i|].
      * destruct IH as (H1 & H2 & H3). split; [lia|]. split; [exact H2|].
        intros j Hj. destruct (Nat.eq_dec j k) as [->|]; [exact E|apply H3; lia].
      * intros j Hj. destruct (Nat.eq_dec j k) as [->|]; [exact E|apply IH; lia].
Qed.

Lemma ffsll_spec w : w64 w ->
  match ffsll w with
  | 0 => forall j, bt w j = false
  | S i => i < 64 /\ bt w i = true /\ forall j, j < i -> bt w j = false
  end.
Proof.
  intros Hw. unfold ffsll.
  pose proof (find_first (bt w) 64 0) as H. unfold bt in H at 1.
  destruct (find (fun i => N.testbit w (N.of_nat i)) (seq 0 64)) as [i|].
  - destruct H as (H1 & H2 & H3). split; [lia|]. split; [exact H2|].
    intros j Hj. apply H3. lia.
  - intros j. destruct (Nat.lt_ge_cases j 64); [apply H; lia|now apply Hw].
Qed.

Lemma clzll_spec w : w64 w -> w <> 0%N ->
  exists c i, clzll w = Ok c /\ c <= 63 /\ i = 63 - c /\ bt w i = true /\
              forall j, i < j -> bt w j = false.
Proof.
  intros Hw Hn. unfold clzll. destruct (N.eqb_spec w 0); [contradiction|].
  assert (Hb : bt w (N.to_nat (N.log2 w)) = true).
  { unfold bt. rewrite N2Nat.id. now apply N.bit_log2. }
  assert (Hlt : N.to_nat (N.log2 w) < 64).
  { destruct (Nat.lt_ge_cases (N.to_nat (N.log2 w)) 64); [assumption|].
    rewrite Hw in Hb by assumption. discriminate. }
  exists (63 - N.to_nat (N.log2 w)), (N.to_nat (N.log2 w)).
  split; [reflexivity|]. split; [lia|]. split; [lia|]. split; [exact Hb|].
  intros j Hj. unfold bt. apply N.bits_above_log2. lia.
Qed.

Lemma w64_0 : w64 0.
Proof. intros i _. apply bt_0. Qed.
Lemma w64_ones : w64 (N.ones 64).
Proof. intros i Hi. rewrite bt_ones64. lia. Qed.
Lemma w64_land_l a b : w64 a -> w64 (N.land a b).
Proof. intros H i Hi. rewrite bt_land, H by assumption. reflexivity. Qed.
Lemma w64_lor a b : w64 a -> w64 b -> w64 (N.lor a b).
Proof. intros H1 H2 i Hi. rewrite bt_lor, H1, H2 by assumption. reflexivity. Qed.
Lemma w64_shl1 n : n < 64 -> w64 (shl1 n).
Proof. intros H i Hi. rewrite bt_shl1. lia. Qed.

(* ---- masks as sets ---- *)

Definition elem (m : mask) (i : nat) : bool :=
  if 64 <? msize m then bt (nth (i / 64) (mptr m) 0%N) (i mod 64)
  else bt (mbits m) i.

(* Representation invariant. *)
Definition wf (m : mask) : Prop :=
  (forall i, msize m <= i -> elem m i = false) /\
  (64 < msize m ->
     length (mptr m) = (msize m + 63) / 64 /\
     forall k, w64 (nth k (mptr m) 0%N)).

Lemma list_set_length {V} (l : list V) k v : length (list_set l k v) = length l.
Proof. revert k. induction l; intros [|k]; simpl; auto. Qed.

Lemma list_set_nth {V} (l : list V) k v i d :
  k < length l -> nth i (list_set l k v) d = if i =? k then v else nth i l d.
Proof.
  revert k i. induction l as [|x l IH]; intros k i Hk; simpl in Hk; [lia|].
  destruct k, i; simpl; auto. apply IH. lia.
Qed.

Lemma rd_ok m k : k < length (mptr m) -> rd m k = Ok (nth k (mptr m) 0%N).
Proof.
  intros H. unfold rd. rewrite (nth_error_nth' _ 0%N H). reflexivity.
Qed.

Definition wr_res (m : mask) (k : nat) (w : N) : mask :=
  Mask (msize m) (mbits m) (list_set (mptr m) k w).
Lemma wr_ok m k w : k < length (mptr m) -> wr m k w = Ok (wr_res m k w).
Proof. intros H. unfold wr. apply Nat.ltb_lt in H. now rewrite H. Qed.

(* "Large" masks with well-formed storage (bits past the end unconstrained). *)
Definition big (n : nat) (m : mask) : Prop :=
  msize m = n /\ 64 < n /\ length (mptr m) = (n + 63) / 64 /\
  forall k, w64 (nth k (mptr m) 0%N).

Lemma big_wr n m k w : big n m -> k < (n + 63) / 64 -> w64 w -> big n (wr_res m k w).
Proof.
  intros (H1 & H2 & H3 & H4) Hk Hw. repeat split; simpl; auto.
  - rewrite list_set_length. assumption.
  - intros i. rewrite list_set_nth by lia. destruct (i =? k); auto.
Qed.

Lemma elem_big n m i : big n m -> elem m i = bt (nth (i / 64) (mptr m) 0%N) (i mod 64).
Proof.
  intros (H1 & H2 & _). unfold elem. rewrite H1.
  destruct (Nat.ltb_spec 64 n); [reflexivity|lia].
Qed.

Lemma elem_wr n m k w i : big n m -> k < (n + 63) / 64 -> w64 w ->
  elem (wr_res m k w) i = if i / 64 =? k then bt w (i mod 64) else elem m i.
Proof.
  intros Hb Hk Hw. rewrite (elem_big n) by now apply big_wr.
  rewrite (elem_big n m) by assumption. simpl.
  destruct Hb as (_ & _ & Hl & _). rewrite list_set_nth by lia.
  destruct (i / 64 =? k); reflexivity.
Qed.

Lemma wf_big m : wf m -> 64 < msize m -> big (msize m) m.
Proof. intros (_ & H) Hs. destruct (H Hs). repeat split; auto. Qed.

Lemma big_wf n m : big n m -> (forall i, n <= i -> elem m i = false) -> wf m.
Proof. intros (H1 & H2 & H3 & H4) H. subst. split; auto. Qed.

Lemma small_wf m : msize m <= 64 -> (forall i, msize m <= i -> elem m i = false) -> wf m.
Proof. intros H1 H2. split; [assumption|]. lia. Qed.

Lemma elem_small m i : msize m <= 64 -> elem m i = bt (mbits m) i.
Proof. intros H. unfold elem. destruct (Nat.ltb_spec 64 (msize m)); [lia|reflexivity]. Qed.

Lemma word_in_range n i : i < n -> i / 64 < (n + 63) / 64.
Proof. intros H. dlia. Qed.

Ltac small_large m :=
  destruct (Nat.ltb_spec 64 (msize m)).

(* [m'] denotes the set [s]. *)
Definition denotes (n : nat) (m : mask) (s : iset) : Prop :=
  msize m = n /\ wf m /\ forall i, i < n -> elem m i = s i.

Lemma mask_init_denotes n : denotes n (mask_init n) (fun _ => false).
Proof.
  unfold mask_init. destruct (Nat.ltb_spec 64 n) as [H|H].
  - assert (E : forall i, elem (Mask n 0 (repeat 0%N ((n + 63) / 64))) i = false).
    { intros i. unfold elem; cbn [msize mptr mbits].
      destruct (Nat.ltb_spec 64 n); [|lia].
      rewrite nth_repeat. apply bt_0. }
    split; [reflexivity|]. split; [|intros; apply E].
    split; [intros; apply E|]. simpl. intros _. split; [apply repeat_length|].
    intros k. rewrite nth_repeat. apply w64_0.
  - assert (E : forall i, elem (Mask n 0 []) i = false).
    { intros i. rewrite elem_small by (simpl; lia). apply bt_0. }
    split; [reflexivity|]. split; [|intros; apply E].
    apply small_wf; [simpl; lia|intros; apply E].
Qed.

Lemma mask_test_ok m b : wf m -> b < msize m -> mask_test m b = Ok (elem m b).
Proof.
  intros Hw Hb. unfold mask_test. apply Nat.ltb_lt in Hb as Hb'. rewrite Hb'.
  destruct (Nat.ltb_spec 64 (msize m)) as [L|L].
  - pose proof (wf_big m Hw L) as (B1 & B2 & B3 & B4).
    rewrite rd_ok by (rewrite B3; now apply word_in_range). cbn [bind].
    rewrite land_shl1_test. rewrite (elem_big (msize m)) by (repeat split; auto).
    reflexivity.
  - rewrite land_shl1_test, elem_small by lia. rewrite Nat.mod_small by lia. reflexivity.
Qed.

Lemma mask_set_ok m b : wf m -> b < msize m ->
  exists m', mask_set m b = Ok m' /\ msize m' = msize m /\ wf m' /\
             forall i, elem m' i = (i =? b) || elem m i.
Proof.
  intros Hw Hb. unfold mask_set. apply Nat.ltb_lt in Hb as Hb'. rewrite Hb'.
  destruct (Nat.ltb_spec 64 (msize m)) as [L|L].
  - pose proof (wf_big m Hw L) as B. pose proof B as (B1 & B2 & B3 & B4).
    pose proof (word_in_range _ _ Hb) as Hk.
    rewrite rd_ok by (rewrite B3; assumption). cbn [bind].
    rewrite wr_ok by (rewrite B3; assumption).
    set (w := N.lor _ _).
    assert (Hw64 : w64 w).
    { apply w64_lor; [apply B4|]. apply w64_shl1. apply Nat.mod_upper_bound. lia. }
    assert (E : forall i, elem (wr_res m (b / 64) w) i = (i =? b) || elem m i).
    { intros i. rewrite (elem_wr (msize m)) by assumption.
      destruct (Nat.eqb_spec (i / 64) (b / 64)) as [Ek|Ek].
      - unfold w. rewrite bt_lor, bt_shl1, (elem_big (msize m)) by assumption.
        rewrite Ek, orb_comm. f_equal.
        destruct (Nat.eqb_spec (i mod 64) (b mod 64)), (Nat.eqb_spec i b); try reflexivity.
        + exfalso. dlia.
        + exfalso. subst. lia.
      - destruct (Nat.eqb_spec i b); [subst; lia|reflexivity]. }
    eexists. split; [reflexivity|]. split; [reflexivity|]. split; [|exact E].
    apply (big_wf (msize m)); [now apply big_wr|].
    intros i Hi. rewrite E. destruct Hw as (Hw & _). rewrite Hw by assumption.
    destruct (Nat.eqb_spec i b); [lia|reflexivity].
  - set (m' := wbits m _).
    assert (E : forall i, elem m' i = (i =? b) || elem m i).
    { intros i. unfold m'. rewrite !elem_small by (simpl; lia). cbn [mbits wbits].
      rewrite bt_lor, bt_shl1, Nat.mod_small by lia. apply orb_comm. }
    eexists. split; [reflexivity|]. split; [reflexivity|]. split; [|exact E].
    apply small_wf; [simpl; lia|]. intros i Hi. rewrite E.
    destruct Hw as (Hw & _). rewrite Hw by assumption. simpl in Hi.
    destruct (Nat.eqb_spec i b); [lia|reflexivity].
Qed.

Lemma mask_clear_ok m b : wf m -> b < msize m ->
  exists m', mask_clear m b = Ok m' /\ msize m' = msize m /\ wf m' /\
             forall i, elem m' i = negb (i =? b) && elem m i.
Proof.
  intros Hw Hb. unfold mask_clear. apply Nat.ltb_lt in Hb as Hb'. rewrite Hb'.
  destruct (Nat.ltb_spec 64 (msize m)) as [L|L].
  - pose proof (wf_big m Hw L) as B. pose proof B as (B1 & B2 & B3 & B4).
    pose proof (word_in_range _ _ Hb) as Hk.
    rewrite rd_ok by (rewrite B3; assumption). cbn [bind].
    rewrite wr_ok by (rewrite B3; assumption).
    set (w := N.land _ _).
    assert (Hw64 : w64 w) by (apply w64_land_l; apply B4).
    assert (E : forall i, elem (wr_res m (b / 64) w) i = negb (i =? b) && elem m i).
    { intros i. rewrite (elem_wr (msize m)) by assumption.
      destruct (Nat.eqb_spec (i / 64) (b / 64)) as [Ek|Ek].
      - unfold w. rewrite bt_land, bt_not64, bt_shl1, (elem_big (msize m)) by assumption.
        rewrite Ek, andb_comm. f_equal.
        pose proof (Nat.mod_upper_bound i 64 ltac:(lia)).
        destruct (Nat.eqb_spec (i mod 64) (b mod 64)), (Nat.eqb_spec i b); simpl.
        + apply Nat.ltb_lt in H. rewrite H. reflexivity.
        + exfalso. dlia.
        + exfalso. subst. lia.
        + apply Nat.ltb_lt in H. rewrite H. reflexivity.
      - destruct (Nat.eqb_spec i b); [subst; lia|reflexivity]. }
    eexists. split; [reflexivity|]. split; [reflexivity|]. split; [|exact E].
    apply (big_wf (msize m)); [now apply big_wr|].
    intros i Hi. rewrite E. destruct Hw as (Hw & _). rewrite Hw by assumption.
    apply andb_false_r.
  - set (m' := wbits m _).
    assert (E : forall i, elem m' i = negb (i =? b) && elem m i).
    { intros i. unfold m'. rewrite !elem_small by (simpl; lia). cbn [mbits wbits].
      rewrite bt_land, bt_not64, bt_shl1, (Nat.mod_small b) by lia.
      destruct (Nat.lt_ge_cases i 64).
      - apply Nat.ltb_lt in H. rewrite H, andb_comm. destruct (i =? b); reflexivity.
      - destruct Hw as (Hw & _).
        specialize (Hw i ltac:(lia)). rewrite elem_small in Hw by lia. rewrite Hw.
        now rewrite andb_false_r. }
    eexists. split; [reflexivity|]. split; [reflexivity|]. split; [|exact E].
    apply small_wf; [simpl; lia|]. intros i Hi. rewrite E.
    destruct Hw as (Hw & _). rewrite Hw by assumption. apply andb_false_r.
Qed.

(* ---- range operations on large masks ---- *)

Lemma in_range_split s c c1 i : c1 <= c ->
  in_range s c i = in_range s c1 i || in_range (s + c1) (c - c1) i.
Proof. intros H. unfold in_range. lia. Qed.

Lemma in_range_0 s i : in_range s 0 i = false.
Proof. unfold in_range. lia. Qed.

(* One word-level store [w -> w op r] over the bit range [start,start+c) that
   lies in a single word. *)
Lemma in_word start c i : 0 < c -> start mod 64 + c <= 64 ->
  in_range start c i =
  (i / 64 =? start / 64) && (start mod 64 <=? i mod 64)
  && (i mod 64 <=? start mod 64 + c - 1).
Proof.
  intros H1 H2. unfold in_range.
  assert (Hi := Nat.div_mod i 64 ltac:(lia)).
  assert (Hs := Nat.div_mod start 64 ltac:(lia)).
  pose proof (Nat.mod_upper_bound i 64 ltac:(lia)).
  pose proof (Nat.mod_upper_bound start 64 ltac:(lia)).
  set (iq := i / 64) in *. set (ir := i mod 64) in *.
  set (sq := start / 64) in *. set (sr := start mod 64) in *.
  clearbody iq ir sq sr. subst i start.
  destruct (Nat.eqb_spec iq sq); [subst; lia|]. simpl.
  destruct (Nat.lt_ge_cases iq sq); nia.
Qed.

Lemma clear_words_ok n : forall fuel m start count,
  big n m -> start + count <= n -> (start mod 64 = 0 \/ count = 0) -> count <= fuel ->
  exists m' s' c', clear_words fuel m start count = Ok (m', s', c') /\
    big n m' /\ s' + c' = start + count /\ start <= s' /\ c' < 64 /\
    (s' mod 64 = 0 \/ c' = 0) /\
    forall i, elem m' i = negb (in_range start (s' - start) i) && elem m i.
Proof.
  induction fuel as [|f IH]; intros m start count B Hr Hm Hf; cbn [clear_words].
  - destruct (Nat.leb_spec 64 count); [lia|].
    exists m, start, count. rewrite Nat.sub_diag.
    repeat split; try (apply B || lia || assumption).
    all: intros i; rewrite in_range_0; reflexivity.
  - destruct (Nat.leb_spec 64 count) as [L|L].
    + assert (Hk : start / 64 < (n + 63) / 64) by (apply word_in_range; lia).
      rewrite wr_ok by (destruct B as (_ & _ & -> & _); exact Hk). cbn [bind].
      destruct (IH (wr_res m (start / 64) 0) (start + 64) (count - 64))
        as (m' & s' & c' & R & B' & H1 & H2 & H3 & H4 & H5).
      * apply big_wr; [assumption|assumption|apply w64_0].
      * lia.
      * left. dlia.
      * lia.
      * exists m', s', c'. rewrite R.
        split; [reflexivity|]. split; [assumption|]. split; [lia|]. split; [lia|].
        split; [assumption|]. split; [assumption|].
        intros i. rewrite H5, (elem_wr n) by (assumption || apply w64_0).
        rewrite bt_0.
        rewrite (in_range_split start (s' - start) 64) by lia.
        replace (s' - start - 64) with (s' - (start + 64)) by lia.
        rewrite (in_word start 64) by lia.
        pose proof (Nat.mod_upper_bound i 64 ltac:(lia)).
        destruct (Nat.eqb_spec (i / 64) (start / 64)); simpl.
        -- replace (start mod 64 <=? i mod 64) with true by lia.
           replace (i mod 64 <=? start mod 64 + 64 - 1) with true by lia.
           simpl. apply andb_false_r.
        -- reflexivity.
    + exists m, start, count. rewrite Nat.sub_diag.
      split; [reflexivity|]. split; [assumption|].
      split; [lia|]. split; [lia|]. split; [lia|]. split; [assumption|].
      intros i. rewrite in_range_0. reflexivity.
Qed.

Lemma set_words_ok n : forall fuel m start count,
  big n m -> start + count <= n -> (start mod 64 = 0 \/ count = 0) -> count <= fuel ->
  exists m' s' c', set_words fuel m start count = Ok (m', s', c') /\
    big n m' /\ s' + c' = start + count /\ start <= s' /\ c' < 64 /\
    (s' mod 64 = 0 \/ c' = 0) /\
    forall i, elem m' i = in_range start (s' - start) i || elem m i.
Proof.
  induction fuel as [|f IH]; intros m start count B Hr Hm Hf; cbn [set_words].
  - destruct (Nat.leb_spec 64 count); [lia|].
    exists m, start, count. rewrite Nat.sub_diag.
    repeat split; try (apply B || lia || assumption).
    all: intros i; rewrite in_range_0; reflexivity.
  - destruct (Nat.leb_spec 64 count) as [L|L].
    + assert (Hk : start / 64 < (n + 63) / 64) by (apply word_in_range; lia).
      rewrite wr_ok by (destruct B as (_ & _ & -> & _); exact Hk). cbn [bind].
      destruct (IH (wr_res m (start / 64) (N.ones 64)) (start + 64) (count - 64))
        as (m' & s' & c' & R & B' & H1 & H2 & H3 & H4 & H5).
      * apply big_wr; [assumption|assumption|apply w64_ones].
      * lia.
      * left. dlia.
      * lia.
      * exists m', s', c'. rewrite R.
        split; [reflexivity|]. split; [assumption|]. split; [lia|]. split; [lia|].
        split; [assumption|]. split; [assumption|].
        intros i. rewrite H5, (elem_wr n) by (assumption || apply w64_ones).
        rewrite bt_ones64.
        rewrite (in_range_split start (s' - start) 64) by lia.
        replace (s' - start - 64) with (s' - (start + 64)) by lia.
        rewrite (in_word start 64) by lia.
        pose proof (Nat.mod_upper_bound i 64 ltac:(lia)).
        destruct (Nat.eqb_spec (i / 64) (start / 64)); simpl.
        -- replace (start mod 64 <=? i mod 64) with true by lia.
           replace (i mod 64 <=? start mod 64 + 64 - 1) with true by lia.
           replace (i mod 64 <? 64) with true by lia.
           simpl. apply orb_true_r.
        -- reflexivity.
    + exists m, start, count. rewrite Nat.sub_diag.
      split; [reflexivity|]. split; [assumption|].
      split; [lia|]. split; [lia|]. split; [lia|]. split; [assumption|].
      intros i. rewrite in_range_0. reflexivity.
Qed.

(* A partial-word clear/set. *)
Lemma part_clear_ok n m start c low high :
  big n m -> 0 < c -> start + c <= n -> start mod 64 + c <= 64 ->
  low = Z.of_nat (start mod 64) -> high = Z.of_nat (start mod 64 + c - 1) ->
  exists w r, rd m (start / 64) = Ok w /\ mask_for_range low high = Ok r /\
    wr m (start / 64) (N.land w (not64 r)) =
      Ok (wr_res m (start / 64) (N.land w (not64 r))) /\
    big n (wr_res m (start / 64) (N.land w (not64 r))) /\
    forall i, elem (wr_res m (start / 64) (N.land w (not64 r))) i =
              negb (in_range start c i) && elem m i.
Proof.
  intros B Hc Hn Hw -> ->.
  assert (Hk : start / 64 < (n + 63) / 64) by (apply word_in_range; lia).
  pose proof B as (B1 & B2 & B3 & B4).
  destruct (mask_for_range_ok (Z.of_nat (start mod 64)) (Z.of_nat (start mod 64 + c - 1)))
    as (r & R & Hr); [lia|lia|].
  exists (nth (start / 64) (mptr m) 0%N), r.
  split; [apply rd_ok; lia|]. split; [assumption|]. split; [apply wr_ok; lia|].
  assert (Hw64 : w64 (N.land (nth (start / 64) (mptr m) 0%N) (not64 r)))
    by (apply w64_land_l, B4).
  split; [now apply big_wr|].
  intros i. rewrite (elem_wr n) by assumption.
  rewrite in_word by assumption.
  pose proof (Nat.mod_upper_bound i 64 ltac:(lia)) as Hi.
  destruct (Nat.eqb_spec (i / 64) (start / 64)) as [E|E]; cbn [andb]; [|reflexivity].
  rewrite bt_land, bt_not64, Hr, (elem_big n) by assumption. rewrite E.
  apply Nat.ltb_lt in Hi. rewrite Hi, xorb_true_r, andb_comm.
  f_equal. f_equal. lia.
Qed.

Lemma part_set_ok n m start c low high :
  big n m -> 0 < c -> start + c <= n -> start mod 64 + c <= 64 ->
  low = Z.of_nat (start mod 64) -> high = Z.of_nat (start mod 64 + c - 1) ->
  exists w r, rd m (start / 64) = Ok w /\ mask_for_range low high = Ok r /\
    wr m (start / 64) (N.lor w r) = Ok (wr_res m (start / 64) (N.lor w r)) /\
    big n (wr_res m (start / 64) (N.lor w r)) /\
    forall i, elem (wr_res m (start / 64) (N.lor w r)) i = in_range start c i || elem m i.
Proof.
  intros B Hc Hn Hw -> ->.
  assert (Hk : start / 64 < (n + 63) / 64) by (apply word_in_range; lia).
  pose proof B as (B1 & B2 & B3 & B4).
  destruct (mask_for_range_ok (Z.of_nat (start mod 64)) (Z.of_nat (start mod 64 + c - 1)))
    as (r & R & Hr); [lia|lia|].
  exists (nth (start / 64) (mptr m) 0%N), r.
  split; [apply rd_ok; lia|]. split; [assumption|]. split; [apply wr_ok; lia|].
  assert (Hw64 : w64 (N.lor (nth (start / 64) (mptr m) 0%N) r)).
  { apply w64_lor; [apply B4|]. intros i Hi. rewrite Hr. lia. }
  split; [now apply big_wr|].
  intros i. rewrite (elem_wr n) by assumption.
  rewrite in_word by assumption.
  destruct (Nat.eqb_spec (i / 64) (start / 64)) as [E|E]; cbn [andb orb]; [|reflexivity].
  rewrite bt_lor, Hr, (elem_big n) by assumption. rewrite E, orb_comm.
  f_equal. lia.
Qed.

Lemma mask_clear_range_ok m s c : wf m -> s + c <= msize m ->
  exists m', mask_clear_range m s c = Ok m' /\ msize m' = msize m /\ wf m' /\
             forall i, elem m' i = negb (in_range s c i) && elem m i.
Proof.
  intros Hw Hr. unfold mask_clear_range.
  destruct (Nat.leb_spec (msize m) 64) as [L|L].
  - destruct (mask_for_range_ok (Z.of_nat s) (Z.of_nat s + Z.of_nat c - 1)) as (r & R & Hb); try lia.
    rewrite R. cbn [bind]. set (m' := wbits m _).
    assert (E : forall i, elem m' i = negb (in_range s c i) && elem m i).
    { intros i. unfold m'. rewrite !elem_small by (simpl; lia). cbn [mbits wbits].
      rewrite bt_land, bt_not64, Hb.
      destruct (Nat.lt_ge_cases i 64) as [H|H].
      - apply Nat.ltb_lt in H. rewrite H, xorb_true_r, andb_comm. f_equal. f_equal.
        unfold in_range. lia.
      - destruct Hw as (Hw & _). specialize (Hw i ltac:(lia)).
        rewrite elem_small in Hw by lia. rewrite Hw. now rewrite andb_false_r. }
    eexists. split; [reflexivity|]. split; [reflexivity|]. split; [|exact E].
    apply small_wf; [simpl; lia|]. intros i Hi. rewrite E.
    destruct Hw as (Hw & _). rewrite Hw by assumption. apply andb_false_r.
  - pose proof (wf_big m Hw L) as B.
    assert (Fin : forall m', big (msize m) m' ->
              (forall i, elem m' i = negb (in_range s c i) && elem m i) ->
              msize m' = msize m /\ wf m' /\
              forall i, elem m' i = negb (in_range s c i) && elem m i).
    { intros m' B' E. split; [apply B'|]. split; [|exact E].
      apply (big_wf (msize m)); [assumption|]. intros i Hi. rewrite E.
      destruct Hw as (Hw & _). rewrite Hw by assumption. apply andb_false_r. }
    (* pre-loop *)
    assert (Pre : exists m1 s1 c1,
      (if (0 <? c) && negb (s mod 64 =? 0) then
         let low := s mod 64 in
         let high := Nat.min (low + c - 1) 63 in
         let nbits := high - low + 1 in
         do! w <- rd m (s / 64);
         do! r <- mask_for_range (Z.of_nat low) (Z.of_nat high);
         do! m1 <- wr m (s / 64) (N.land w (not64 r));
         Ok (m1, s + nbits, c - nbits)
       else Ok (m, s, c)) = Ok (m1, s1, c1) /\
      big (msize m) m1 /\ s1 + c1 = s + c /\ s <= s1 /\ (s1 mod 64 = 0 \/ c1 = 0) /\
      forall i, elem m1 i = negb (in_range s (s1 - s) i) && elem m i).
    { destruct (Nat.ltb_spec 0 c) as [C|C]; cbn [andb].
      2: { exists m, s, c. rewrite Nat.sub_diag.
           split; [reflexivity|]. split; [assumption|]. split; [lia|]. split; [lia|].
           split; [lia|]. intros i. rewrite in_range_0. reflexivity. }
      destruct (Nat.eqb_spec (s mod 64) 0) as [M|M]; cbn [negb].
      { exists m, s, c. rewrite Nat.sub_diag.
        split; [reflexivity|]. split; [assumption|]. split; [lia|]. split; [lia|].
        split; [lia|]. intros i. rewrite in_range_0. reflexivity. }
      pose proof (Nat.mod_upper_bound s 64 ltac:(lia)).
      cbv zeta. set (nb := Nat.min (s mod 64 + c - 1) 63 - s mod 64 + 1).
      destruct (part_clear_ok (msize m) m s nb (Z.of_nat (s mod 64))
                  (Z.of_nat (Nat.min (s mod 64 + c - 1) 63)))
        as (w & r & R1 & R2 & R3 & B1 & E1); try (unfold nb; lia); [assumption|].
      rewrite R1. cbn [bind]. rewrite R2. cbn [bind]. rewrite R3. cbn [bind].
      do 3 eexists. split; [reflexivity|]. split; [exact B1|].
      split; [unfold nb; lia|]. split; [lia|]. split.
      - destruct (Nat.le_gt_cases (s mod 64 + c) 64) as [Q|Q].
        + right. unfold nb. lia.
        + left. replace (s + nb) with (64 * (s / 64 + 1)); [rewrite Nat.mul_comm; apply Nat.mod_mul; lia|].
          unfold nb. dlia.
      - intros i. rewrite E1. repeat f_equal. lia. }
    destruct Pre as (m1 & s1 & c1 & RP & B1 & H1 & H2 & H3 & E1). cbv zeta in RP. rewrite RP. cbn [bind].
    destruct (clear_words_ok (msize m) c1 m1 s1 c1 B1) as (m2 & s2 & c2 & R2 & B2 & H4 & H5 & H6 & H7 & E2);
      [lia|assumption|lia|].
    rewrite R2. cbn [bind].
    destruct (Nat.ltb_spec 0 c2) as [C2|C2].
    + assert (M2 : s2 mod 64 = 0) by lia.
      destruct (part_clear_ok (msize m) m2 s2 c2 0 (Z.of_nat (Nat.min (c2 - 1) 63)))
        as (w & r & R3 & R4 & R5 & B3 & E3); try (rewrite ?M2; lia); [assumption|].
      cbv zeta. rewrite R3. cbn [bind]. rewrite R4. cbn [bind]. rewrite R5.
      eexists. split; [reflexivity|]. apply Fin; [exact B3|].
      intros i. rewrite E3, E2, E1.
      rewrite (in_range_split s c (s1 - s)) by lia.
      replace (s + (s1 - s)) with s1 by lia.
      rewrite (in_range_split s1 (c - (s1 - s)) (s2 - s1)) by lia.
      replace (s1 + (s2 - s1)) with s2 by lia.
      replace (c - (s1 - s) - (s2 - s1)) with c2 by lia.
      rewrite !negb_orb.
      destruct (in_range s (s1 - s) i), (in_range s1 (s2 - s1) i), (in_range s2 c2 i); reflexivity.
    + eexists. split; [reflexivity|]. apply Fin; [exact B2|].
      intros i. rewrite E2, E1.
      rewrite (in_range_split s c (s1 - s)) by lia.
      replace (s + (s1 - s)) with s1 by lia.
      replace (c - (s1 - s)) with (s2 - s1) by lia.
      rewrite !negb_orb.
      destruct (in_range s (s1 - s) i), (in_range s1 (s2 - s1) i); reflexivity.
Qed.

Lemma mask_set_range_ok m s c : wf m -> s + c <= msize m ->
  exists m', mask_set_range m s c = Ok m' /\ msize m' = msize m /\ wf m' /\
             forall i, elem m' i = in_range s c i || elem m i.
Proof.
  intros Hw Hr. unfold mask_set_range.
  destruct (Nat.leb_spec (msize m) 64) as [L|L].
  - destruct (mask_for_range_ok (Z.of_nat s) (Z.of_nat s + Z.of_nat c - 1)) as (r & R & Hb); try lia.
    rewrite R. cbn [bind]. set (m' := wbits m _).
    assert (E : forall i, elem m' i = in_range s c i || elem m i).
    { intros i. unfold m'. rewrite !elem_small by (simpl; lia). cbn [mbits wbits].
      rewrite bt_lor, Hb, orb_comm. f_equal. unfold in_range. lia. }
    eexists. split; [reflexivity|]. split; [reflexivity|]. split; [|exact E].
    apply small_wf; [simpl; lia|]. intros i Hi. simpl in Hi. rewrite E.
    destruct Hw as (Hw & _). rewrite Hw by assumption. unfold in_range. lia.
  - pose proof (wf_big m Hw L) as B.
    assert (Fin : forall m', big (msize m) m' ->
              (forall i, elem m' i = in_range s c i || elem m i) ->
              msize m' = msize m /\ wf m' /\
              forall i, elem m' i = in_range s c i || elem m i).
    { intros m' B' E. split; [apply B'|]. split; [|exact E].
      apply (big_wf (msize m)); [assumption|]. intros i Hi. rewrite E.
      destruct Hw as (Hw & _). rewrite Hw by assumption. unfold in_range. lia. }
    assert (Pre : exists m1 s1 c1,
      (if (0 <? c) && negb (s mod 64 =? 0) then
         let low := s mod 64 in
         let high := Nat.min (low + c - 1) 63 in
         let nbits := high - low + 1 in
         do! w <- rd m (s / 64);
         do! r <- mask_for_range (Z.of_nat low) (Z.of_nat high);
         do! m1 <- wr m (s / 64) (N.lor w r);
         Ok (m1, s + nbits, c - nbits)
       else Ok (m, s, c)) = Ok (m1, s1, c1) /\
      big (msize m) m1 /\ s1 + c1 = s + c /\ s <= s1 /\ (s1 mod 64 = 0 \/ c1 = 0) /\
      forall i, elem m1 i = in_range s (s1 - s) i || elem m i).
    { destruct (Nat.ltb_spec 0 c) as [C|C]; cbn [andb].
      2: { exists m, s, c. rewrite Nat.sub_diag.
           split; [reflexivity|]. split; [assumption|]. split; [lia|]. split; [lia|].
           split; [lia|]. intros i. rewrite in_range_0. reflexivity. }
      destruct (Nat.eqb_spec (s mod 64) 0) as [M|M]; cbn [negb].
      { exists m, s, c. rewrite Nat.sub_diag.
        split; [reflexivity|]. split; [assumption|]. split; [lia|]. split; [lia|].
        split; [lia|]. intros i. rewrite in_range_0. reflexivity. }
      pose proof (Nat.mod_upper_bound s 64 ltac:(lia)).
      cbv zeta. set (nb := Nat.min (s mod 64 + c - 1) 63 - s mod 64 + 1).
      destruct (part_set_ok (msize m) m s nb (Z.of_nat (s mod 64))
                  (Z.of_nat (Nat.min (s mod 64 + c - 1) 63)))
        as (w & r & R1 & R2 & R3 & B1 & E1); try (unfold nb; lia); [assumption|].
      rewrite R1. cbn [bind]. rewrite R2. cbn [bind]. rewrite R3. cbn [bind].
      do 3 eexists. split; [reflexivity|]. split; [exact B1|].
      split; [unfold nb; lia|]. split; [lia|]. split.
      - destruct (Nat.le_gt_cases (s mod 64 + c) 64) as [Q|Q].
        + right. unfold nb. lia.
        + left. replace (s + nb) with (64 * (s / 64 + 1)); [rewrite Nat.mul_comm; apply Nat.mod_mul; lia|].
          unfold nb. dlia.
      - intros i. rewrite E1. repeat f_equal. lia. }
    destruct Pre as (m1 & s1 & c1 & RP & B1 & H1 & H2 & H3 & E1). cbv zeta in RP. rewrite RP. cbn [bind].
    destruct (set_words_ok (msize m) c1 m1 s1 c1 B1) as (m2 & s2 & c2 & R2 & B2 & H4 & H5 & H6 & H7 & E2);
      [lia|assumption|lia|].
    rewrite R2. cbn [bind].
    destruct (Nat.ltb_spec 0 c2) as [C2|C2].
    + assert (M2 : s2 mod 64 = 0) by lia.
      destruct (part_set_ok (msize m) m2 s2 c2 0 (Z.of_nat (Nat.min (c2 - 1) 63)))
        as (w & r & R3 & R4 & R5 & B3 & E3); try (rewrite ?M2; lia); [assumption|].
      cbv zeta. rewrite R3. cbn [bind]. rewrite R4. cbn [bind]. rewrite R5.
      eexists. split; [reflexivity|]. apply Fin; [exact B3|].
      intros i. rewrite E3, E2, E1.
      rewrite (in_range_split s c (s1 - s)) by lia.
      replace (s + (s1 - s)) with s1 by lia.
      rewrite (in_range_split s1 (c - (s1 - s)) (s2 - s1)) by lia.
      replace (s1 + (s2 - s1)) with s2 by lia.
      replace (c - (s1 - s) - (s2 - s1)) with c2 by lia.
      destruct (in_range s (s1 - s) i), (in_range s1 (s2 - s1) i), (in_range s2 c2 i); reflexivity.
    + eexists. split; [reflexivity|]. apply Fin; [exact B2|].
      intros i. rewrite E2, E1.
      rewrite (in_range_split s c (s1 - s)) by lia.
      replace (s + (s1 - s)) with s1 by lia.
      replace (c - (s1 - s)) with (s2 - s1) by lia.
      destruct (in_range s (s1 - s) i), (in_range s1 (s2 - s1) i); reflexivity.
Qed.

(* ---- queries ---- *)

Lemma land_range_test w r lo hi : 
  (forall i, bt r i = ((lo <=? Z.of_nat i) && (Z.of_nat i <=? hi))%Z) ->
  negb (N.eqb (N.land w r) 0) = true <->
  exists i, (lo <= Z.of_nat i <= hi)%Z /\ bt w i = true.
Proof.
  intros Hr. rewrite negb_true_iff, N.eqb_neq, nonzero_iff. split.
  - intros (i & H). rewrite bt_land, Hr in H. exists i. split; [lia|].
    apply andb_prop in H. apply H.
  - intros (i & H & H1). exists i. rewrite bt_land, Hr, H1. lia.
Qed.

Definition range_hit (m : mask) s c := exists i, in_range s c i = true /\ elem m i = true.

Lemma range_hit_0 m s : ~ range_hit m s 0.
Proof. intros (i & H & _). rewrite in_range_0 in H. discriminate. Qed.

Lemma range_hit_split m s c c1 : c1 <= c ->
  range_hit m s c <-> range_hit m s c1 \/ range_hit m (s + c1) (c - c1).
Proof.
  intros H. unfold range_hit. split.
  - intros (i & H1 & H2). rewrite (in_range_split s c c1) in H1 by assumption.
    apply orb_prop in H1. destruct H1; [left|right]; eauto.
  - intros [(i & H1 & H2)|(i & H1 & H2)]; exists i; (split; [|assumption]);
      rewrite (in_range_split s c c1), H1 by assumption; auto using orb_true_r.
Qed.

Lemma part_test_ok n m start c low high :
  big n m -> 0 < c -> start + c <= n -> start mod 64 + c <= 64 ->
  low = Z.of_nat (start mod 64) -> high = Z.of_nat (start mod 64 + c - 1) ->
  exists w r, rd m (start / 64) = Ok w /\ mask_for_range low high = Ok r /\
    (negb (N.eqb (N.land w r) 0) = true <-> range_hit m start c).
Proof.
  intros B Hc Hn Hw -> ->.
  assert (Hk : start / 64 < (n + 63) / 64) by (apply word_in_range; lia).
  pose proof B as (B1 & B2 & B3 & B4).
  destruct (mask_for_range_ok (Z.of_nat (start mod 64)) (Z.of_nat (start mod 64 + c - 1)))
    as (r & R & Hr); [lia|lia|].
  exists (nth (start / 64) (mptr m) 0%N), r.
  split; [apply rd_ok; lia|]. split; [assumption|].
  rewrite (land_range_test _ _ _ _ Hr). unfold range_hit. split.
  - intros (i & Hi & Hb). exists (64 * (start / 64) + i).
    assert (Hi64 : i < 64) by lia.
    assert (Hd : (64 * (start / 64) + i) / 64 = start / 64) by dlia.
    assert (Hm : (64 * (start / 64) + i) mod 64 = i) by dlia.
    split.
    + rewrite in_word, Hd, Hm by assumption. lia.
    + rewrite (elem_big n), Hd, Hm by assumption. exact Hb.
  - intros (i & Hi & Hb). rewrite in_word in Hi by assumption.
    exists (i mod 64). split; [lia|].
    rewrite (elem_big n) in Hb by assumption.
    replace (start / 64) with (i / 64) by lia. exact Hb.
Qed.

Lemma test_words_ok n m : big n m -> forall fuel start count,
  start + count <= n -> (start mod 64 = 0 \/ count = 0) -> count <= fuel ->
  (test_words fuel m start count = Ok (inl tt) /\ range_hit m start count) \/
  (exists s' c', test_words fuel m start count = Ok (inr (s', c')) /\
    s' + c' = start + count /\ start <= s' /\ c' < 64 /\ (s' mod 64 = 0 \/ c' = 0) /\
    ~ range_hit m start (s' - start)).
Proof.
  intros B. induction fuel as [|f IH]; intros start count Hr Hm Hf; cbn [test_words].
  - destruct (Nat.leb_spec 64 count); [lia|]. right.
    exists start, count. rewrite Nat.sub_diag. repeat split; auto; try lia.
    apply range_hit_0.
  - destruct (Nat.leb_spec 64 count) as [L|L].
    2: { right. exists start, count. rewrite Nat.sub_diag. repeat split; auto; try lia.
         apply range_hit_0. }
    destruct (part_test_ok n m start 64 (Z.of_nat (start mod 64)) (Z.of_nat (start mod 64 + 64 - 1)))
      as (w & r & R1 & R2 & T); auto; try lia.
    rewrite R1. cbn [bind].
    assert (Er : N.land w r = w).
    { apply bt_ext. intros i. rewrite bt_land.
      rewrite (mask_for_range_inv _ _ _ R2).
      destruct (Nat.lt_ge_cases i 64).
      - replace (start mod 64) with 0 by lia. 
        replace ((Z.of_nat 0 <=? Z.of_nat i) && (Z.of_nat i <=? Z.of_nat (0 + 64 - 1)))%Z with true by lia.
        apply andb_true_r.
      - pose proof B as (_ & _ & B3 & B4).
        assert (Hk : start / 64 < (n + 63) / 64) by (apply word_in_range; lia).
        rewrite rd_ok in R1 by lia. injection R1 as <-. rewrite (B4 _ i) by assumption.
        reflexivity. }
    rewrite Er in T.
    destruct (negb (w =? 0)%N) eqn:Ew.
    + left. split; [reflexivity|]. apply (range_hit_split m start count 64); [lia|].
      left. now apply T.
    + assert (NH : ~ range_hit m start 64) by (intros H; apply T in H; congruence).
      destruct (IH (start + 64) (count - 64)) as [(R & H)|(s' & c' & R & H1 & H2 & H3 & H4 & H5)].
      * lia.
      * left. dlia.
      * lia.
      * left. split; [exact R|]. apply (range_hit_split m start count 64); [lia|]. now right.
      * right. exists s', c'. split; [exact R|]. split; [lia|]. split; [lia|].
        split; [assumption|]. split; [assumption|].
        rewrite (range_hit_split m start (s' - start) 64) by lia.
        replace (s' - start - 64) with (s' - (start + 64)) by lia. tauto.
Qed.

Lemma mask_test_range_ok m s c : wf m -> s + c <= msize m ->
  exists r, mask_test_range m s c = Ok r /\ (r = true <-> range_hit m s c).
Proof.
  intros Hw Hr. unfold mask_test_range.
  destruct (Nat.leb_spec (msize m) 64) as [L|L].
  - destruct (mask_for_range_ok (Z.of_nat s) (Z.of_nat s + Z.of_nat c - 1)) as (r & R & Hb); try lia.
    rewrite R. cbn [bind]. eexists. split; [reflexivity|].
    rewrite (land_range_test _ _ _ _ Hb). unfold range_hit. split.
    + intros (i & H & H1). exists i. rewrite elem_small by lia. unfold in_range. split; [lia|assumption].
    + intros (i & H & H1). exists i. rewrite elem_small in H1 by lia. unfold in_range in H.
      split; [lia|assumption].
  - pose proof (wf_big m Hw L) as B.
    assert (Rest : forall s1 c1, s1 + c1 <= msize m -> (s1 mod 64 = 0 \/ c1 = 0) ->
      exists r, (do! main <- test_words c1 m s1 c1;
        match main with
        | inl _ => Ok true
        | inr (start, count) =>
          if 0 <? count then
            let high := Nat.min (count - 1) 63 in
            do! w <- rd m (start / 64);
            do! r <- mask_for_range 0 (Z.of_nat high);
            Ok (negb (N.eqb (N.land w r) 0))
          else Ok false
        end) = Ok r /\ (r = true <-> range_hit m s1 c1)).
    { intros s1 c1 Hs1 Hm1.
      destruct (test_words_ok _ m B c1 s1 c1 Hs1 Hm1 (Nat.le_refl _))
        as [(R & H)|(s2 & c2 & R & H1 & H2 & H3 & H4 & H5)]; rewrite R; cbn [bind].
      - exists true. split; [reflexivity|]. tauto.
      - destruct (Nat.ltb_spec 0 c2) as [C2|C2]; cbv zeta.
        + assert (M2 : s2 mod 64 = 0) by lia.
          destruct (part_test_ok (msize m) m s2 c2 0 (Z.of_nat (Nat.min (c2 - 1) 63)))
            as (w & r & R3 & R4 & T); try (rewrite ?M2; lia); [assumption|].
          rewrite R3. cbn [bind]. rewrite R4. cbn [bind].
          eexists. split; [reflexivity|]. rewrite T.
          rewrite (range_hit_split m s1 c1 (s2 - s1)) by lia.
          replace (s1 + (s2 - s1)) with s2 by lia.
          replace (c1 - (s2 - s1)) with c2 by lia. tauto.
        + exists false. split; [reflexivity|]. split; [discriminate|].
          intros H. exfalso. apply H5. replace (s2 - s1) with c1 by lia. exact H. }
    destruct (Nat.ltb_spec 0 c) as [C|C]; cbn [andb].
    2: { cbn [bind]. apply (Rest s c); lia. }
    destruct (Nat.eqb_spec (s mod 64) 0) as [M|M]; cbn [negb].
    { cbn [bind]. apply (Rest s c); lia. }
    pose proof (Nat.mod_upper_bound s 64 ltac:(lia)).
    set (nb := Nat.min (s mod 64 + c - 1) 63 - s mod 64 + 1).
    destruct (part_test_ok (msize m) m s nb (Z.of_nat (s mod 64))
                (Z.of_nat (Nat.min (s mod 64 + c - 1) 63)))
      as (w & r & R1 & R2 & T); try (unfold nb; lia); [assumption|].
    rewrite R1. cbn [bind]. rewrite R2. cbn [bind].
    destruct (negb (N.land w r =? 0)%N) eqn:Ew; cbn [bind].
    + exists true. split; [reflexivity|]. split; [|reflexivity]. intros _.
      apply (range_hit_split m s c nb); [unfold nb; lia|]. left. now apply T.
    + destruct (Rest (s + nb) (c - nb)) as (r' & R' & T').
      * unfold nb; lia.
      * destruct (Nat.le_gt_cases (s mod 64 + c) 64) as [Q|Q].
        -- right. unfold nb. lia.
        -- left. replace (s + nb) with (64 * (s / 64 + 1)); [rewrite Nat.mul_comm; apply Nat.mod_mul; lia|].
           unfold nb. dlia.
      * exists r'. split; [exact R'|]. rewrite T'.
        rewrite (range_hit_split m s c nb) by (unfold nb; lia).
        assert (~ range_hit m s nb) by (intros X; apply T in X; congruence). tauto.
Qed.

(* ---- population count ---- *)

Lemma filter_seq_shift (f g : nat -> bool) k n :
  (forall i, i < n -> f (k + i) = g i) ->
  length (filter f (seq k n)) = length (filter g (seq 0 n)).
Proof.
  intros H. replace (seq k n) with (map (fun i => k + i) (seq 0 n)).
  - assert (G : forall l, (forall i, In i l -> f (k + i) = g i) ->
               length (filter f (map (fun i => k + i) l)) = length (filter g l)).
    { induction l as [|a l IH]; intros Hl; simpl; [reflexivity|].
      rewrite (Hl a) by (left; reflexivity).
      destruct (g a); simpl; rewrite IH by (intros; apply Hl; right; assumption); reflexivity. }
    apply G. intros i Hi. apply in_seq in Hi. apply H. lia.
  - clear H. revert k. induction n as [|n IH]; intros k; simpl; [reflexivity|].
    rewrite Nat.add_0_r. f_equal. rewrite <- seq_shift, map_map.
    rewrite <- (IH (S k)). apply map_ext. intros a. lia.
Qed.

Lemma filter_all_false (f : nat -> bool) l :
  (forall i, In i l -> f i = false) -> filter f l = [].
Proof.
  induction l as [|a l IH]; intros H; simpl; [reflexivity|].
  rewrite (H a) by (left; reflexivity). apply IH. intros. apply H. now right.
Qed.

Lemma filter_seq_trunc (f : nat -> bool) n m :
  n <= m -> (forall i, n <= i -> f i = false) ->
  length (filter f (seq 0 m)) = length (filter f (seq 0 n)).
Proof.
  intros H Hf. replace m with (n + (m - n)) by lia.
  rewrite seq_app, filter_app, app_length.
  rewrite (filter_all_false f (seq (0 + n) (m - n))); [simpl; lia|].
  intros i Hi. apply in_seq in Hi. apply Hf. lia.
Qed.

Lemma popcount_loop_ok n m : big n m -> forall k i sum,
  i + k = (n + 63) / 64 ->
  popcount_loop k m i sum = Ok (sum + length (filter (elem m) (seq (64 * i) (64 * k)))).
Proof.
  intros B. induction k as [|k IH]; intros i sum Hik; cbn [popcount_loop].
  - rewrite Nat.mul_0_r. simpl. f_equal. lia.
  - rewrite rd_ok by (destruct B as (_ & _ & -> & _); lia). cbn [bind].
    rewrite IH by lia. f_equal.
    replace (64 * S k) with (64 + 64 * k) by lia.
    rewrite seq_app, filter_app, app_length.
    replace (64 * i + 64) with (64 * S i) by lia.
    unfold popcountll.
    rewrite (filter_seq_shift (elem m) (fun j => N.testbit (nth i (mptr m) 0%N) (N.of_nat j)) (64 * i) 64).
    + lia.
    + intros j Hj. rewrite (elem_big n) by assumption.
      replace ((64 * i + j) / 64) with i by dlia.
      replace ((64 * i + j) mod 64) with j by dlia. reflexivity.
Qed.

Lemma mask_popcount_ok m : wf m ->
  mask_popcount m = Ok (length (filter (elem m) (seq 0 (msize m)))).
Proof.
  intros Hw. unfold mask_popcount. pose proof Hw as (Hz & _).
  destruct (Nat.ltb_spec 64 (msize m)) as [L|L].
  - pose proof (wf_big m Hw L) as B.
    rewrite (popcount_loop_ok (msize m)) by (assumption || reflexivity).
    rewrite Nat.mul_0_r. cbn [Nat.add]. f_equal. apply filter_seq_trunc; [dlia|assumption].
  - f_equal. unfold popcountll.
    rewrite <- (filter_seq_trunc (elem m) (msize m) 64) by assumption.
    apply filter_seq_shift. intros i Hi. rewrite elem_small by lia. reflexivity.
Qed.

(* ---- scan backwards ---- *)

Lemma Nat_lor_63 b : Nat.lor b 63 = 64 * (b / 64) + 63.
Proof.
  apply Nat.bits_inj. intros n. rewrite Nat.lor_spec.
  change 64 with (2 ^ 6). change 63 with (Nat.ones 6).
  destruct (Nat.lt_ge_cases n 6) as [H|H].
  - rewrite (Nat.ones_spec_low 6 n) by assumption. rewrite orb_true_r. symmetry.
    rewrite <- (Nat.mod_pow2_bits_low _ 6) by assumption.
    replace ((2 ^ 6 * (b / 2 ^ 6) + Nat.ones 6) mod 2 ^ 6) with (Nat.ones 6).
    + now apply Nat.ones_spec_low.
    + rewrite Nat.add_comm, Nat.mul_comm, Nat.mod_add; [reflexivity|discriminate].
  - rewrite (Nat.ones_spec_high 6 n) by assumption. rewrite orb_false_r.
    replace n with ((n - 6) + 6) by lia.
    rewrite <- !Nat.div_pow2_bits. f_equal.
    rewrite (Nat.mul_comm (2 ^ 6)), Nat.div_add_l by discriminate.
    change (Nat.ones 6 / 2 ^ 6) with 0. lia.
Qed.

Lemma Z_lor_63 k : Z.lor (64 * Z.of_nat k + 63) 63 = (64 * Z.of_nat k + 63)%Z.
Proof.
  apply Z.bits_inj'. intros n Hn. rewrite Z.lor_spec.
  change 64%Z with (2 ^ 6)%Z. change 63%Z with (Z.ones 6).
  destruct (Z.lt_ge_cases n 6) as [H|H].
  - rewrite (Z.ones_spec_low 6 n) by lia. rewrite orb_true_r. symmetry.
    rewrite <- (Z.mod_pow2_bits_low _ 6) by lia.
    replace ((2 ^ 6 * Z.of_nat k + Z.ones 6) mod 2 ^ 6)%Z with (Z.ones 6).
    + apply Z.ones_spec_low. lia.
    + rewrite Z.add_comm, Z.mul_comm, Z.mod_add; [reflexivity|discriminate].
  - rewrite (Z.ones_spec_high 6 n) by lia. apply orb_false_r.
Qed.

Definition scan_res (m : mask) (b : nat) (z : Z) : Prop :=
  (z = (-1)%Z /\ forall i, i <= b -> elem m i = false) \/
  (exists i, z = Z.of_nat i /\ i <= b /\ elem m i = true /\
             forall j, i < j <= b -> elem m j = false).

Lemma scan_loop_ok n m : big n m -> forall k fuel,
  64 * k <= n -> k <= fuel ->
  exists z, scan_loop fuel m (64 * Z.of_nat k - 1) = Ok z /\
    ((z = (-1)%Z /\ forall i, i < 64 * k -> elem m i = false) \/
     (exists q, z = (64 * Z.of_nat q + 63)%Z /\ q < k /\
                nth q (mptr m) 0%N <> 0%N /\
                forall i, 64 * S q <= i < 64 * k -> elem m i = false)).
Proof.
  intros B. induction k as [|k IH]; intros fuel Hk Hf.
  - exists (-1)%Z. split; [|left; split; [reflexivity|lia]].
    destruct fuel; cbn [scan_loop]; reflexivity.
  - destruct fuel as [|f]; [lia|]. cbn [scan_loop].
    destruct (Z.ltb_spec 0 (64 * Z.of_nat (S k) - 1)); [|lia].
    assert (Eq : Z.to_nat (64 * Z.of_nat (S k) - 1) / 64 = k).
    { replace (Z.to_nat (64 * Z.of_nat (S k) - 1)) with (64 * k + 63) by lia. dlia. }
    rewrite Eq. rewrite rd_ok by (destruct B as (_ & _ & -> & _); dlia). cbn [bind].
    destruct (N.eqb_spec (nth k (mptr m) 0%N) 0) as [E|E].
    + replace (64 * Z.of_nat (S k) - 1 - 64)%Z with (64 * Z.of_nat k - 1)%Z by lia.
      assert (Z : forall i, 64 * k <= i < 64 * S k -> elem m i = false).
      { intros i Hi. rewrite (elem_big n) by assumption.
        replace (i / 64) with k by dlia. rewrite E. apply bt_0. }
      destruct (IH f) as (z & R & [(-> & H1)|(q & -> & H1 & H2 & H3)]); [lia|lia| |].
      * exists (-1)%Z. split; [exact R|]. left. split; [reflexivity|].
        intros i Hi. destruct (Nat.lt_ge_cases i (64 * k)); [now apply H1|apply Z; lia].
      * eexists. split; [exact R|]. right. exists q. repeat split; auto.
        intros i Hi. destruct (Nat.lt_ge_cases i (64 * k)); [apply H3; lia|apply Z; lia].
    + eexists. split; [reflexivity|]. right. exists k. repeat split; auto; lia.
Qed.

Lemma mask_scan_backwards_ok m b : wf m -> b < msize m ->
  exists z, mask_scan_backwards m b = Ok z /\ scan_res m b z.
Proof.
  intros Hw Hb. unfold mask_scan_backwards. pose proof Hw as (Hz & _).
  destruct (Nat.leb_spec (msize m) 64) as [L|L].
  - destruct (mask_for_range_ok 0 (Z.of_nat b)) as (r & R & Hr); try lia.
    rewrite R. cbn [bind].
    assert (Hw64 : w64 (mbits m)).
    { intros i Hi. rewrite <- elem_small by lia. apply Hz. lia. }
    destruct (N.eqb_spec (N.land (mbits m) r) 0) as [E|E].
    + eexists. split; [reflexivity|]. left. split; [reflexivity|].
      intros i Hi. rewrite zero_iff in E. specialize (E i). rewrite bt_land, Hr in E.
      rewrite elem_small by lia. lia.
    + destruct (clzll_spec (N.land (mbits m) r)) as (c & i & R1 & Hc & Hi & H1 & H2);
        [now apply w64_land_l|assumption|].
      rewrite R1. cbn [bind]. eexists. split; [reflexivity|]. right. exists i.
      rewrite bt_land, Hr in H1.
      split; [lia|]. split; [lia|]. rewrite elem_small by lia. split; [lia|].
      intros j Hj. specialize (H2 j ltac:(lia)). rewrite bt_land, Hr in H2.
      rewrite elem_small by lia. lia.
  - pose proof (wf_big m Hw L) as B. pose proof B as (B1 & B2 & B3 & B4).
    pose proof (word_in_range _ _ Hb) as Hk.
    pose proof (Nat.mod_upper_bound b 64 ltac:(lia)) as Hm64.
    rewrite rd_ok by lia. cbn [bind].
    destruct (mask_for_range_ok 0 (Z.of_nat (b mod 64))) as (r & R & Hr); try lia.
    rewrite R. cbn [bind]. set (w := nth (b / 64) (mptr m) 0%N) in *.
    assert (Hel : forall i, i < 64 -> elem m (64 * (b / 64) + i) = bt w i).
    { intros i Hi. rewrite (elem_big (msize m)) by assumption.
      replace ((64 * (b / 64) + i) / 64) with (b / 64) by dlia.
      replace ((64 * (b / 64) + i) mod 64) with i by dlia. reflexivity. }
    destruct (N.eqb_spec (N.land w r) 0) as [E|E]; cbn [negb].
    + assert (Z0 : forall i, 64 * (b / 64) <= i <= b -> elem m i = false).
      { intros i Hi. replace i with (64 * (b / 64) + (i - 64 * (b / 64))) by lia.
        rewrite zero_iff in E. specialize (E (i - 64 * (b / 64))).
        rewrite bt_land, Hr in E. rewrite Hel by dlia.
        apply andb_false_iff in E. destruct E as [E|E]; [exact E|]. exfalso. dlia. }
      replace (Z.of_nat b - (Z.of_nat (b mod 64) + 1))%Z
        with (64 * Z.of_nat (b / 64) - 1)%Z by dlia.
      destruct (scan_loop_ok (msize m) m B (b / 64) (S b))
        as (z & Rz & [(-> & H1)|(q & -> & H1 & H2 & H3)]); [dlia|dlia| |]; rewrite Rz; cbn [bind].
      * eexists. split; [reflexivity|]. left. split; [reflexivity|].
        intros i Hi. destruct (Nat.lt_ge_cases i (64 * (b / 64))); [now apply H1|apply Z0; lia].
      * destruct (Z.ltb_spec 0 (64 * Z.of_nat q + 63)); [|lia].
        replace (Z.to_nat (64 * Z.of_nat q + 63)) with (64 * q + 63) by lia.
        replace ((64 * q + 63) / 64) with q by dlia.
        rewrite rd_ok by lia. cbn [bind].
        destruct (clzll_spec (nth q (mptr m) 0%N)) as (c & i & R1 & Hc & Hi & H4 & H5);
          [apply B4|assumption|].
        rewrite R1. cbn [bind]. rewrite Z_lor_63.
        eexists. split; [reflexivity|]. right. exists (64 * q + i).
        split; [lia|]. split; [dlia|].
        assert (Hq : forall i, i < 64 -> elem m (64 * q + i) = bt (nth q (mptr m) 0%N) i).
        { intros i' Hi'. rewrite (elem_big (msize m)) by assumption.
          replace ((64 * q + i') / 64) with q by dlia.
          replace ((64 * q + i') mod 64) with i' by dlia. reflexivity. }
        split; [rewrite Hq by lia; exact H4|].
        intros j Hj. destruct (Nat.lt_ge_cases j (64 * S q)).
        -- replace j with (64 * q + (j - 64 * q)) by lia. rewrite Hq by lia.
           apply H5. lia.
        -- destruct (Nat.lt_ge_cases j (64 * (b / 64))); [apply H3; lia|apply Z0; lia].
    + destruct (clzll_spec (N.land w r)) as (c & i & R1 & Hc & Hi & H1 & H2);
        [apply w64_land_l, B4|assumption|].
      rewrite R1. cbn [bind]. rewrite Nat_lor_63.
      eexists. split; [reflexivity|]. right. exists (64 * (b / 64) + i).
      rewrite bt_land, Hr in H1.
      split; [lia|]. split; [dlia|]. split; [rewrite Hel by lia; lia|].
      intros j Hj. replace j with (64 * (b / 64) + (j - 64 * (b / 64))) by lia.
      rewrite Hel by dlia.
      specialize (H2 (j - 64 * (b / 64)) ltac:(lia)). rewrite bt_land, Hr in H2.
      apply andb_false_iff in H2. destruct H2 as [H2|H2]; [exact H2|]. exfalso. dlia.
Qed.

(* ---- count clear ---- *)

Definition run_res (m : mask) (b n : nat) : Prop :=
  b + n <= msize m /\ (forall i, b <= i < b + n -> elem m i = false) /\
  (b + n < msize m -> elem m (b + n) = true).

Lemma count_loop_ok n m : big n m -> forall fuel b c,
  b < n -> b mod 64 = 0 -> n <= b + 64 * S fuel ->
  exists b', count_loop fuel m b c = Ok (b', c + (b' - b)) /\
    b <= b' < n /\ b' mod 64 = 0 /\ (forall i, b <= i < b' -> elem m i = false) /\
    (b' + 64 < n -> nth (b' / 64) (mptr m) 0%N <> 0%N).
Proof.
  intros B. pose proof B as (B1 & _ & B3 & _).
  induction fuel as [|f IH]; intros b c Hb Hm Hf; cbn [count_loop]; rewrite B1.
  - destruct (Nat.ltb_spec (b + 64) n); [lia|].
    exists b. rewrite Nat.sub_diag, Nat.add_0_r. repeat split; auto; lia.
  - destruct (Nat.ltb_spec (b + 64) n) as [L|L].
    2: { exists b. rewrite Nat.sub_diag, Nat.add_0_r. repeat split; auto; lia. }
    rewrite rd_ok by (rewrite B3; apply word_in_range; lia). cbn [bind].
    destruct (N.eqb_spec (nth (b / 64) (mptr m) 0%N) 0) as [E|E].
    + destruct (IH (b + 64) (c + 64)) as (b' & R & H1 & H2 & H3 & H4); [lia|dlia|lia|].
      exists b'. split; [rewrite R; f_equal; f_equal; lia|]. split; [lia|]. split; [assumption|].
      split; [|assumption].
      intros i Hi. destruct (Nat.lt_ge_cases i (b + 64)); [|apply H3; lia].
      rewrite (elem_big n) by assumption. replace (i / 64) with (b / 64) by dlia.
      rewrite E. apply bt_0.
    + exists b. rewrite Nat.sub_diag, Nat.add_0_r. repeat split; auto; lia.
Qed.

Lemma mask_count_clear_ok m b : wf m -> b < msize m ->
  exists n, mask_count_clear m b = Ok n /\ run_res m b n.
Proof.
  intros Hw Hb. unfold mask_count_clear. pose proof Hw as (Hz & _).
  apply Nat.ltb_lt in Hb as Hb'. rewrite Hb'. cbn [negb].
  destruct (Nat.leb_spec (msize m) 64) as [L|L].
  - destruct (mask_for_range_ok (Z.of_nat b) 63) as (r & R & Hr); try lia.
    rewrite R. cbn [bind]. eexists. split; [reflexivity|].
    assert (Hw64 : w64 (mbits m)).
    { intros i Hi. rewrite <- elem_small by lia. apply Hz. lia. }
    pose proof (ffsll_spec (N.land (mbits m) r) (w64_land_l _ _ Hw64)) as F.
    destruct (ffsll (N.land (mbits m) r)) as [|i]; cbn [Nat.ltb Nat.leb].
    + split; [lia|]. split; [|lia].
      intros i Hi. specialize (F i). rewrite bt_land, Hr in F.
      rewrite elem_small by lia. lia.
    + destruct F as (F1 & F2 & F3). rewrite bt_land, Hr in F2.
      assert (i < msize m).
      { destruct (Nat.lt_ge_cases i (msize m)); [assumption|].
        specialize (Hz i ltac:(assumption)). rewrite elem_small in Hz by lia.
        rewrite Hz in F2. discriminate. }
      replace (S i - 1 - b) with (i - b) by lia. split; [lia|]. split.
      * intros j Hj. specialize (F3 j ltac:(lia)). rewrite bt_land, Hr in F3.
        rewrite elem_small by lia. lia.
      * intros _. replace (b + (i - b)) with i by lia. rewrite elem_small by lia. lia.
  - pose proof (wf_big m Hw L) as B. pose proof B as (B1 & B2 & B3 & B4).
    pose proof (word_in_range _ _ Hb) as Hk.
    pose proof (Nat.mod_upper_bound b 64 ltac:(lia)) as Hm64.
    set (maxb := Nat.min 64 (msize m - 64 * (b / 64))). cbv zeta.
    (* the aligned part *)
    assert (Rest : forall b1, b1 mod 64 = 0 -> b <= b1 < msize m ->
      (forall i, b <= i < b1 -> elem m i = false) ->
      exists n, (do! (bit, count) <- count_loop (msize m) m b1 (b1 - b);
         do! w <- rd m (bit / 64);
         Ok (if 0 <? ffsll w then count + ffsll w - 1 else count + msize m - bit)) = Ok n /\
        run_res m b n).
    { intros b1 M1 H1 Z1.
      destruct (count_loop_ok (msize m) m B (msize m) b1 (b1 - b))
        as (b2 & R & H2 & M2 & Z2 & NZ); [lia|assumption|lia|].
      rewrite R. cbn [bind].
      rewrite rd_ok by (rewrite B3; apply word_in_range; lia). cbn [bind].
      eexists. split; [reflexivity|].
      assert (Hel : forall i, i < 64 -> elem m (b2 + i) = bt (nth (b2 / 64) (mptr m) 0%N) i).
      { intros i Hi. rewrite (elem_big (msize m)) by assumption.
        replace ((b2 + i) / 64) with (b2 / 64) by dlia.
        replace ((b2 + i) mod 64) with i by dlia. reflexivity. }
      assert (Z3 : forall i, b <= i < b2 -> elem m i = false).
      { intros i Hi. destruct (Nat.lt_ge_cases i b1); [apply Z1; lia|apply Z2; lia]. }
      pose proof (ffsll_spec _ (B4 (b2 / 64))) as F.
      destruct (ffsll (nth (b2 / 64) (mptr m) 0%N)) as [|i]; cbn [Nat.ltb Nat.leb].
      - assert (b2 + 64 >= msize m).
        { destruct (Nat.lt_ge_cases (b2 + 64) (msize m)) as [Q|Q]; [|lia].
          apply NZ in Q. exfalso. apply Q. now apply zero_iff. }
        split; [lia|]. split; [|lia].
        intros i Hi. destruct (Nat.lt_ge_cases i b2); [apply Z3; lia|].
        replace i with (b2 + (i - b2)) by lia. rewrite Hel by lia. apply F.
      - destruct F as (F1 & F2 & F3).
        assert (b2 + i < msize m).
        { destruct (Nat.lt_ge_cases (b2 + i) (msize m)); [assumption|].
          specialize (Hz (b2 + i) ltac:(assumption)). rewrite Hel in Hz by lia. congruence. }
        replace (b1 - b + (b2 - b1) + S i - 1) with (b2 - b + i) by lia.
        split; [lia|]. split.
        + intros j Hj. destruct (Nat.lt_ge_cases j b2); [apply Z3; lia|].
          replace j with (b2 + (j - b2)) by lia. rewrite Hel by lia. apply F3. lia.
        + intros _. replace (b + (b2 - b + i)) with (b2 + i) by lia. now rewrite Hel by lia. }
    destruct (Nat.ltb_spec 0 (b mod 64)) as [M|M].
    + assert (Hel : forall i, i < 64 -> elem m (64 * (b / 64) + i) = bt (nth (b / 64) (mptr m) 0%N) i).
      { intros i Hi. rewrite (elem_big (msize m)) by assumption.
        replace ((64 * (b / 64) + i) / 64) with (b / 64) by dlia.
        replace ((64 * (b / 64) + i) mod 64) with i by dlia. reflexivity. }
      assert (Hmax : b mod 64 < maxb <= 64) by (unfold maxb; dlia).
      rewrite rd_ok by lia. cbn [bind].
      destruct (mask_for_range_ok (Z.of_nat (b mod 64)) (Z.of_nat maxb - 1)) as (r & R & Hr); try lia.
      rewrite R. cbn [bind].
      pose proof (ffsll_spec (N.land (nth (b / 64) (mptr m) 0%N) r) (w64_land_l _ _ (B4 _))) as F.
      destruct (ffsll (N.land (nth (b / 64) (mptr m) 0%N) r)) as [|i]; cbn [Nat.ltb Nat.leb bind].
      * assert (Z0 : forall i, b <= i < 64 * (b / 64) + maxb -> elem m i = false).
        { intros i Hi. replace i with (64 * (b / 64) + (i - 64 * (b / 64))) by dlia.
          rewrite Hel by dlia. specialize (F (i - 64 * (b / 64))).
          rewrite bt_land, Hr in F. apply andb_false_iff in F.
          destruct F as [F|F]; [exact F|]. exfalso. dlia. }
        replace (b + maxb - b mod 64) with (64 * (b / 64) + maxb) by dlia.
        destruct (Nat.eqb_spec (64 * (b / 64) + maxb) (msize m)) as [E|E].
        -- eexists. split; [reflexivity|]. split; [dlia|]. split.
           ++ intros i Hi. apply Z0. dlia.
           ++ intros H. exfalso. dlia.
        -- assert (maxb = 64) by (unfold maxb in *; dlia).
           assert (Hmm : (64 * (b / 64) + maxb) mod 64 = 0) by dlia.
           rewrite Hmm. cbn [Nat.eqb negb].
           replace (maxb - b mod 64) with (64 * (b / 64) + maxb - b) by dlia.
           apply Rest; [assumption|unfold maxb in *; dlia|assumption].
      * destruct F as (F1 & F2 & F3). rewrite bt_land, Hr in F2.
        assert (64 * (b / 64) + i < msize m).
        { unfold maxb in *. lia. }
        eexists. split; [reflexivity|].
        replace (S i - 1 - b mod 64) with (i - b mod 64) by lia.
        assert (b mod 64 <= i) by lia.
        split; [dlia|]. split.
        -- intros j Hj. replace j with (64 * (b / 64) + (j - 64 * (b / 64))) by dlia.
           rewrite Hel by dlia. specialize (F3 (j - 64 * (b / 64)) ltac:(dlia)).
           rewrite bt_land, Hr in F3. apply andb_false_iff in F3.
           destruct F3 as [F3|F3]; [exact F3|]. exfalso. dlia.
        -- intros _. replace (b + (i - b mod 64)) with (64 * (b / 64) + i) by dlia.
           rewrite Hel by lia. lia.
    + cbn [bind]. destruct (Nat.eqb_spec b (msize m)); [lia|].
      assert (Hmm : b mod 64 = 0) by lia. rewrite Hmm. cbn [Nat.eqb negb].
      specialize (Rest b Hmm ltac:(lia) ltac:(intros; lia)).
      rewrite Nat.sub_diag in Rest. exact Rest.
Qed.

(* ---- word-wise operations ---- *)

Lemma words_loop_ok n f m2 :
  big n m2 ->
  (forall a b, w64 a -> w64 b -> w64 (f a b)) ->
  forall k i m,
  big n m -> i + k = (n + 63) / 64 ->
  exists m', words_loop k f m m2 i = Ok m' /\ big n m' /\
    forall j, elem m' j =
      if (i <=? j / 64) && (j / 64 <? i + k)
      then bt (f (nth (j / 64) (mptr m) 0%N) (nth (j / 64) (mptr m2) 0%N)) (j mod 64)
      else elem m j.
Proof.
  intros B2 Hf. induction k as [|k IH]; intros i m B Hik; cbn [words_loop].
  - exists m. split; [reflexivity|]. split; [assumption|].
    intros j. replace ((i <=? j / 64) && (j / 64 <? i + 0)) with false by lia. reflexivity.
  - pose proof B as (B1' & B2' & B3' & B4'). pose proof B2 as (C1 & C2 & C3 & C4).
    rewrite !rd_ok by lia. cbn [bind]. rewrite wr_ok by lia. cbn [bind].
    set (w := f _ _).
    assert (Hw : w64 w) by (apply Hf; auto).
    destruct (IH (S i) (wr_res m i w)) as (m' & R & B' & E).
    + apply big_wr; [assumption|lia|assumption].
    + lia.
    + exists m'. split; [exact R|]. split; [assumption|].
      intros j. rewrite E. rewrite (elem_wr n) by (assumption || lia).
      simpl mptr. rewrite list_set_nth by lia.
      destruct (Nat.eqb_spec (j / 64) i) as [->|Ne].
      * replace ((S i <=? i) && (i <? S i + k)) with false by lia.
        replace ((i <=? i) && (i <? i + S k)) with true by lia. reflexivity.
      * replace ((i <=? j / 64) && (j / 64 <? i + S k))
          with ((S i <=? j / 64) && (j / 64 <? S i + k)) by lia. reflexivity.
Qed.

Lemma mask_words_op_ok f g m m2 :
  wf m -> wf m2 -> msize m = msize m2 ->
  (forall a b, w64 a -> w64 b -> w64 (f a b)) ->
  (forall a b i, i < 64 -> bt (f a b) i = g (bt a i) (bt b i)) ->
  g false false = false ->
  exists m', mask_words_op f m m2 = Ok m' /\ msize m' = msize m /\ wf m' /\
             forall i, i < msize m -> elem m' i = g (elem m i) (elem m2 i).
Proof.
  intros W1 W2 Hs Hf Hg Hg0. unfold mask_words_op.
  rewrite Hs, Nat.eqb_refl, <- Hs. cbn [negb].
  destruct (Nat.ltb_spec 64 (msize m)) as [L|L].
  - pose proof (wf_big m W1 L) as B1.
    assert (B2 : big (msize m) m2) by (rewrite Hs; apply wf_big; [assumption|lia]).
    destruct (words_loop_ok (msize m) f m2 B2 Hf ((msize m + 63) / 64) 0 m B1 eq_refl)
      as (m' & R & B' & E).
    assert (E' : forall i, i < 64 * ((msize m + 63) / 64) -> elem m' i = g (elem m i) (elem m2 i)).
    { intros i Hi. rewrite E.
      replace ((0 <=? i / 64) && (i / 64 <? 0 + (msize m + 63) / 64)) with true.
      - rewrite Hg by (apply Nat.mod_upper_bound; lia).
        rewrite !(elem_big (msize m)) by assumption. reflexivity.
      - assert (i / 64 < (msize m + 63) / 64) by (apply Nat.div_lt_upper_bound; lia). lia. }
    exists m'. split; [exact R|]. split; [apply B'|]. split.
    + apply (big_wf (msize m)); [assumption|]. intros i Hi.
      destruct (Nat.lt_ge_cases i (64 * ((msize m + 63) / 64))) as [Q|Q].
      * rewrite E' by assumption. destruct W1 as (W1 & _). destruct W2 as (W2 & _).
        rewrite W1, W2 by lia. exact Hg0.
      * rewrite (elem_big (msize m)) by assumption.
        rewrite nth_overflow; [apply bt_0|]. destruct B' as (_ & _ & -> & _).
        apply Nat.div_le_lower_bound; lia.
    + intros i Hi. apply E'. dlia.
  - eexists. split; [reflexivity|]. split; [reflexivity|].
    pose proof W1 as (Z1 & _). pose proof W2 as (Z2 & _).
    assert (Q1 : w64 (mbits m)) by (intros i Hi; rewrite <- elem_small by lia; apply Z1; lia).
    assert (Q2 : w64 (mbits m2)) by (intros i Hi; rewrite <- elem_small by lia; apply Z2; lia).
    assert (E : forall i, i < 64 -> elem (wbits m (f (mbits m) (mbits m2))) i = g (elem m i) (elem m2 i)).
    { intros i Hi. rewrite !elem_small by (simpl; lia). cbn [mbits wbits]. now apply Hg. }
    split.
    + apply small_wf; [simpl; lia|]. intros i Hi. simpl in Hi.
      destruct (Nat.lt_ge_cases i 64).
      * rewrite E by assumption. rewrite Z1, Z2 by lia. exact Hg0.
      * rewrite elem_small by (simpl; lia). cbn [mbits wbits]. now apply Hf.
    + intros i Hi. apply E. lia.
Qed.

Lemma eq_loop_ok n m1 m2 : big n m1 -> big n m2 -> forall k i,
  i + k = (n + 63) / 64 ->
  exists r, eq_loop k m1 m2 i = Ok r /\
    (r = true <-> forall q, i <= q < i + k -> nth q (mptr m1) 0%N = nth q (mptr m2) 0%N).
Proof.
  intros B1 B2. induction k as [|k IH]; intros i Hik; cbn [eq_loop].
  - exists true. split; [reflexivity|]. split; [intros; lia|reflexivity].
  - rewrite !rd_ok by (destruct B1 as (_ & _ & -> & _) || destruct B2 as (_ & _ & -> & _); lia).
    cbn [bind].
    destruct (N.eqb_spec (nth i (mptr m1) 0%N) (nth i (mptr m2) 0%N)) as [E|E]; cbn [negb].
    + destruct (IH (S i)) as (r & R & H); [lia|]. exists r. split; [exact R|]. rewrite H. split.
      * intros Hq q Hr. destruct (Nat.eq_dec q i) as [->|]; [exact E|apply Hq; lia].
      * intros Hq q Hr. apply Hq. lia.
    + exists false. split; [reflexivity|]. split; [discriminate|].
      intros H. exfalso. apply E. apply H. lia.
Qed.

Lemma mask_eq_ok m m2 : wf m -> wf m2 -> msize m = msize m2 ->
  exists r, mask_eq m m2 = Ok r /\
    (r = true <-> forall i, i < msize m -> elem m i = elem m2 i).
Proof.
  intros W1 W2 Hs. unfold mask_eq. rewrite Hs, Nat.eqb_refl, <- Hs. cbn [negb].
  pose proof W1 as (Z1 & _). pose proof W2 as (Z2 & _).
  destruct (Nat.ltb_spec 64 (msize m)) as [L|L].
  - pose proof (wf_big m W1 L) as B1.
    assert (B2 : big (msize m) m2) by (rewrite Hs; apply wf_big; [assumption|lia]).
    destruct (eq_loop_ok (msize m) m m2 B1 B2 ((msize m + 63) / 64) 0 eq_refl) as (r & R & H).
    exists r. split; [exact R|]. rewrite H. split.
    + intros Hq i Hi. rewrite !(elem_big (msize m)) by assumption. rewrite Hq; [reflexivity|].
      pose proof (word_in_range _ _ Hi). lia.
    + intros He q Hq. apply bt_ext. intros i.
      destruct (Nat.lt_ge_cases i 64) as [Hi|Hi].
      * assert (E : elem m (64 * q + i) = elem m2 (64 * q + i)).
        { destruct (Nat.lt_ge_cases (64 * q + i) (msize m)); [now apply He|].
          rewrite Z1, Z2 by lia. reflexivity. }
        rewrite !(elem_big (msize m)) in E by assumption.
        replace ((64 * q + i) / 64) with q in E by dlia.
        replace ((64 * q + i) mod 64) with i in E by dlia. exact E.
      * destruct B1 as (_ & _ & _ & Q1). destruct B2 as (_ & _ & _ & Q2).
        rewrite Q1, Q2 by assumption. reflexivity.
  - eexists. split; [reflexivity|]. rewrite N.eqb_eq. split.
    + intros E i Hi. rewrite !elem_small by lia. now rewrite E.
    + intros H. apply bt_ext. intros i. rewrite <- !elem_small by lia.
      destruct (Nat.lt_ge_cases i (msize m)); [now apply H|].
      rewrite Z1, Z2 by lia. reflexivity.
Qed.

(* ---- iteration ---- *)

Definition iter_res (m : mask) (c : Z) (found : bool) (c' : Z) : Prop :=
  if found then
    exists i, c' = Z.of_nat i /\ (c < Z.of_nat i)%Z /\ i < msize m /\ elem m i = true /\
              forall j, (c < Z.of_nat j)%Z -> j < i -> elem m j = false
  else forall j, (c < Z.of_nat j)%Z -> j < msize m -> elem m j = false.

Lemma iter_loop_ok n m : big n m -> forall k word,
  word + k = (n + 63) / 64 ->
  exists o, iter_loop k m word = Ok o /\
    match o with
    | Some b => 64 * word <= b < 64 * (word + k) /\ elem m b = true /\
                forall j, 64 * word <= j < b -> elem m j = false
    | None => forall j, 64 * word <= j < 64 * (word + k) -> elem m j = false
    end.
Proof.
  intros B. pose proof B as (B1 & B2 & B3 & B4).
  induction k as [|k IH]; intros word Hk; cbn [iter_loop].
  - exists None. split; [reflexivity|]. intros j Hj. lia.
  - rewrite rd_ok by lia. cbn [bind].
    assert (Hel : forall i, i < 64 -> elem m (64 * word + i) = bt (nth word (mptr m) 0%N) i).
    { intros i Hi. rewrite (elem_big n) by assumption.
      replace ((64 * word + i) / 64) with word by dlia.
      replace ((64 * word + i) mod 64) with i by dlia. reflexivity. }
    pose proof (ffsll_spec _ (B4 word)) as F.
    destruct (ffsll (nth word (mptr m) 0%N)) as [|i]; cbn [Nat.ltb Nat.leb].
    + assert (Z0 : forall j, 64 * word <= j < 64 * S word -> elem m j = false).
      { intros j Hj. replace j with (64 * word + (j - 64 * word)) by lia.
        rewrite Hel by lia. apply F. }
      destruct (IH (S word)) as (o & R & H); [lia|]. exists o. split; [exact R|].
      destruct o as [b|].
      * destruct H as (H1 & H2 & H3). split; [lia|]. split; [assumption|].
        intros j Hj. destruct (Nat.lt_ge_cases j (64 * S word)); [apply Z0; lia|apply H3; lia].
      * intros j Hj. destruct (Nat.lt_ge_cases j (64 * S word)); [apply Z0; lia|apply H; lia].
    + destruct F as (F1 & F2 & F3). eexists. split; [reflexivity|]. cbv beta iota.
      replace (word * 64 + S i - 1) with (64 * word + i) by lia.
      split; [lia|]. split; [rewrite Hel by lia; exact F2|].
      intros j Hj. replace j with (64 * word + (j - 64 * word)) by lia.
      rewrite Hel by lia. apply F3. lia.
Qed.

Lemma mask_iter_ok m c : wf m -> (-1 <= c < Z.of_nat (msize m))%Z ->
  exists f c', mask_iter m c = Ok (f, c') /\ iter_res m c f c'.
Proof.
  intros W Hc. unfold mask_iter. pose proof W as (Z1 & _).
  destruct (Z.leb_spec (Z.of_nat (msize m)) (c + 1)) as [E|E].
  { exists false, c. split; [reflexivity|]. intros j H1 H2. lia. }
  destruct (Nat.ltb_spec 64 (msize m)) as [L|L].
  - pose proof (wf_big m W L) as B. pose proof B as (B1 & B2 & B3 & B4).
    set (next := Z.to_nat (c + 1)). assert (Hn : Z.of_nat next = (c + 1)%Z) by lia.
    assert (Hnm : next < msize m) by lia. clearbody next. cbv zeta.
    assert (Rest : forall word, next <= 64 * word -> word <= (msize m + 63) / 64 ->
      (forall j, next <= j < 64 * word -> elem m j = false) ->
      exists f c', (do! o <- iter_loop ((msize m + 63) / 64 - word) m word;
        match o with
        | Some b => Ok (true, Z.of_nat b)
        | None => Ok (false, c)
        end) = Ok (f, c') /\ iter_res m c f c').
    { intros word Hw Hw2 Zw.
      destruct (iter_loop_ok (msize m) m B ((msize m + 63) / 64 - word) word) as (o & R & H); [lia|].
      rewrite R. cbn [bind]. destruct o as [b|].
      - destruct H as (H1 & H2 & H3). do 2 eexists. split; [reflexivity|].
        exists b. split; [reflexivity|]. split; [lia|].
        split. { destruct (Nat.lt_ge_cases b (msize m)); [assumption|]. rewrite Z1 in H2 by lia. discriminate. }
        split; [assumption|].
        intros j Hj1 Hj2. destruct (Nat.lt_ge_cases j (64 * word)); [apply Zw; lia|apply H3; lia].
      - do 2 eexists. split; [reflexivity|]. intros j Hj1 Hj2.
        destruct (Nat.lt_ge_cases j (64 * word)); [apply Zw; lia|apply H].
        split; [lia|]. replace (word + ((msize m + 63) / 64 - word)) with ((msize m + 63) / 64) by lia.
        dlia. }
    pose proof (word_in_range _ _ Hnm) as Hkw.
    destruct (Nat.ltb_spec 0 (next mod 64)) as [M|M].
    + rewrite rd_ok by lia. cbn [bind].
      assert (Hcm : (c mod 64)%Z = Z.of_nat (next mod 64 - 1)).
      { replace c with (Z.of_nat (next mod 64 - 1) + Z.of_nat (next / 64) * 64)%Z by dlia.
        rewrite Z.mod_add by lia. apply Z.mod_small. dlia. }
      rewrite Hcm.
      pose proof (Nat.mod_upper_bound next 64 ltac:(lia)).
      destruct (mask_for_range_ok 0 (Z.of_nat (next mod 64 - 1))) as (r & R & Hr); try lia.
      rewrite R. cbn [bind]. set (w := nth (next / 64) (mptr m) 0%N).
      assert (Hel : forall i, i < 64 -> elem m (64 * (next / 64) + i) = bt w i).
      { intros i Hi. rewrite (elem_big (msize m)) by assumption.
        replace ((64 * (next / 64) + i) / 64) with (next / 64) by dlia.
        replace ((64 * (next / 64) + i) mod 64) with i by dlia. reflexivity. }
      assert (Hbt : forall i, i < 64 -> bt (N.land w (not64 r)) i = bt w i && (next mod 64 <=? i)).
      { intros i Hi. rewrite bt_land, bt_not64, Hr. f_equal. lia. }
      assert (Hw64 : w64 (N.land w (not64 r))) by (apply w64_land_l, B4).
      pose proof (ffsll_spec _ Hw64) as F.
      destruct (ffsll (N.land w (not64 r))) as [|i]; cbn [Nat.ltb Nat.leb bind].
      * apply (Rest (S (next / 64))); [dlia|lia|].
        intros j Hj. replace j with (64 * (next / 64) + (j - 64 * (next / 64))) by dlia.
        rewrite Hel by dlia. specialize (F (j - 64 * (next / 64))). rewrite Hbt in F by dlia.
        apply andb_false_iff in F. destruct F as [F|F]; [exact F|]. exfalso. dlia.
      * destruct F as (F1 & F2 & F3). rewrite Hbt in F2 by lia.
        do 2 eexists. split; [reflexivity|].
        exists (64 * (next / 64) + i). split; [lia|]. split; [dlia|].
        assert (Htrue : elem m (64 * (next / 64) + i) = true) by (rewrite Hel by lia; lia).
        split. { destruct (Nat.lt_ge_cases (64 * (next / 64) + i) (msize m)); [assumption|].
                 rewrite Z1 in Htrue by lia. discriminate. }
        split; [exact Htrue|].
        intros j Hj1 Hj2.
        replace j with (64 * (next / 64) + (j - 64 * (next / 64))) by dlia.
        rewrite Hel by dlia. specialize (F3 (j - 64 * (next / 64)) ltac:(dlia)).
        rewrite Hbt in F3 by dlia.
        apply andb_false_iff in F3. destruct F3 as [F3|F3]; [exact F3|]. exfalso. dlia.
    + cbn [bind]. apply (Rest (next / 64)); [dlia|lia|]. intros j Hj. exfalso. dlia.
  - destruct (mask_for_range_ok 0 c) as (r & R & Hr); try lia.
    rewrite R. cbn [bind]. do 2 eexists. split; [reflexivity|].
    assert (Q1 : w64 (mbits m)) by (intros i Hi; rewrite <- elem_small by lia; apply Z1; lia).
    pose proof (ffsll_spec (N.land (mbits m) (not64 r)) (w64_land_l _ _ Q1)) as F.
    assert (Hbt : forall i, i < 64 -> bt (N.land (mbits m) (not64 r)) i = elem m i && (c <? Z.of_nat i)%Z).
    { intros i Hi. rewrite bt_land, bt_not64, Hr, elem_small by lia. f_equal. lia. }
    destruct (ffsll (N.land (mbits m) (not64 r))) as [|i]; cbn [Nat.ltb Nat.leb].
    + intros j Hj1 Hj2. specialize (F j). rewrite Hbt in F by lia.
      apply andb_false_iff in F. destruct F as [F|F]; [exact F|lia].
    + destruct F as (F1 & F2 & F3). rewrite Hbt in F2 by lia. exists i.
      split; [lia|]. split; [lia|].
      assert (Htrue : elem m i = true) by lia.
      split. { destruct (Nat.lt_ge_cases i (msize m)); [assumption|].
               rewrite Z1 in Htrue by lia. discriminate. }
      split; [exact Htrue|].
      intros j Hj1 Hj2. specialize (F3 j Hj2). rewrite Hbt in F3 by lia.
      apply andb_false_iff in F3. destruct F3 as [F3|F3]; [exact F3|lia].
Qed.
