(* Lemmas on Verilog numbers. *)
From Coq Require Import List NArith ZArith Bool Lia Arith ZifyNat ZifyN ZifyBool.
From Verif Require Import Base FbufModel FbufSpec FbufProofs NumberModel NumberSpec.
Import ListNotations.
Open Scope N_scope.

(* ---------- pairs of bits ---------- *)

Definition pair (x n : N) : N := N.land (N.shiftr x (n * 2)) 3.

Lemma pair_testbit x n i : N.testbit (pair x n) i = (i <? 2) && N.testbit x (n * 2 + i).
Proof.
  unfold pair. rewrite N.land_spec, N.shiftr_spec by lia. rewrite (N.add_comm i).
  replace 3 with (N.ones 2) by reflexivity.
  destruct (N.ltb_spec i 2).
  - now rewrite N.ones_spec_low, andb_true_r by lia.
  - now rewrite N.ones_spec_high, andb_false_r by lia.
Qed.

Lemma pair_eq x n y m : (forall i, i < 2 -> N.testbit x (n * 2 + i) = N.testbit y (m * 2 + i)) -> pair x n = pair y m.
Proof.
  intros H. apply N.bits_inj. intros i. rewrite !pair_testbit.
  destruct (N.ltb_spec i 2); [|reflexivity]. cbn [andb]. now apply H.
Qed.

Lemma mod_testbit x k i : N.testbit (x mod 2 ^ k) i = (i <? k) && N.testbit x i.
Proof.
  destruct (N.ltb_spec i k).
  - now rewrite N.mod_pow2_bits_low by lia.
  - now rewrite N.mod_pow2_bits_high by lia.
Qed.

Lemma testbit_high x k i : x < 2 ^ k -> k <= i -> N.testbit x i = false.
Proof.
  intros H1 H2. rewrite <- (N.mod_small x (2 ^ k)) by assumption.
  now rewrite N.mod_pow2_bits_high by lia.
Qed.

Lemma shl_testbit x k i : N.testbit (N.shiftl x k) i = if i <? k then false else N.testbit x (i - k).
Proof.
  destruct (N.ltb_spec i k).
  - now rewrite N.shiftl_spec_low by lia.
  - now rewrite N.shiftl_spec_high' by lia.
Qed.

Lemma strip_mod b : strip_strength b = b mod 4.
Proof. unfold strip_strength. change 3 with (N.ones 2). now rewrite N.land_ones. Qed.

Lemma strip_lt b : strip_strength b < 4.
Proof. rewrite strip_mod. apply N.mod_lt. discriminate. Qed.

Lemma pair_small x : x < 4 -> pair x 0 = x.
Proof.
  intros H. unfold pair. rewrite N.shiftr_0_r. change 3 with (N.ones 2). rewrite N.land_ones.
  apply N.mod_small. exact H.
Qed.

Lemma push_pair acc b n : n < 32 ->
  pair (push_digit acc b) n = if n =? 0 then strip_strength b else pair acc (n - 1).
Proof.
  intros H. unfold push_digit. destruct (N.eqb_spec n 0) as [->|NZ].
  - rewrite <- (pair_small (strip_strength b)) at 2 by apply strip_lt. apply pair_eq. intros i I.
    rewrite N.lor_spec. change (2 ^ 64) with (2 ^ 64). rewrite mod_testbit, shl_testbit.
    destruct (N.ltb_spec (0 * 2 + i) 2); [|lia]. now rewrite andb_false_r.
  - apply pair_eq. intros i I. rewrite N.lor_spec, mod_testbit, shl_testbit.
    destruct (N.ltb_spec (n * 2 + i) 64); [|lia]. destruct (N.ltb_spec (n * 2 + i) 2); [lia|]. cbn [andb].
    rewrite (testbit_high (strip_strength b) 2) by (try lia; apply strip_lt). rewrite orb_false_r.
    f_equal. lia.
Qed.

Lemma push_lt acc b : push_digit acc b < 2 ^ 64.
Proof.
  unfold push_digit.
  assert (H : forall x, (forall i, 64 <= i -> N.testbit x i = false) -> x < 2 ^ 64).
  { intros x H. rewrite <- (N.mod_small x (2 ^ (N.log2 x + 65))).
    - assert (E : x mod 2 ^ (N.log2 x + 65) = x mod 2 ^ 64).
      { apply N.bits_inj. intros i. rewrite !mod_testbit. destruct (N.ltb_spec i 64) as [L|L].
        - destruct (N.ltb_spec i (N.log2 x + 65)); [reflexivity|lia].
        - rewrite (H i L). now rewrite andb_false_r. }
      rewrite E. apply N.mod_lt. discriminate.
    - destruct (N.eq_dec x 0) as [->|NZ]; [cbn; lia|].
      eapply N.lt_le_trans; [apply N.log2_spec; lia|]. apply N.pow_le_mono_r; lia. }
  apply H. intros i I. rewrite N.lor_spec, mod_testbit.
  destruct (N.ltb_spec i 64); [lia|]. cbn [andb orb]. apply (testbit_high _ 2); [apply strip_lt|lia].
Qed.

(* ---------- digits of a vector, least significant first ---------- *)

Definition dig (v : list logic) (n : nat) : logic :=
  if (n <? length v)%nat then nth (length v - 1 - n) v X else L0.

Lemma dig_app v d n : dig (v ++ d) n = if (n <? length d)%nat then dig d n else dig v (n - length d).
Proof.
  unfold dig. rewrite app_length. destruct (Nat.ltb_spec n (length d)) as [H|H].
  - destruct (Nat.ltb_spec n (length v + length d)); [|lia].
    rewrite app_nth2 by lia. f_equal. lia.
  - destruct (Nat.ltb_spec n (length v + length d)), (Nat.ltb_spec (n - length d) (length v)); try lia; [|reflexivity].
    rewrite app_nth1 by lia. f_equal. lia.
Qed.

Lemma dig_snoc v d n : dig (v ++ [d]) n = match n with O => d | S n' => dig v n' end.
Proof.
  rewrite dig_app. cbn [length]. destruct n; [reflexivity|].
  destruct (Nat.ltb_spec (S n) 1); [lia|]. f_equal. lia.
Qed.

Lemma has_digits_dig n v : number_width n = N.of_nat (length v) ->
  (forall i, (i < length v)%nat -> number_bit n (N.of_nat i) = Ok (code (dig v i))) -> has_digits n v.
Proof.
  intros W H. split; [exact W|]. intros i I. rewrite (H i I). unfold dig.
  destruct (Nat.ltb_spec i (length v)); [reflexivity|lia].
Qed.

Lemma code_lt d : code d < 4.
Proof. destruct d; cbn; lia. Qed.

(* ---------- pushing digits ---------- *)

Lemma holds_strip bits v : holds bits v -> map strip_strength bits = map code v.
Proof. intros H. rewrite <- H. apply map_ext. intros b. apply strip_mod. Qed.

Lemma holds_length bits v : holds bits v -> length bits = length v.
Proof. intros H. apply (f_equal (@length N)) in H. now rewrite !map_length in H. Qed.

Lemma push_all bits v z : map strip_strength bits = map code v ->
  forall n, (n < 32)%nat ->
  pair (fold_left push_digit bits z) (N.of_nat n) =
  if (n <? length v)%nat then code (dig v n) else pair z (N.of_nat (n - length v)).
Proof.
  revert v. induction bits as [|b bits IH] using rev_ind; intros v E n L.
  - destruct v; [|discriminate]. cbn [fold_left length]. destruct (Nat.ltb_spec n 0); [lia|].
    f_equal. lia.
  - destruct v as [|d v _] using rev_ind; [rewrite map_app in E; now destruct (map strip_strength bits)|].
    rewrite !map_app in E. cbn [map] in E. apply app_inj_tail in E as (E1 & E2).
    rewrite fold_left_app. cbn [fold_left]. rewrite push_pair by lia. rewrite app_length. cbn [length].
    rewrite dig_snoc. destruct n as [|n].
    + cbn [N.of_nat N.eqb]. destruct (Nat.ltb_spec 0 (length v + 1)); [|lia]. exact E2.
    + destruct (N.eqb_spec (N.of_nat (S n)) 0); [lia|].
      replace (N.of_nat (S n) - 1) with (N.of_nat n) by lia. rewrite (IH v E1 n) by lia.
      destruct (Nat.ltb_spec n (length v)), (Nat.ltb_spec (S n) (length v + 1)); try lia; try reflexivity.
      all: f_equal; lia.
Qed.

Lemma push_all_lt bits z : z < 2 ^ 64 -> fold_left push_digit bits z < 2 ^ 64.
Proof. intros H. destruct bits as [|b bits] using rev_ind; [exact H|]. rewrite fold_left_app. apply push_lt. Qed.

(* ---------- integers ---------- *)

Definition bit_of (d : logic) : N := match d with L1 => 1 | _ => 0 end.

Lemma value_snoc v d : value (v ++ [d]) = 2 * value v + bit_of d.
Proof. unfold value. rewrite fold_left_app. reflexivity. Qed.

Lemma value_testbit v : forall n, N.testbit (value v) (N.of_nat n) = match dig v n with L1 => true | _ => false end.
Proof.
  induction v as [|d v IH] using rev_ind; intros n.
  - cbn. unfold dig. cbn. destruct n; reflexivity.
  - rewrite value_snoc, dig_snoc. destruct n as [|n].
    + cbn [N.of_nat]. destruct d; cbn [bit_of]; rewrite ?N.add_0_r;
        try apply N.testbit_even_0; apply N.testbit_odd_0.
    + replace (N.of_nat (S n)) with (N.succ (N.of_nat n)) by lia.
      destruct d; cbn [bit_of]; rewrite ?N.add_0_r;
        rewrite ?N.testbit_even_succ, ?N.testbit_odd_succ by lia; apply IH.
Qed.

Lemma push_bits bits v : Forall defined v -> map strip_strength bits = map code v -> (length v <= 64)%nat ->
  fold_left push_bit bits 0 = value v.
Proof.
  intros D E L. revert v D E L. induction bits as [|b bits IH] using rev_ind; intros v D E L.
  - destruct v; [reflexivity|discriminate].
  - destruct v as [|d v _] using rev_ind; [rewrite map_app in E; now destruct (map strip_strength bits)|].
    rewrite !map_app in E. cbn [map] in E. apply app_inj_tail in E as (E1 & E2).
    apply Forall_app in D as (D1 & D2). rewrite app_length in L. cbn [length] in L.
    rewrite fold_left_app. cbn [fold_left]. rewrite (IH v D1 E1) by lia. rewrite value_snoc.
    unfold push_bit. rewrite E2.
    assert (V : value v < 2 ^ N.of_nat (length v)).
    { clear. induction v as [|d v IH] using rev_ind; [cbn; lia|].
      rewrite value_snoc, app_length. cbn [length]. rewrite Nat2N.inj_add, N.pow_add_r.
      change (2 ^ N.of_nat 1) with 2. destruct d; cbn [bit_of]; lia. }
    assert (V2 : 2 * value v < 2 ^ 64).
    { assert (2 ^ N.of_nat (length v + 1) <= 2 ^ 64) by (apply N.pow_le_mono_r; lia).
      rewrite Nat2N.inj_add, N.pow_add_r in H. change (2 ^ N.of_nat 1) with 2 in H. lia. }
    rewrite N.shiftl_mul_pow2. change (2 ^ 1) with 2. rewrite N.mod_small by lia.
    inversion_clear D2 as [|? ? DD _]. destruct DD as [->| ->]; cbn [code bit_of].
    + change (N.land 2 1) with 0. rewrite N.lor_0_r. lia.
    + change (N.land 3 1) with 1. rewrite (N.mul_comm (value v)).
      apply N.bits_inj. intros i. destruct i as [|p] using N.peano_ind.
      * rewrite N.lor_spec, N.testbit_even_0, N.testbit_odd_0. reflexivity.
      * rewrite N.lor_spec, N.testbit_even_succ, N.testbit_odd_succ by lia.
        destruct p; cbn; now rewrite ?orb_false_r.
Qed.

Lemma value_lt v : value v < 2 ^ N.of_nat (length v).
Proof.
  induction v as [|d v IH] using rev_ind; [cbn; lia|].
  rewrite value_snoc, app_length. cbn [length]. rewrite Nat2N.inj_add, N.pow_add_r.
  change (2 ^ N.of_nat 1) with 2. destruct d; cbn [bit_of]; lia.
Qed.

Lemma dig_defined v n : Forall defined v -> defined (dig v n).
Proof.
  intros H. unfold dig. destruct (Nat.ltb_spec n (length v)); [|now left].
  eapply Forall_forall; [exact H|]. apply nth_In. lia.
Qed.

Lemma integer_bit w p n : n < w -> w <= 32 ->
  number_bit (mk_integer w p) n = Ok (if N.testbit p n then 3 else 2).
Proof.
  intros H W. unfold number_bit, mk_integer. cbn [number_width].
  change (2 ^ 6) with 64. rewrite (N.mod_small w 64) by lia.
  destruct (N.ltb_spec n w); [|lia]. f_equal.
  assert (E : N.land (N.shiftr (p mod 2 ^ 32) n) 1 = if N.testbit p n then 1 else 0).
  { change 1 with (N.ones 1) at 1. rewrite N.land_ones. change (2 ^ 1) with 2.
    assert (T : N.testbit (N.shiftr (p mod 2 ^ 32) n) 0 = N.testbit p n).
    { rewrite N.shiftr_spec by lia. rewrite N.add_0_l, mod_testbit.
      destruct (N.ltb_spec n 32); [reflexivity|lia]. }
    rewrite <- T. rewrite <- N.bit0_mod. now destruct (N.testbit _ 0). }
  rewrite E. destruct (N.testbit p n); reflexivity.
Qed.

Lemma integer_digits v w p : (length v <= 32)%nat -> Forall defined v -> w = N.of_nat (length v) ->
  (forall n, (n < length v)%nat -> N.testbit p (N.of_nat n) = N.testbit (value v) (N.of_nat n)) ->
  has_digits (mk_integer w p) v.
Proof.
  intros L D -> H. apply has_digits_dig.
  - unfold mk_integer. cbn [number_width]. change (2 ^ 6) with 64. rewrite N.mod_small; lia.
  - intros i I. rewrite integer_bit by lia. rewrite (H i I), value_testbit.
    destruct (dig_defined v i D) as [E|E]; rewrite E; reflexivity.
Qed.

(* ---------- big numbers ---------- *)

Fixpoint gp (ws : list N) (n : N) : N :=
  match ws with
  | [] => 0
  | w :: ws' =>
    let L := 32 * N.of_nat (length ws') in
    if n <? L then gp ws' n else pair w (n - L)
  end.

Lemma gp_nth ws : forall n, n < 32 * N.of_nat (length ws) ->
  exists x, nth_error ws (N.to_nat ((32 * N.of_nat (length ws) - n - 1) / 32)) = Some x /\
            pair x (n mod 32) = gp ws n.
Proof.
  induction ws as [|w ws IH]; intros n H; cbn [length] in H; [lia|].
  cbn [gp]. destruct (N.ltb_spec n (32 * N.of_nat (length ws))) as [L|L].
  - destruct (IH n L) as (x & E & P). exists x. split; [|exact P].
    replace (32 * N.of_nat (length (w :: ws)) - n - 1) with ((32 * N.of_nat (length ws) - n - 1) + 1 * 32)
      by (cbn [length]; lia).
    rewrite N.div_add by lia. rewrite N2Nat.inj_add. rewrite Nat.add_comm. exact E.
  - exists w. split.
    + rewrite N.div_small by (cbn [length]; lia). reflexivity.
    + f_equal. replace n with (n - 32 * N.of_nat (length ws) + N.of_nat (length ws) * 32) at 1 by lia.
      rewrite N.mod_add by lia. apply N.mod_small. lia.
Qed.

Lemma big_bit k ws n : length ws = k -> n < 32 * N.of_nat k -> number_bit (Big (32 * N.of_nat k) ws) n = Ok (gp ws n).
Proof.
  intros <- H. unfold number_bit. cbn [number_width].
  destruct (N.ltb_spec n (32 * N.of_nat (length ws))); [|lia].
  destruct (gp_nth ws n H) as (x & E & P). rewrite E. f_equal. exact P.
Qed.

Lemma pack_length k : forall bits, length (pack_words k bits) = k.
Proof. induction k; intros; cbn; auto. Qed.

Lemma pack_gp k : forall bits v, map strip_strength bits = map code v -> length v = (32 * k)%nat ->
  forall n, (n < 32 * k)%nat -> gp (pack_words k bits) (N.of_nat n) = code (dig v n).
Proof.
  induction k as [|k IH]; intros bits v E L n H; [lia|]. cbn [pack_words gp]. rewrite pack_length.
  assert (E1 : map strip_strength (firstn 32 bits) = map code (firstn 32 v)) by (now rewrite <- !firstn_map, E).
  assert (E2 : map strip_strength (skipn 32 bits) = map code (skipn 32 v)) by (now rewrite <- !skipn_map, E).
  rewrite <- (firstn_skipn 32 v), dig_app, skipn_length.
  destruct (N.ltb_spec (N.of_nat n) (32 * N.of_nat k)), (Nat.ltb_spec n (length v - 32)); try lia.
  - apply IH; [exact E2|rewrite skipn_length; lia|lia].
  - replace (N.of_nat n - 32 * N.of_nat k) with (N.of_nat (n - 32 * k)) by lia.
    rewrite (push_all _ _ _ E1) by lia. rewrite firstn_length.
    destruct (Nat.ltb_spec (n - 32 * k) (Nat.min 32 (length v))); [|lia]. do 2 f_equal. lia.
Qed.

Lemma words_32 k : bignum_words (32 * N.of_nat k) = N.of_nat k.
Proof.
  unfold bignum_words. replace (32 * N.of_nat k + 31) with (31 + N.of_nat k * 32) by lia.
  rewrite N.div_add by lia. reflexivity.
Qed.

(* ---------- packing ---------- *)

Definition xz_byte (b : N) : bool := (strip_strength b =? LOGIC_X) || (strip_strength b =? LOGIC_Z).

Lemma xz_defined bits v : map strip_strength bits = map code v ->
  (existsb xz_byte bits = false <-> Forall defined v).
Proof.
  revert v. induction bits as [|b bits IH]; intros [|d v] E; cbn [map existsb] in *; try discriminate.
  - split; [constructor|reflexivity].
  - injection E as E1 E2. rewrite orb_false_iff, (IH v E2). unfold xz_byte. rewrite E1.
    split.
    + intros (A & B). constructor; [|exact B]. destruct d; cbn in A; try discriminate; [now left|now right].
    + intros H. inversion_clear H as [|? ? D F]. split; [|exact F]. destruct D as [->| ->]; reflexivity.
Qed.

Lemma small_digits v p : (length v <= 28)%nat ->
  (forall n, (n < length v)%nat -> pair p (N.of_nat n) = code (dig v n)) ->
  has_digits (mk_small (N.of_nat (length v)) p) v.
Proof.
  intros L H. apply has_digits_dig.
  - unfold mk_small. cbn [number_width]. change (2 ^ 5) with 32. rewrite N.mod_small; lia.
  - intros i I. unfold number_bit, mk_small. cbn [number_width]. change (2 ^ 5) with 32.
    rewrite N.mod_small by lia. destruct (N.ltb_spec (N.of_nat i) (N.of_nat (length v))); [|lia].
    f_equal. fold (pair (p mod 2 ^ 56) (N.of_nat i)). rewrite <- (H i I). apply pair_eq.
    intros j J. rewrite mod_testbit. destruct (N.ltb_spec (N.of_nat i * 2 + j) 56); [reflexivity|lia].
Qed.

Lemma pack_digits bits v : holds bits v -> kept v -> has_digits (number_pack bits) v.
Proof.
  intros H K. pose proof (holds_length _ _ H) as HL. apply holds_strip in H.
  unfold number_pack. change (existsb _ bits) with (existsb xz_byte bits). rewrite HL.
  unfold INTEGER_WIDTH_MAX, SMALLNUM_WIDTH_MAX.
  destruct (negb (existsb xz_byte bits) && (N.of_nat (length v) <=? 32)) eqn:C.
  - apply andb_prop in C as (C1 & C2). apply negb_true_iff in C1. apply (xz_defined _ _ H) in C1.
    assert (L32 : (length v <= 32)%nat) by lia.
    apply integer_digits; auto. intros n _. rewrite (push_bits bits v) by (auto; lia). reflexivity.
  - assert (NK : ~ (Forall defined v /\ (length v <= 32)%nat)).
    { intros (D & L). apply (xz_defined _ _ H) in D. rewrite D in C. cbn [negb andb] in C. lia. }
    destruct (N.leb_spec (N.of_nat (length v)) 31) as [L|L].
    + assert (L28 : (length v <= 28)%nat).
      { destruct K as [K|[K|(k & K)]]; [tauto|exact K|]. destruct k; [|lia].
        exfalso. apply NK. destruct v; [split; [constructor|cbn; lia]|discriminate]. }
      apply small_digits; [exact L28|]. intros n N. rewrite (push_all bits v _ H) by lia.
      destruct (Nat.ltb_spec n (length v)); [reflexivity|lia].
    + assert (KK : exists k, length v = (32 * k)%nat) by (destruct K as [K|[K|K]]; [tauto|lia|exact K]).
      destruct KK as (k & K'). rewrite K'. replace (N.of_nat (32 * k)) with (32 * N.of_nat k) by lia.
      rewrite words_32, Nat2N.id. apply has_digits_dig.
      * cbn [number_width]. lia.
      * intros i I. rewrite (big_bit k) by (try apply pack_length; lia). f_equal.
        apply pack_gp; [exact H|exact K'|lia].
Qed.

(* ---------- shifting ---------- *)

Lemma shift_head c w cin m : c < 32 -> m < 32 -> cin < 2 ^ (2 * c) ->
  pair (N.lor (N.shiftl w (c * 2) mod 2 ^ 64) cin) m = if m <? c then pair cin m else pair w (m - c).
Proof.
  intros C M I. destruct (N.ltb_spec m c).
  - apply pair_eq. intros i J. rewrite N.lor_spec, mod_testbit, shl_testbit.
    destruct (N.ltb_spec (m * 2 + i) (c * 2)); [|lia]. now rewrite andb_false_r.
  - apply pair_eq. intros i J. rewrite N.lor_spec, mod_testbit, shl_testbit.
    destruct (N.ltb_spec (m * 2 + i) 64); [|lia]. destruct (N.ltb_spec (m * 2 + i) (c * 2)); [lia|].
    cbn [andb]. rewrite (testbit_high cin (2 * c)) by (try assumption; lia). rewrite orb_false_r. f_equal. lia.
Qed.

Lemma shift_out c w j : c < 32 -> j < c -> pair (N.shiftr w (64 - c * 2)) j = pair w (32 - c + j).
Proof. intros C J. apply pair_eq. intros i I. rewrite N.shiftr_spec by lia. f_equal. lia. Qed.

Lemma shift_words_ok c : 0 < c -> c < 32 -> forall ws cin, Forall (fun w => w < 2 ^ 64) ws -> cin < 2 ^ (2 * c) ->
  let r := shift_words c ws cin in
  length (fst r) = length ws /\ Forall (fun w => w < 2 ^ 64) (fst r) /\ snd r < 2 ^ (2 * c) /\
  (forall j, j < c -> pair (snd r) j =
     match ws with [] => pair cin j | w :: _ => pair w (32 - c + j) end) /\
  forall n, n < 32 * N.of_nat (length ws) -> gp (fst r) n = if n <? c then pair cin n else gp ws (n - c).
Proof.
  intros C0 C. induction ws as [|w ws IH]; intros cin F I; cbn [shift_words].
  - cbn [fst snd length]. split; [reflexivity|]. split; [constructor|]. split; [exact I|].
    split; [auto|]. lia.
  - inversion_clear F as [|? ? W F']. destruct (IH cin F' I) as (I1 & I2 & I3 & I4 & I5).
    destruct (shift_words c ws cin) as (vs, co). cbn [fst snd] in *.
    assert (HL : N.shiftl w (c * 2) mod 2 ^ 64 < 2 ^ 64) by (apply N.mod_lt; discriminate).
    assert (CO : co < 2 ^ 64) by (eapply N.lt_le_trans; [exact I3|apply N.pow_le_mono_r; lia]).
    cbn [length]. split; [lia|]. split; [|split; [|split]].
    + constructor; [|exact I2].
      destruct (N.eq_dec (N.lor (N.shiftl w (c * 2) mod 2 ^ 64) co) 0) as [->|NZ]; [lia|].
      apply N.log2_lt_pow2; [lia|]. rewrite N.log2_lor.
      assert (L2 : forall x, x < 2 ^ 64 -> N.log2 x < 64).
      { intros x X. destruct (N.eq_dec x 0) as [->|]; [cbn; lia|]. apply N.log2_lt_pow2; lia. }
      pose proof (L2 _ HL). pose proof (L2 _ CO). lia.
    + rewrite N.shiftr_div_pow2. apply N.div_lt_upper_bound; [apply N.pow_nonzero; discriminate|].
      rewrite <- N.pow_add_r. replace (64 - c * 2 + 2 * c) with 64 by lia. exact W.
    + intros j J. now apply shift_out.
    + intros n H. cbn [gp]. rewrite I1. destruct (N.ltb_spec n (32 * N.of_nat (length ws))) as [L|L].
      * rewrite (I5 n L). destruct (N.ltb_spec n c); [reflexivity|].
        destruct (N.ltb_spec (n - c) (32 * N.of_nat (length ws))); [reflexivity|lia].
      * rewrite shift_head by (try assumption; lia).
        destruct (N.ltb_spec (n - 32 * N.of_nat (length ws)) c) as [M|M].
        -- rewrite I4 by assumption. destruct ws as [|w2 ws].
           ++ cbn [length] in *. destruct (N.ltb_spec n c); [f_equal; lia|lia].
           ++ destruct (N.ltb_spec n c); [cbn [length] in L; lia|].
              destruct (N.ltb_spec (n - c) (32 * N.of_nat (length (w2 :: ws)))); [|lia].
              cbn [gp length] in *. destruct (N.ltb_spec (n - c) (32 * N.of_nat (length ws))); [lia|].
              f_equal. lia.
        -- destruct (N.ltb_spec n c); [lia|].
           destruct (N.ltb_spec (n - c) (32 * N.of_nat (length ws))); [lia|]. f_equal. lia.
Qed.

(* ---------- literals ---------- *)

Lemma bin_inv c d : bin_digit c = Some d -> In (c, d) [(48, [L0]); (49, [L1]); (120, [X]); (122, [Z])].
Proof.
  unfold bin_digit. destruct c as [|p]; [discriminate|].
  repeat (destruct p as [p|p|]; try discriminate); intros [= <-]; cbn; tauto.
Qed.

Definition hex_table : list (N * list logic) :=
  [(48, [L0; L0; L0; L0]); (49, [L0; L0; L0; L1]); (50, [L0; L0; L1; L0]); (51, [L0; L0; L1; L1]);
   (52, [L0; L1; L0; L0]); (53, [L0; L1; L0; L1]); (54, [L0; L1; L1; L0]); (55, [L0; L1; L1; L1]);
   (56, [L1; L0; L0; L0]); (57, [L1; L0; L0; L1]);
   (97, [L1; L0; L1; L0]); (98, [L1; L0; L1; L1]); (99, [L1; L1; L0; L0]); (100, [L1; L1; L0; L1]);
   (101, [L1; L1; L1; L0]); (102, [L1; L1; L1; L1]);
   (65, [L1; L0; L1; L0]); (66, [L1; L0; L1; L1]); (67, [L1; L1; L0; L0]); (68, [L1; L1; L0; L1]);
   (69, [L1; L1; L1; L0]); (70, [L1; L1; L1; L1]); (120, [X; X; X; X]); (122, [Z; Z; Z; Z])].

Lemma hex_inv c d : hex_digit c = Some d -> In (c, d) hex_table.
Proof.
  unfold hex_digit. destruct c as [|p]; [discriminate|].
  repeat (destruct p as [p|p|]; try discriminate); intros [= <-]; unfold hex_table; cbn [In];
    repeat first [left; reflexivity|right].
Qed.

(* What is needed of a radix. *)
Definition good_radix (r : radix) (digit : N -> option (list logic)) : Prop :=
  (r = Bin /\ digit = bin_digit) \/ (r = Hex /\ digit = hex_digit).

Lemma digit_scan r digit c d : good_radix r digit -> digit c = Some d -> Forall defined d ->
  exists x, digit_in r c = Some x /\
  forall acc, fold_left (fun a d => 2 * a + match d with L1 => 1 | _ => 0 end) d acc = acc * radix_value r + x.
Proof.
  intros [(-> & ->)|(-> & ->)] E D.
  - apply bin_inv in E. cbn [In] in E.
    repeat destruct E as [E|E]; try tauto; injection E as <- <-;
      try (inversion_clear D as [|? ? [U|U] _]; discriminate U);
      (eexists; split; [reflexivity|]; intros acc; cbn [fold_left radix_value]; lia).
  - apply hex_inv in E. unfold hex_table in E. cbn [In] in E.
    repeat destruct E as [E|E]; try tauto; injection E as <- <-;
      try (inversion_clear D as [|? ? [U|U] _]; discriminate U);
      (eexists; split; [reflexivity|]; intros acc; cbn [fold_left radix_value]; lia).
Qed.

Lemma not_under r : digit_in r 95 = None.
Proof. destruct r; reflexivity. Qed.

Lemma digit_not_under r digit c d : good_radix r digit -> digit c = Some d -> c <> 95.
Proof. intros [(-> & ->)|(-> & ->)] E ->; discriminate. Qed.

Lemma scan_ok r digit : good_radix r digit -> forall s v, spells digit s v -> Forall defined v -> forall acc,
  scan_digits r (strip_underscores s) acc =
  (fold_left (fun a d => 2 * a + match d with L1 => 1 | _ => 0 end) v acc, []).
Proof.
  intros G s v S. induction S as [|c s d v E S IH|s v S IH]; intros D acc; cbn [strip_underscores filter].
  - reflexivity.
  - apply Forall_app in D as (D1 & D2).
    destruct (N.eqb_spec c 95) as [->|NU]; [now apply (digit_not_under r digit _ _ G) in E|]. cbn [negb].
    destruct (digit_scan r digit c d G E D1) as (x & X & F). cbn [scan_digits]. rewrite X.
    fold (strip_underscores s). rewrite (IH D2), fold_left_app, F. reflexivity.
  - now apply IH.
Qed.

Lemma scan_stops r digit : good_radix r digit -> forall s v, spells digit s v -> Forall defined v -> forall acc,
  strip_underscores s = s \/ exists x rest, scan_digits r s acc = (x, 95 :: rest).
Proof.
  intros G s v S. induction S as [|c s d v E S IH|s v S IH]; intros D acc; cbn [strip_underscores filter].
  - now left.
  - apply Forall_app in D as (D1 & D2).
    destruct (N.eqb_spec c 95) as [->|NU]; [now apply (digit_not_under r digit _ _ G) in E|]. cbn [negb].
    destruct (digit_scan r digit c d G E D1) as (x & X & F). cbn [scan_digits]. rewrite X.
    destruct (IH D2 (acc * radix_value r + x)) as [K|K]; [left; f_equal; exact K|right; exact K].
  - right. cbn [scan_digits]. rewrite not_under. eauto.
Qed.

Lemma no_prefix digit s v r : good_radix r digit -> spells digit s v -> Forall defined v ->
  strtoll s r = (N.min (fst (scan_digits r s 0)) (2 ^ 63 - 1), snd (scan_digits r s 0)).
Proof.
  intros G S D. unfold strtoll.
  assert (E : match r, s with
    | Hex, 48 :: 88 :: (c :: _ as s') => match digit_in Hex c with Some _ => s' | None => s end
    | _, _ => s end = s).
  { destruct r; try reflexivity. inversion S as [|c s1 d v1 E1 S1|s1 v1 S1]; subst; try reflexivity.
    destruct (N.eq_dec c 48) as [->|NE].
    - inversion S1 as [|c2 s2 d2 v2 E2 S2|s2 v2 S2]; subst; try reflexivity.
      destruct (N.eq_dec c2 88) as [->|NE2].
      + destruct G as [(G & _)|(_ & ->)]; discriminate.
      + destruct c2 as [|p]; [reflexivity|]. repeat (destruct p as [p|p|]; try reflexivity). congruence.
    - destruct c as [|p]; [reflexivity|]. repeat (destruct p as [p|p|]; try reflexivity). congruence. }
  rewrite E. now destruct (scan_digits r s 0).
Qed.

Lemma no_xz r digit : good_radix r digit -> forall s v, spells digit s v ->
  (existsb is_xz s = false <-> Forall defined v).
Proof.
  intros G s v S. induction S as [|c s d v E S IH|s v S IH]; cbn [existsb].
  - split; [constructor|reflexivity].
  - rewrite orb_false_iff, Forall_app, IH.
    assert (H : is_xz c = false <-> Forall defined d); [|tauto].
    destruct G as [(-> & ->)|(-> & ->)].
    + apply bin_inv in E. cbn [In] in E. repeat destruct E as [E|E]; try tauto; injection E as <- <-;
        cbn; (split; [intros; try discriminate; repeat constructor; auto; fail|]);
        intros H; try reflexivity; inversion_clear H as [|? ? [U|U] _]; discriminate U.
    + apply hex_inv in E. unfold hex_table in E. cbn [In] in E.
      repeat destruct E as [E|E]; try tauto; injection E as <- <-;
        cbn; (split; [intros; try discriminate; repeat constructor; (now left) || (now right)|]);
        intros H; try reflexivity; inversion_clear H as [|? ? [U|U] _]; discriminate U.
  - exact IH.
Qed.

Lemma strip_spells digit s v : spells digit s v -> (forall c d, digit c = Some d -> c <> 95) -> spells digit (strip_underscores s) v.
Proof.
  intros S N. induction S as [|c s d v E S IH|s v S IH]; cbn [strip_underscores filter].
  - constructor.
  - destruct (N.eqb_spec c 95) as [->|NU]; [now apply N in E|]. now apply sp_digit.
  - exact IH.
Qed.

(* ---------- fit ---------- *)

Lemma fit_length w v : length (fit w v) = w.
Proof. unfold fit. rewrite skipn_length, app_length, repeat_length. lia. Qed.

Lemma fit_dig w v i : (i < w)%nat -> dig (fit w v) i = dig v i.
Proof.
  intros H. unfold fit. destruct (Nat.le_gt_cases (length v) w) as [L|L].
  - replace (length v - w)%nat with 0%nat by lia. cbn [skipn]. rewrite dig_app.
    destruct (Nat.ltb_spec i (length v)); [reflexivity|].
    unfold dig. rewrite repeat_length. destruct (Nat.ltb_spec i (length v)); [lia|].
    destruct (Nat.ltb_spec (i - length v) (w - length v)); [|lia].
    destruct (nth_in_or_default (w - length v - 1 - (i - length v)) (repeat L0 (w - length v)) X) as [I|E].
    + now apply repeat_spec in I.
    + exfalso. assert (HH : In (nth (w - length v - 1 - (i - length v)) (repeat L0 (w - length v)) X) (repeat L0 (w - length v)))
        by (apply nth_In; rewrite repeat_length; lia). apply repeat_spec in HH. congruence.
  - replace (w - length v)%nat with 0%nat by lia. cbn [repeat app].
    rewrite <- (firstn_skipn (length v - w) v) at 3. rewrite dig_app, skipn_length.
    destruct (Nat.ltb_spec i (length v - (length v - w))); [reflexivity|lia].
Qed.

Lemma fit_defined w v : Forall defined v -> Forall defined (fit w v).
Proof.
  intros H. unfold fit. rewrite Forall_forall in *. intros x I.
  assert (I' : In x (repeat L0 (w - length v) ++ v)).
  { rewrite <- (firstn_skipn (length v - w) (repeat L0 (w - length v) ++ v)). apply in_or_app. now right. }
  apply in_app_or in I' as [J|J]; [|now apply H]. apply repeat_spec in J. now left.
Qed.

Lemma narrow_literal r digit s v w : good_radix r digit -> spells digit s v ->
  Forall defined v -> (w <= 32)%nat -> value v < 2 ^ 63 ->
  exists n, number_new (Literal (Some (N.of_nat w)) r s) = Ok (n, false) /\ has_digits n (fit w v).
Proof.
  intros G S D W V. unfold number_new. cbn [lwidth lradix ldigits].
  pose proof (proj2 (no_xz r digit G s v S) D) as NX. rewrite NX. unfold INTEGER_WIDTH_MAX.
  destruct (N.leb_spec (N.of_nat w) 32); [|lia]. cbn [negb andb].
  assert (NU : forall c d, digit c = Some d -> c <> 95) by (intros c d; now apply (digit_not_under r)).
  assert (ST : strtoll (strip_underscores s) r = (value v, [])).
  { rewrite (no_prefix digit _ v r G (strip_spells digit s v S NU) D), (scan_ok r digit G s v S D). cbn [fst snd].
    fold (value v). f_equal. lia. }
  assert (HD : has_digits (mk_integer (N.of_nat w) (value v)) (fit w v)).
  { apply integer_digits; rewrite ?fit_length; auto using fit_defined.
    intros n N. rewrite !value_testbit. now rewrite fit_dig. }
  destruct (scan_stops r digit G s v S D 0) as [E|(x & rest & E)].
  - rewrite E in *. rewrite ST. eexists. split; [reflexivity|exact HD].
  - rewrite (no_prefix digit s v r G S D), E. cbn [fst snd].
    replace (95 =? 95) with true by reflexivity. rewrite ST. eexists. split; [reflexivity|exact HD].
Qed.

Definition lower_digits (s : list N) : Prop := Forall (fun c => c <> 95 /\ ~ upper c) s.

Definition carry_of (r : radix) (c : N) : N * bool := match r with Hex => hex_carry c | _ => bin_carry c end.
Definition step_of (r : radix) : nat := match r with Hex => 4 | _ => 1 end.

Lemma carry_ok r digit c d : good_radix r digit -> digit c = Some d -> ~ upper c ->
  length d = step_of r /\ snd (carry_of r c) = false /\ fst (carry_of r c) < 2 ^ (2 * N.of_nat (step_of r)) /\
  forall j, (j < step_of r)%nat -> pair (fst (carry_of r c)) (N.of_nat j) = code (dig d j).
Proof.
  intros [(-> & ->)|(-> & ->)] E U.
  - apply bin_inv in E. cbn [In] in E. repeat destruct E as [E|E]; try tauto; injection E as <- <-;
      (split; [reflexivity|]; split; [reflexivity|]; split; [reflexivity|]; intros [|j] J; [reflexivity|cbn in J; lia]).
  - apply hex_inv in E. unfold hex_table in E. cbn [In] in E. unfold upper in U.
    repeat destruct E as [E|E]; try tauto; injection E as <- <-; try (exfalso; lia);
      (split; [reflexivity|]; split; [reflexivity|]; split; [reflexivity|];
       intros [|[|[|[|j]]]] J; [reflexivity|reflexivity|reflexivity|reflexivity|cbn in J; lia]).
Qed.

Lemma shift_digits_ok r digit k : good_radix r digit -> forall s v, spells digit s v -> lower_digits s ->
  forall ws v0, length ws = k -> Forall (fun w => w < 2 ^ 64) ws ->
  (forall n, (n < 32 * k)%nat -> gp ws (N.of_nat n) = code (dig v0 n)) ->
  exists ws', shift_digits r s (Big (32 * N.of_nat k) ws) false = Ok (Big (32 * N.of_nat k) ws', false) /\
    length ws' = k /\ forall n, (n < 32 * k)%nat -> gp ws' (N.of_nat n) = code (dig (v0 ++ v) n).
Proof.
  intros G s v S. induction S as [|c s d v E S IH|s v S IH]; intros LD ws v0 L F H.
  - exists ws. rewrite app_nil_r. auto.
  - inversion_clear LD as [|? ? (U1 & U2) LD'].
    destruct (carry_ok r digit c d G E U2) as (C1 & C2 & C3 & C4).
    assert (SS : (step_of r = 1 \/ step_of r = 4)%nat) by (destruct r; auto).
    destruct (shift_words_ok (N.of_nat (step_of r)) ltac:(lia) ltac:(lia) ws (fst (carry_of r c)) F C3)
      as (S1 & S2 & _ & _ & S5).
    assert (EQ : shift_digits r (c :: s) (Big (32 * N.of_nat k) ws) false =
      shift_digits r s (Big (32 * N.of_nat k) (fst (shift_words (N.of_nat (step_of r)) ws (fst (carry_of r c))))) false).
    { cbn [shift_digits]. destruct G as [(-> & ->)|(-> & ->)]; cbn [carry_of step_of] in *.
      - destruct (bin_carry c) as (kk, e). cbn [fst snd] in *. subst e. reflexivity.
      - destruct (hex_carry c) as (kk, e). cbn [fst snd] in *. subst e. reflexivity. }
    rewrite EQ, app_assoc. apply IH; [exact LD'|lia|exact S2|].
    intros n N. rewrite (S5 (N.of_nat n)) by lia. rewrite dig_app, C1.
    destruct (N.ltb_spec (N.of_nat n) (N.of_nat (step_of r))), (Nat.ltb_spec n (step_of r)); try lia.
    + now apply C4.
    + replace (N.of_nat n - N.of_nat (step_of r)) with (N.of_nat (n - step_of r)) by lia. apply H. lia.
  - inversion_clear LD as [|? ? (U1 & _) _]. congruence.
Qed.

Lemma gp_zero k : forall n, (n < 32 * k)%nat -> gp (repeat BIG_PACKED_ZERO k) (N.of_nat n) = 2.
Proof.
  induction k as [|k IH]; intros n H; [lia|]. cbn [repeat gp]. rewrite repeat_length.
  destruct (N.ltb_spec (N.of_nat n) (32 * N.of_nat k)); [apply IH; lia|].
  replace (N.of_nat n - 32 * N.of_nat k) with (N.of_nat (n - 32 * k)) by lia.
  assert (B : (n - 32 * k < 32)%nat) by lia. remember (n - 32 * k)%nat as m.
  clear -B. do 32 (destruct m as [|m]; [reflexivity|]). lia.
Qed.

Lemma wide_literal r digit s v k : good_radix r digit -> spells digit s v -> lower_digits s -> (0 < k)%nat ->
  ~ Forall defined v \/ (1 < k)%nat ->
  exists n, number_new (Literal (Some (N.of_nat (32 * k))) r s) = Ok (n, false) /\ has_digits n (fit (32 * k) v).
Proof.
  intros G S LD K0 W. unfold number_new. cbn [lwidth lradix ldigits].
  assert (C : negb (existsb is_xz s) && (N.of_nat (32 * k) <=? INTEGER_WIDTH_MAX) = false).
  { destruct W as [W|W].
    - destruct (existsb is_xz s) eqn:X; [reflexivity|]. apply (no_xz r digit G s v S) in X. tauto.
    - unfold INTEGER_WIDTH_MAX. destruct (N.leb_spec (N.of_nat (32 * k)) 32); [lia|]. apply andb_false_r. }
  rewrite C. unfold SMALLNUM_WIDTH_MAX. destruct (N.leb_spec (N.of_nat (32 * k)) 31); [lia|].
  replace (N.of_nat (32 * k)) with (32 * N.of_nat k) by lia. rewrite words_32, Nat2N.id.
  assert (F : Forall (fun w => w < 2 ^ 64) (repeat BIG_PACKED_ZERO k)).
  { apply Forall_forall. intros x I. apply repeat_spec in I. subst x. reflexivity. }
  destruct (shift_digits_ok r digit k G s v S LD (repeat BIG_PACKED_ZERO k) [] (repeat_length _ _) F) as (ws & E & L & H2).
  { intros n N. rewrite gp_zero by exact N. unfold dig. cbn. reflexivity. }
  exists (Big (32 * N.of_nat k) ws). split.
  - destruct G as [(-> & _)|(-> & _)]; exact E.
  - apply has_digits_dig; rewrite fit_length.
    + cbn [number_width]. lia.
    + intros i I. rewrite (big_bit k ws) by (auto; lia). f_equal. rewrite (H2 i I). now rewrite fit_dig.
Qed.
