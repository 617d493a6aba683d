(* C33, C53: Verilog numbers. *)
From Coq Require Import List NArith ZArith Bool Lia Arith ZifyNat ZifyN ZifyBool.
From Verif Require Import Base AdlerModel FbufModel FbufSpec FbufProofs FbufProps NumberModel NumberSpec NumberProofs.
Import ListNotations.
Open Scope N_scope.

(* ---- C33: packing ---- *)

(* Packing any vector of a kept kind and reading its bits gives the same digits.  The
   claim for all vectors is C33_full_pack below and is false. *)
Theorem C33_pack_partial : forall bits v, holds bits v -> kept v -> has_digits (number_pack bits) v.
Proof. exact pack_digits. Qed.
Print Assumptions C33_pack_partial.

Definition C33_full_pack : Prop := forall bits v, holds bits v -> has_digits (number_pack bits) v.

(* Of 31 digits with an X the three most significant are lost; of 33 digits the most
   significant one is read in the wrong place. *)
Theorem C33_pack_refuted :
  let v1 := repeat L1 30 ++ [X] in let v2 := L1 :: repeat L0 32 in
  ~ has_digits (number_pack (map code v1)) v1 /\ ~ has_digits (number_pack (map code v2)) v2 /\
  ~ C33_full_pack.
Proof.
  cbv zeta.
  assert (H2 : ~ has_digits (number_pack (map code (L1 :: repeat L0 32))) (L1 :: repeat L0 32)).
  { intros (_ & H). specialize (H 32%nat). vm_compute in H. discriminate H. repeat constructor. }
  split; [|split; [exact H2|]].
  - intros (_ & H). specialize (H 30%nat). vm_compute in H. discriminate H. repeat constructor.
  - intros F. apply H2, F. reflexivity.
Qed.
Print Assumptions C33_pack_refuted.

(* ---- whether a number is defined ---- *)

Lemma land_ones_iff x m : N.land x m = m <-> forall i, N.testbit m i = true -> N.testbit x i = true.
Proof.
  split.
  - intros E i M. rewrite <- E, N.land_spec in M. now apply andb_prop in M.
  - intros H. apply N.bits_inj. intros i. rewrite N.land_spec. destruct (N.testbit m i) eqn:M.
    + now rewrite (H i M).
    + apply andb_false_r.
Qed.

Lemma pair_top x n : N.testbit x (n * 2 + 1) = N.testbit (pair x n) 1.
Proof. rewrite pair_testbit. reflexivity. Qed.

Lemma small_zero_bit i : N.testbit SMALL_PACKED_ZERO i = true <-> exists n, (n < 28)%nat /\ i = N.of_nat n * 2 + 1.
Proof.
  split.
  - intros H. destruct (N.lt_ge_cases i 56) as [L|L].
    + exists (N.to_nat (i / 2)). split; [pose proof (N.div_lt_upper_bound i 2 28); lia|].
      rewrite N2Nat.id. pose proof (N.div_mod i 2). pose proof (N.mod_lt i 2).
      assert (E : forall j, (j < 28)%nat -> N.testbit SMALL_PACKED_ZERO (N.of_nat j * 2) = false)
        by (intros j J; do 28 (destruct j as [|j]; [reflexivity|]); lia).
      specialize (E (N.to_nat (i / 2))). rewrite N2Nat.id in E.
      destruct (N.eq_dec (i mod 2) 0); [|lia]. exfalso.
      assert (B : (N.to_nat (i / 2) < 28)%nat) by (pose proof (N.div_lt_upper_bound i 2 28); lia).
      specialize (E B). replace (i / 2 * 2) with i in E by lia. congruence.
    + rewrite (testbit_high SMALL_PACKED_ZERO 56 i) in H by (try exact L; reflexivity). discriminate.
  - intros (n & L & ->). do 28 (destruct n as [|n]; [reflexivity|]). lia.
Qed.

Lemma big_zero_bit i : N.testbit BIG_PACKED_ZERO i = true <-> exists n, (n < 32)%nat /\ i = N.of_nat n * 2 + 1.
Proof.
  split.
  - intros H. destruct (N.lt_ge_cases i 64) as [L|L].
    + exists (N.to_nat (i / 2)). split; [pose proof (N.div_lt_upper_bound i 2 32); lia|].
      rewrite N2Nat.id. pose proof (N.div_mod i 2). pose proof (N.mod_lt i 2).
      assert (E : forall j, (j < 32)%nat -> N.testbit BIG_PACKED_ZERO (N.of_nat j * 2) = false)
        by (intros j J; do 32 (destruct j as [|j]; [reflexivity|]); lia).
      specialize (E (N.to_nat (i / 2))). rewrite N2Nat.id in E.
      destruct (N.eq_dec (i mod 2) 0); [|lia]. exfalso.
      assert (B : (N.to_nat (i / 2) < 32)%nat) by (pose proof (N.div_lt_upper_bound i 2 32); lia).
      specialize (E B). replace (i / 2 * 2) with i in E by lia. congruence.
    + rewrite (testbit_high BIG_PACKED_ZERO 64 i) in H by (try exact L; reflexivity). discriminate.
  - intros (n & L & ->). do 32 (destruct n as [|n]; [reflexivity|]). lia.
Qed.

Lemma code_top d : N.testbit (code d) 1 = true <-> defined d.
Proof. unfold defined. destruct d; cbn; split; intros H; try discriminate; auto; destruct H; discriminate. Qed.

Lemma small_zero_pair n : (n < 28)%nat -> N.testbit (pair SMALL_PACKED_ZERO (N.of_nat n)) 1 = true.
Proof. intros L. rewrite <- pair_top. apply small_zero_bit. eauto. Qed.
Lemma big_zero_pair n : (n < 32)%nat -> N.testbit (pair BIG_PACKED_ZERO (N.of_nat n)) 1 = true.
Proof. intros L. rewrite <- pair_top. apply big_zero_bit. eauto. Qed.

Lemma dig_all v : Forall defined v <-> forall n, (n < length v)%nat -> defined (dig v n).
Proof.
  split.
  - intros H n _. now apply dig_defined.
  - intros H. apply Forall_forall. intros d I. apply (In_nth v d X) in I as (j & J & E).
    specialize (H (length v - 1 - j)%nat ltac:(lia)). unfold dig in H.
    destruct (Nat.ltb_spec (length v - 1 - j) (length v)); [|lia].
    replace (length v - 1 - (length v - 1 - j))%nat with j in H by lia. now rewrite E in H.
Qed.

Lemma pack_words_defined k : forall bits v, map strip_strength bits = map code v -> (length v <= 32 * k)%nat ->
  (forallb (fun w => N.land w BIG_PACKED_ZERO =? BIG_PACKED_ZERO) (pack_words k bits) = true <-> Forall defined v).
Proof.
  induction k as [|k IH]; intros bits v E L; cbn [pack_words forallb].
  - destruct v; [|cbn in L; lia]. split; [constructor|reflexivity].
  - assert (E1 : map strip_strength (firstn 32 bits) = map code (firstn 32 v)) by (now rewrite <- !firstn_map, E).
    assert (E2 : map strip_strength (skipn 32 bits) = map code (skipn 32 v)) by (now rewrite <- !skipn_map, E).
    rewrite andb_true_iff, (IH _ _ E2) by (rewrite skipn_length; lia).
    rewrite <- (firstn_skipn 32 v) at 2. rewrite Forall_app.
    assert (H : (N.land (fold_left push_digit (firstn 32 bits) BIG_PACKED_ZERO) BIG_PACKED_ZERO =? BIG_PACKED_ZERO) = true
      <-> Forall defined (firstn 32 v)); [|tauto].
    rewrite N.eqb_eq, land_ones_iff, dig_all. rewrite firstn_length. split.
    + intros H n N. apply code_top. specialize (H (N.of_nat n * 2 + 1)).
      assert (BZ : N.testbit BIG_PACKED_ZERO (N.of_nat n * 2 + 1) = true) by (apply big_zero_bit; exists n; lia).
      specialize (H BZ). rewrite pair_top, (push_all _ _ _ E1) in H by lia. rewrite firstn_length in H.
      destruct (Nat.ltb_spec n (Nat.min 32 (length v))); [|lia]. exact H.
    + intros H i I. apply big_zero_bit in I as (n & N & ->).
      rewrite pair_top, (push_all _ _ _ E1) by lia. rewrite firstn_length.
      destruct (Nat.ltb_spec n (Nat.min 32 (length v))); [apply code_top, H; lia|apply big_zero_pair; lia].
Qed.

(* A packed number is defined exactly when no digit is X or Z, unless it has 29 to 31
   digits. *)
Theorem C33_defined_partial : forall bits v, holds bits v -> (length v <= 28 \/ 32 <= length v)%nat ->
  (number_is_defined (number_pack bits) = true <-> Forall defined v).
Proof.
  intros bits v H K. pose proof (holds_length _ _ H) as HL. apply holds_strip in H.
  unfold number_pack. change (existsb _ bits) with (existsb xz_byte bits). rewrite HL.
  unfold INTEGER_WIDTH_MAX, SMALLNUM_WIDTH_MAX.
  destruct (negb (existsb xz_byte bits) && (N.of_nat (length v) <=? 32)) eqn:C.
  - apply andb_prop in C as (C1 & _). apply negb_true_iff in C1. apply (xz_defined _ _ H) in C1.
    split; [intros _; exact C1|reflexivity].
  - destruct (N.leb_spec (N.of_nat (length v)) 31) as [L|L].
    + unfold mk_small. cbn [number_is_defined]. rewrite N.eqb_eq, land_ones_iff, dig_all. split.
      * intros D n N. apply code_top. specialize (D (N.of_nat n * 2 + 1)).
        assert (BZ : N.testbit SMALL_PACKED_ZERO (N.of_nat n * 2 + 1) = true) by (apply small_zero_bit; exists n; lia).
        specialize (D BZ).
        rewrite mod_testbit in D. destruct (N.ltb_spec (N.of_nat n * 2 + 1) 56); [|lia]. cbn [andb] in D.
        rewrite pair_top, (push_all bits v _ H) in D by lia. destruct (Nat.ltb_spec n (length v)); [|lia].
        exact D.
      * intros D i I. apply small_zero_bit in I as (n & N & ->). rewrite mod_testbit.
        destruct (N.ltb_spec (N.of_nat n * 2 + 1) 56); [|lia]. cbn [andb]. rewrite pair_top, (push_all bits v _ H) by lia.
        destruct (Nat.ltb_spec n (length v)); [apply code_top, D; lia|apply small_zero_pair; lia].
    + cbn [number_is_defined]. apply pack_words_defined; [exact H|].
      unfold bignum_words. pose proof (N.div_mod (N.of_nat (length v) + 31) 32).
      pose proof (N.mod_lt (N.of_nat (length v) + 31) 32). lia.
Qed.
Print Assumptions C33_defined_partial.

Theorem C33_defined_refuted : exists v, ~ Forall defined v /\ length v = 31%nat /\
  number_is_defined (number_pack (map code v)) = true.
Proof.
  exists (X :: repeat L0 30). split; [|split; reflexivity].
  intros H. inversion_clear H as [|? ? [U|U] _]; discriminate.
Qed.
Print Assumptions C33_defined_refuted.

(* ---- the value ---- *)

Lemma firstn_next (v : list logic) : forall j, (j < length v)%nat -> firstn (S j) v = firstn j v ++ [nth j v X].
Proof.
  induction v as [|d v IH]; intros [|j] J; cbn [length] in J; try lia; [reflexivity|].
  change (d :: firstn (S j) v = d :: (firstn j v ++ [nth j v X])). f_equal. apply IH. lia.
Qed.

Lemma loop_value n v : has_digits n v -> Forall defined v -> (length v <= 64)%nat ->
  forall k, (k <= length v)%nat -> integer_loop n k (value (firstn (length v - k) v)) = Ok (value v).
Proof.
  intros (W & H) D L. induction k as [|k IH]; intros K; cbn [integer_loop].
  - now rewrite Nat.sub_0_r, firstn_all.
  - rewrite (H k) by lia. cbn [bind]. rewrite <- IH by lia. f_equal.
    set (j := (length v - S k)%nat). replace (length v - 1 - k)%nat with j by lia.
    replace (length v - k)%nat with (S j) by lia.
    assert (S1 := firstn_next v j ltac:(lia)).
    rewrite S1, value_snoc.
    assert (B : value (firstn j v) < 2 ^ 63).
    { eapply N.lt_le_trans; [apply value_lt|]. apply N.pow_le_mono_r; [lia|]. rewrite firstn_length. lia. }
    rewrite N.shiftl_mul_pow2. change (2 ^ 1) with 2. rewrite N.mod_small by lia.
    assert (DD : defined (nth j v X)) by (eapply Forall_forall; [exact D|apply nth_In; lia]).
    destruct DD as [->| ->]; cbn [code bit_of].
    + change (N.land 2 1) with 0. rewrite N.lor_0_r. lia.
    + change (N.land 3 1) with 1. rewrite (N.mul_comm (value _)).
      apply N.bits_inj. intros i. destruct i as [|p] using N.peano_ind.
      * rewrite N.lor_spec, N.testbit_even_0, N.testbit_odd_0. reflexivity.
      * rewrite N.lor_spec, N.testbit_even_succ, N.testbit_odd_succ by lia.
        destruct p; cbn; now rewrite ?orb_false_r.
Qed.

(* The integer value of a packed vector of 0 and 1. *)
Theorem C33_integer_partial : forall bits v, holds bits v -> Forall defined v ->
  (length v <= 32 \/ length v = 64)%nat -> number_integer (number_pack bits) = Ok (value v).
Proof.
  intros bits v H D L.
  assert (K : kept v) by (unfold kept; destruct L; [left; auto|right; right; exists 2%nat; lia]).
  pose proof (pack_digits bits v H K) as HD.
  assert (DF : number_is_defined (number_pack bits) = true).
  { destruct (Nat.le_gt_cases 29 (length v)), (Nat.le_gt_cases (length v) 31).
    2-4: apply (C33_defined_partial bits v H); [lia|exact D].
    pose proof (holds_length _ _ H) as HL. apply holds_strip in H. apply (xz_defined _ _ H) in D.
    unfold number_pack. change (existsb _ bits) with (existsb xz_byte bits). rewrite D, HL. unfold INTEGER_WIDTH_MAX.
    destruct (N.leb_spec (N.of_nat (length v)) 32); [reflexivity|lia]. }
  unfold number_integer. rewrite DF, (proj1 HD).
  destruct (N.leb_spec (N.of_nat (length v)) 64); [|lia]. cbn [andb].
  destruct (number_pack bits) as [w p|w p|w ws] eqn:E.
  - unfold number_pack in E. change (existsb _ bits) with (existsb xz_byte bits) in E.
    pose proof (holds_strip _ _ H) as HS. pose proof (proj2 (xz_defined _ _ HS) D) as NX. rewrite NX in E.
    cbn [negb andb] in E. rewrite (holds_length _ _ H) in E. unfold INTEGER_WIDTH_MAX, SMALLNUM_WIDTH_MAX in E.
    destruct (N.leb_spec (N.of_nat (length v)) 32).
    + unfold mk_integer in E. injection E as _ <-. rewrite (push_bits bits v D HS) by lia.
      f_equal. apply N.mod_small. eapply N.lt_le_trans; [apply value_lt|]. apply N.pow_le_mono_r; lia.
    + destruct (N.of_nat (length v) <=? 31); discriminate.
  - rewrite Nat2N.id. rewrite <- (loop_value _ v HD D ltac:(lia) (length v)) by lia.
    rewrite Nat.sub_diag. reflexivity.
  - rewrite Nat2N.id. rewrite <- (loop_value _ v HD D ltac:(lia) (length v)) by lia.
    rewrite Nat.sub_diag. reflexivity.
Qed.
Print Assumptions C33_integer_partial.

(* Between 33 and 63 digits the value is wrong. *)
Theorem C33_integer_refuted : exists v, Forall defined v /\ length v = 33%nat /\ value v = 2 ^ 32 /\
  number_integer (number_pack (map code v)) = Ok (2 ^ 31).
Proof.
  exists (L1 :: repeat L0 32). split; [|split; [|split]]; try reflexivity.
  constructor; [now right|]. apply Forall_forall; intros x I; apply repeat_spec in I; now left.
Qed.
Print Assumptions C33_integer_refuted.

(* ---- C33: literals ---- *)

(* The digits of the characters of a radix. *)
Definition digit_of (r : radix) : N -> option (list logic) := match r with Hex => hex_digit | _ => bin_digit end.

(* Literals for which number_new gives the digits that are written, cut or filled up with
   zeros to the width: either without x and z, with at most 32 digits and a value that
   fits in 63 bits, or with a width that is a multiple of 32, without underscores and
   capital letters. *)
Definition good_literal (w : nat) (s : list N) (v : list logic) : Prop :=
  (Forall defined v /\ (w <= 32)%nat /\ value v < 2 ^ 63) \/
  ((exists k, w = (32 * k)%nat /\ (0 < k)%nat) /\ (~ Forall defined v \/ (32 < w)%nat) /\
   Forall (fun c => c <> 95 /\ ~ upper c) s).

Theorem C33_literal_partial : forall r w s v, r <> Dec -> spells (digit_of r) s v -> good_literal w s v ->
  exists n, number_new (Literal (Some (N.of_nat w)) r s) = Ok (n, false) /\ has_digits n (fit w v).
Proof.
  intros r w s v R S G.
  assert (GR : good_radix r (digit_of r)) by (destruct r; [left; auto|congruence|right; auto]).
  destruct G as [(D & W & V)|((k & -> & K0) & X & F)].
  - now apply (narrow_literal r (digit_of r)).
  - apply (wide_literal r (digit_of r)); auto. destruct X as [X|X]; [now left|right; lia].
Qed.
Print Assumptions C33_literal_partial.

Definition C33_full_literal : Prop := forall r w s v, r <> Dec -> spells (digit_of r) s v ->
  exists n, number_new (Literal (Some (N.of_nat w)) r s) = Ok (n, false) /\ has_digits n (fit w v).

(* Literals that go wrong: 4'b10zx is XXXX; 40'h1ff is read as 40'hff; a capital letter
   or an underscore in a wide literal is an error; a value of 2^63 or more is replaced by
   2^63 - 1; a wide decimal literal is a fault. *)
Theorem C33_literal_refuted :
  (exists n, number_new (Literal (Some 4) Bin [49; 48; 122; 120]) = Ok (n, false) /\
     number_bit n 0 = Ok (code X) /\ number_bit n 1 = Ok (code X) /\ number_bit n 3 = Ok (code X)) /\
  (exists n, number_new (Literal (Some 40) Hex [49; 102; 102]) = Ok (n, false) /\ number_bit n 7 = Ok (code L1) /\
     number_bit n 8 = Ok (code L0)) /\
  (exists n, number_new (Literal (Some 64) Hex [70]) = Ok (n, true)) /\
  (exists n, number_new (Literal (Some 64) Hex [49; 95; 49]) = Ok (n, true)) /\
  (exists n, number_new (Literal (Some 32) Hex (repeat 102 7 ++ repeat 48 9)) = Ok (n, false) /\
     number_bit n 0 = Ok (code L1)) /\
  number_new (Literal (Some 33) Dec [49]) = Fault /\
  ~ C33_full_literal.
Proof.
  split. { eexists. split; [vm_compute; reflexivity|]. vm_compute. auto. }
  split. { eexists. split; [vm_compute; reflexivity|]. vm_compute. auto. }
  split. { eexists. vm_compute; reflexivity. }
  split. { eexists. vm_compute; reflexivity. }
  split. { eexists. split; [vm_compute; reflexivity|]. vm_compute. auto. }
  split; [reflexivity|].
  intros F. destruct (F Bin 4%nat [49; 48; 122; 120] [L1; L0; Z; X] ltac:(discriminate)) as (n & E & H).
  - apply (sp_digit bin_digit 49 _ [L1]); [reflexivity|]. apply (sp_digit bin_digit 48 _ [L0]); [reflexivity|].
    apply (sp_digit bin_digit 122 _ [Z]); [reflexivity|]. apply (sp_digit bin_digit 120 _ [X] []); [reflexivity|constructor].
  - vm_compute in E. injection E as <-. destruct H as (_ & H). specialize (H 3%nat). vm_compute in H.
    discriminate H. repeat constructor.
Qed.
Print Assumptions C33_literal_refuted.

Example C33_example :
  kept [L1; X; Z; L0] /\ holds [7; 0; 5; 2] [L1; X; Z; L0] /\
  number_bit (number_pack [7; 0; 5; 2]) 1 = Ok (code Z) /\
  good_literal 8 [49; 95; 102] [L0; L0; L0; L1; L1; L1; L1; L1] /\
  spells (digit_of Hex) [49; 95; 102] [L0; L0; L0; L1; L1; L1; L1; L1] /\
  good_literal 32 [120] [X; X; X; X].
Proof.
  split; [right; left; cbn; lia|]. split; [reflexivity|]. split; [reflexivity|]. split; [|split].
  - left. split; [|split; [lia|reflexivity]].
    repeat (constructor; [first [now left|now right]|]). constructor.
  - apply (sp_digit hex_digit 49 _ [L0; L0; L0; L1]); [reflexivity|]. apply sp_under.
    apply (sp_digit hex_digit 102 _ [L1; L1; L1; L1] []); [reflexivity|constructor].
  - right. split; [exists 1%nat; lia|]. split.
    + left. intros H. inversion_clear H as [|? ? [U|U] _]; discriminate.
    + constructor; [|constructor]. unfold upper. lia.
Qed.

(* ---- C53: constants in library files ---- *)

(* Numbers as they occur: fields within their bits, as many words as the width needs, and
   a big number of at most 245760 digits. *)
Definition well_formed (n : number) : Prop :=
  match n with
  | Integer w p => w < 2 ^ 6 /\ p < 2 ^ 32
  | Small w p => w < 2 ^ 5 /\ p < 2 ^ 56
  | Big w ws => w <= 245760 /\ N.of_nat (length ws) = bignum_words w /\ Forall (fun x => x < 2 ^ 64) ws
  end.

Lemma le_fold : forall n u, u < 2 ^ (8 * N.of_nat n) -> fold_right (fun b acc => b + 256 * acc) 0 (le_bytes n u) = u.
Proof.
  induction n as [|n IH]; intros u U; cbn [le_bytes fold_right].
  - cbn in U. lia.
  - rewrite IH.
    + rewrite land255, N.shiftr_div_pow2. change (2 ^ 8) with 256. pose proof (N.div_mod u 256). lia.
    + rewrite N.shiftr_div_pow2. apply N.div_lt_upper_bound; [discriminate|].
      rewrite <- N.pow_add_r. replace (8 + 8 * N.of_nat n) with (8 * N.of_nat (S n)) by lia. exact U.
Qed.

Lemma words_of_ok : forall ws, Forall (fun x => x < 2 ^ 64) ws -> words_of (length ws) (concat (map (le_bytes 8) ws)) = ws.
Proof.
  induction ws as [|w ws IH]; intros F; [reflexivity|]. inversion_clear F as [|? ? W F'].
  cbn [length map concat words_of].
  pose proof (le_bytes_len 8 w) as L8.
  assert (EF : firstn 8 (le_bytes 8 w ++ concat (map (le_bytes 8) ws)) = le_bytes 8 w).
  { rewrite firstn_app, L8, Nat.sub_diag. rewrite firstn_O, app_nil_r. apply firstn_all2. rewrite L8. apply le_n. }
  assert (ES : skipn 8 (le_bytes 8 w ++ concat (map (le_bytes 8) ws)) = concat (map (le_bytes 8) ws)).
  { rewrite skipn_app, L8, Nat.sub_diag, skipn_all2 by lia. reflexivity. }
  rewrite EF, ES.
  rewrite (le_fold 8) by exact W. f_equal. now apply IH.
Qed.

Lemma concat_le ws : length (concat (map (le_bytes 8) ws)) = (length ws * 8)%nat.
Proof. induction ws as [|w ws IH]; [reflexivity|]. cbn [map concat length]. rewrite app_length, le_bytes_len, IH. lia. Qed.

Lemma write_range n : well_formed n -> Forall in_range (number_write n).
Proof.
  destruct n as [w p|w p|w ws]; cbn [well_formed number_write]; intros W.
  - repeat constructor. cbn [in_range number_bits]. change (2 ^ 6) with 64 in W. change (2 ^ 32) with 4294967296 in W.
    change (2 ^ 64) with 18446744073709551616. lia.
  - repeat constructor. cbn [in_range number_bits]. change (2 ^ 5) with 32 in W. change (2 ^ 56) with 72057594037927936 in W.
    change (2 ^ 64) with 18446744073709551616. lia.
  - destruct W as (W & L & F). constructor; [cbn; lia|]. constructor; [cbn [in_range]; lia|].
    constructor; [|constructor]. cbn [in_range]. split.
    + apply Forall_concat. apply Forall_map. apply Forall_forall. intros; apply le_bytes_bytes.
    + rewrite concat_le. unfold bignum_words in L.
      assert ((w + 31) / 32 < 7681) by (apply N.div_lt_upper_bound; lia). lia.
Qed.

Lemma div_mod_parts a w p q : a < 8 -> w < q -> (a + 8 * w + 8 * q * p) mod 8 = a /\
  (a + 8 * w + 8 * q * p) / 8 mod q = w /\ (a + 8 * w + 8 * q * p) / (8 * q) = p.
Proof.
  intros A W.
  assert (E : (a + 8 * w + 8 * q * p) / 8 = w + p * q).
  { symmetry. apply (N.div_unique _ 8 _ a); lia. }
  split; [symmetry; apply (N.mod_unique _ 8 (w + p * q)); lia|]. split.
  - rewrite E. rewrite N.mod_add by lia. now apply N.mod_small.
  - rewrite <- N.div_div by lia. rewrite E. rewrite N.div_add by lia. now rewrite N.div_small.
Qed.

Lemma read_ok n rest : well_formed n -> number_read (concat (map enc (number_write n)) ++ rest) = Ok (n, rest).
Proof.
  intros W. pose proof (write_range n W) as R.
  destruct n as [w p|w p|w ws]; cbn [number_write map concat] in *; unfold number_read.
  - inversion_clear R as [|? ? R1 _]. cbn [enc]. rewrite app_nil_r, get_uint_ok by exact R1. cbn [bind].
    cbn [number_bits]. destruct W as (W1 & W2). destruct (div_mod_parts 2 w p 64) as (D1 & D2 & D3); [lia|exact W1|].
    replace (2 + 8 * w + 8 * 64 * p) with (2 + 8 * w + 512 * p) in * by lia.
    assert (M : (2 + 8 * w + 512 * p) mod 4 = 2).
    { symmetry. apply (N.mod_unique _ 4 (2 * w + 128 * p)); lia. }
    unfold of_bits. rewrite M. cbn [N.eqb]. change (2 ^ 6) with 64. change (8 * 64) with 512 in D3. rewrite D2, D3.
    rewrite N.mod_small by exact W2. reflexivity.
  - inversion_clear R as [|? ? R1 _]. cbn [enc]. rewrite app_nil_r, get_uint_ok by exact R1. cbn [bind].
    cbn [number_bits]. destruct W as (W1 & W2). destruct (div_mod_parts 1 w p 32) as (D1 & D2 & D3); [lia|exact W1|].
    replace (1 + 8 * w + 8 * 32 * p) with (1 + 8 * w + 256 * p) in * by lia.
    assert (M : (1 + 8 * w + 256 * p) mod 4 = 1).
    { symmetry. apply (N.mod_unique _ 4 (2 * w + 64 * p)); lia. }
    unfold of_bits. rewrite M. cbn [N.eqb]. change (2 ^ 5) with 32. change (8 * 32) with 256 in D3. rewrite D2, D3.
    rewrite N.mod_small by exact W2. reflexivity.
  - pose proof (Forall_inv_tail R) as R'. pose proof (Forall_inv R') as R2.
    pose proof (Forall_inv (Forall_inv_tail R')) as R3. clear R R'.
    destruct W as (W & L & F). rewrite app_nil_r, <- !app_assoc.
    change (enc (FUint 0)) with (leb 10 0). rewrite get_uint_ok by reflexivity. cbn [bind].
    replace (0 mod 4 =? 0) with true by reflexivity.
    pose proof (read_field_ok (FInt (Z.of_N w)) (enc (FRaw (concat (map (le_bytes 8) ws))) ++ rest) R2) as E2.
    cbn [kind_of] in E2. rewrite E2. cbn [bind].
    assert (EW : Z.to_N (Z.abs (Z.of_N w)) mod 2 ^ 32 = w).
    { rewrite Z.abs_eq by lia. rewrite N2Z.id. apply N.mod_small. change (2 ^ 32) with 4294967296. lia. }
    rewrite EW, <- L, Nat2N.id.
    pose proof (read_field_ok (FRaw (concat (map (le_bytes 8) ws))) rest R3) as E3.
    cbn [kind_of] in E3. rewrite concat_le in E3. rewrite E3. cbn [bind]. now rewrite words_of_ok.
Qed.

(* The reader: one number after the other. *)
Fixpoint read_numbers (k : nat) (data : list N) : res (list number * list N) :=
  match k with
  | O => Ok ([], data)
  | S k' => do! (n, d1) <- number_read data; do! (ns, d2) <- read_numbers k' d1; Ok (n :: ns, d2)
  end.

(* Any sequence of numbers, written to a library file one after the other, is read back. *)
Theorem C53_round_trip : forall z a ns, z <> ZFastlz -> Forall well_formed ns ->
  exists f f', write_fields (fbuf_open_out z a) (concat (map number_write ns)) = Ok f /\
    fbuf_maybe_flush f 61440 true = Ok f' /\
    read_numbers (length ns) (concat (map fst (f_blocks f'))) = Ok (ns, []).
Proof.
  intros z a ns Hz W.
  assert (R : Forall in_range (concat (map number_write ns))).
  { apply Forall_concat, Forall_map. eapply Forall_impl; [|exact W]. exact write_range. }
  destruct (write_fields_ok z a Hz _ _ [] (open_inv z a) R) as (f & E & I). cbn [app] in I.
  exists f. rewrite (flush_ok z a f _ 61440 true Hz I) by (unfold BIG; lia).
  eexists. split; [exact E|]. split; [reflexivity|].
  assert (D : concat (map fst (f_blocks (if BIG <? len (f_wbuf f) + 61440 then flushed f a true else f))) =
              concat (map enc (concat (map number_write ns)))).
  { destruct I as (_ & _ & _ & Ea & _ & We & _). destruct (N.ltb_spec BIG (len (f_wbuf f) + 61440)) as [L|L].
    - cbn [flushed f_blocks]. rewrite concat_snoc. now symmetry.
    - rewrite Ea. assert (WB : f_wbuf f = []). { destruct (f_wbuf f); [reflexivity|]. unfold len, BIG in L. cbn [length] in L. lia. }
      rewrite WB. now rewrite app_nil_r. }
  rewrite D. clear -W. induction W as [|n ns Wn W IH]; [reflexivity|].
  cbn [map concat length read_numbers]. rewrite map_app, concat_app, read_ok by exact Wn. cbn [bind].
  rewrite IH. reflexivity.
Qed.
Print Assumptions C53_round_trip.

(* Every packed vector and every literal without error is well formed. *)
Theorem C53_pack : forall bits, N.of_nat (length bits) <= 245760 -> well_formed (number_pack bits).
Proof.
  intros bits L. unfold number_pack. destruct (negb _ && _).
  - split; apply N.mod_lt; discriminate.
  - destruct (N.leb_spec (N.of_nat (length bits)) SMALLNUM_WIDTH_MAX).
    + split; apply N.mod_lt; discriminate.
    + cbn [well_formed]. rewrite pack_length. split; [lia|]. split; [lia|].
      generalize (N.to_nat (bignum_words (N.of_nat (length bits)))). clear. intros k. revert bits.
      induction k as [|k IH]; intros bits; constructor; [|apply IH]. apply push_all_lt. reflexivity.
Qed.
Print Assumptions C53_pack.

Lemma shift_digits_wf r s : forall n e n' e', well_formed n -> shift_digits r s n e = Ok (n', e') -> well_formed n'.
Proof.
  induction s as [|c s IH]; intros n e n' e' W E; cbn [shift_digits] in E.
  - injection E as <- <-. exact W.
  - assert (Sh : forall cnt k n1, (cnt = 1 \/ cnt = 4) -> k < 2 ^ (2 * cnt) -> number_shift_left n cnt k = Ok n1 -> well_formed n1).
    { intros cnt k n1 C K E1. destruct n as [w p|w p|w ws]; cbn [number_shift_left] in E1; [discriminate| |].
      - injection E1 as <-. destruct W as (W1 & W2). split; [exact W1|].
        destruct (cnt <? w); [apply N.mod_lt; discriminate|reflexivity].
      - destruct (cnt <? 32); [|discriminate]. injection E1 as <-. destruct W as (W1 & W2 & W3).
        destruct (shift_words_ok cnt ltac:(lia) ltac:(lia) ws k W3 K) as (S1 & S2 & _).
        split; [exact W1|]. split; [now rewrite S1|exact S2]. }
    destruct r; [|discriminate|].
    + destruct (bin_carry c) as (k, e1) eqn:B.
      assert (K : k < 2 ^ (2 * 1)).
      { unfold bin_carry in B. repeat (destruct (_ =? _); [injection B as <- <-; reflexivity|]). injection B as <- <-. reflexivity. }
      apply bind_ok in E as (n1 & E1 & E2). eapply IH; [|exact E2]. eapply Sh; [left; reflexivity|exact K|exact E1].
    + destruct (hex_carry c) as (k, e1) eqn:B.
      assert (K : k < 2 ^ (2 * 4)).
      { unfold hex_carry in B. destruct (_ || _).
        - destruct (char_value c) as [v|]; injection B as <- <-; [|reflexivity].
          unfold two_state. repeat destruct (N.testbit v _); reflexivity.
        - repeat (destruct (_ =? _); [injection B as <- <-; reflexivity|]). injection B as <- <-. reflexivity. }
      apply bind_ok in E as (n1 & E1 & E2). eapply IH; [|exact E2]. eapply Sh; [right; reflexivity|exact K|exact E1].
Qed.

Theorem C53_literal : forall l n e, (forall w, lwidth l = Some w -> w <= 245760) ->
  number_new l = Ok (n, e) -> well_formed n.
Proof.
  intros (lw, r, s) n e H E. unfold number_new in E. cbn [lwidth lradix ldigits] in *.
  set (width := match lw with Some w => w | None => 32 end) in *.
  assert (W : width <= 245760) by (unfold width; destruct lw; [apply H; reflexivity|discriminate]).
  destruct (negb _ && _).
  - destruct (strtoll s r) as (b, ep). destruct (match ep with [] => _ | _ => _ end) as (b1, e1).
    injection E as <- _. split; apply N.mod_lt; discriminate.
  - assert (WI : well_formed (if width <=? SMALLNUM_WIDTH_MAX then mk_small width SMALL_PACKED_ZERO
        else Big width (repeat BIG_PACKED_ZERO (N.to_nat (bignum_words width))))).
    { destruct (width <=? SMALLNUM_WIDTH_MAX); [split; apply N.mod_lt; discriminate|].
      split; [exact W|]. rewrite repeat_length. split; [lia|]. apply Forall_forall. intros x I.
      apply repeat_spec in I. now subst x. }
    destruct r.
    + eapply shift_digits_wf; [exact WI|exact E].
    + destruct (strtoll s Dec) as (b, ep). destruct (width <=? INTEGER_WIDTH_MAX); [|discriminate].
      injection E as <- _. split; apply N.mod_lt; discriminate.
    + eapply shift_digits_wf; [exact WI|exact E].
Qed.
Print Assumptions C53_literal.

Example C53_example :
  Forall well_formed [number_pack [3; 2; 3]; number_pack [3; 0; 1]; number_pack (repeat 3 40)] /\
  read_numbers 2 (concat (map enc (concat (map number_write [number_pack [3; 0; 1]; number_pack (repeat 3 64)])))) =
    Ok ([number_pack [3; 0; 1]; number_pack (repeat 3 64)], []).
Proof.
  split; [|vm_compute; reflexivity].
  repeat constructor; try (apply N.mod_lt; discriminate); vm_compute; try reflexivity; discriminate.
Qed.
