(* Proofs about case statements on arrays of characters. *)

From Coq Require Import ZArith List Bool Lia.
From Verif Require Import Base CaseModel CaseSpec CaseProofs.
Import ListNotations.
Local Open Scope Z_scope.

Lemma same_chars_eq a b : same_chars a b = true <-> a = b.
Proof.
  revert b. induction a as [|x a IH]; intros [|y b]; cbn; try (split; congruence).
  rewrite andb_true_iff, Z.eqb_eq, IH. split; [intros (-> & ->); auto|]. intros H. injection H as -> ->. auto.
Qed.

Lemma wrap64_id z : - 2 ^ 63 <= z < 2 ^ 63 -> wrap64 z = z.
Proof. intros H. unfold wrap64. rewrite Z.mod_small by lia. lia. Qed.

Lemma wrap64_range z : - 2 ^ 63 <= wrap64 z < 2 ^ 63.
Proof. unfold wrap64. pose proof (Z.mod_pos_bound (z + 2 ^ 63) (2 ^ 64)). lia. Qed.

(* ---- powers ---- *)

Lemma ipow_overflow f : forall x y r xo, ipow_loop f x y r true xo = None.
Proof.
  induction f as [|f IH]; intros x y r xo; cbn [ipow_loop]; destruct (y =? 0); auto.
  destruct (Z.odd y); [destruct xo|]; rewrite ?orb_true_l; apply IH.
Qed.

Lemma ipow_xo f : forall x y r, 0 < y -> ipow_loop f x y r false true = None.
Proof.
  induction f as [|f IH]; intros x y r Y; cbn [ipow_loop]; destruct (Z.eqb_spec y 0); auto; try lia.
  destruct (Z.odd y) eqn:O; [apply ipow_overflow|]. rewrite orb_true_l. apply IH.
  rewrite <- Z.negb_even in O. apply negb_false_iff in O. apply Z.even_spec in O as (k & ->).
  rewrite Z.mul_comm, Z.div_mul by lia. lia.
Qed.

Lemma ipow_ok f : forall x y r, 1 <= x < 2 ^ 63 -> 1 <= r < 2 ^ 63 -> 0 <= y < 2 ^ Z.of_nat f ->
  ipow_loop f x y r false false = if r * x ^ y <? 2 ^ 63 then Some (r * x ^ y) else None.
Proof.
  induction f as [|f IH]; intros x y r X R Y.
  - cbn in Y. assert (y = 0) by lia. subst y. cbn [ipow_loop]. rewrite Z.eqb_refl, Z.pow_0_r, Z.mul_1_r.
    destruct (Z.ltb_spec r (2 ^ 63)); [reflexivity|lia].
  - cbn [ipow_loop]. destruct (Z.eqb_spec y 0) as [->|N].
    { rewrite Z.pow_0_r, Z.mul_1_r. destruct (Z.ltb_spec r (2 ^ 63)); [reflexivity|lia]. }
    assert (Yd : 0 <= y / 2 < 2 ^ Z.of_nat f).
    { rewrite Nat2Z.inj_succ, Z.pow_succ_r in Y by lia. split; [apply Z.div_pos; lia|]. apply Z.div_lt_upper_bound; lia. }
    assert (P1 : forall e, 0 <= e -> 1 <= x ^ e).
    { intros e E. apply Z.lt_pred_le. apply Z.pow_pos_nonneg; lia. }
    pose proof (Z.div_mod y 2 ltac:(lia)) as DM. pose proof (Z.mod_pos_bound y 2 ltac:(lia)) as MB.
    assert (SQ : forall e, (x * x) ^ e = x ^ (2 * e)).
    { intros e. destruct (Z_lt_dec e 0); [rewrite !Z.pow_neg_r by lia; auto|].
      rewrite <- Z.pow_2_r, <- Z.pow_mul_r by lia. reflexivity. }
    (* the square overflows *)
    assert (Sq : if x * x <? 2 ^ 63 then wrap64 (x * x) = x * x
                 else (wrap64 (x * x) =? x * x) = false /\ forall e, 2 <= e -> 2 ^ 63 <= x ^ e).
    { destruct (Z.ltb_spec (x * x) (2 ^ 63)) as [L|L]; [apply wrap64_id; nia|]. split.
      - apply Z.eqb_neq. pose proof (wrap64_range (x * x)). lia.
      - intros e E. replace e with (2 + (e - 2)) by lia. rewrite Z.pow_add_r, Z.pow_2_r by lia.
        pose proof (P1 (e - 2) ltac:(lia)). nia. }
    destruct (Z.odd y) eqn:O.
    + assert (M : y mod 2 = 1) by (rewrite Zmod_odd, O; reflexivity).
      assert (Pow : x ^ y = x * x ^ (2 * (y / 2))) by (rewrite DM at 1; rewrite M, Z.pow_add_r, Z.pow_1_r by lia; lia).
      destruct (Z.ltb_spec (r * x) (2 ^ 63)) as [L|L].
      * rewrite (wrap64_id (r * x)) by nia. rewrite Z.eqb_refl. cbn [negb orb].
        destruct (Z.ltb_spec (x * x) (2 ^ 63)) as [S|S].
        -- rewrite Sq, Z.eqb_refl. cbn [negb orb]. rewrite IH; [|nia|nia|exact Yd].
           rewrite SQ, Pow. replace (r * x * x ^ (2 * (y / 2))) with (r * (x * x ^ (2 * (y / 2)))) by ring. reflexivity.
        -- destruct Sq as (S1 & S2). rewrite S1. cbn [negb orb].
           destruct (Z.eq_dec (y / 2) 0) as [Z0|Z0].
           ++ rewrite Z0 in *. cbn [ipow_loop]. rewrite Pow. replace (2 * 0) with 0 by lia. rewrite Z.pow_0_r.
              replace (r * (x * 1)) with (r * x) by ring. destruct f; cbn [ipow_loop]; rewrite Z.eqb_refl;
              destruct (Z.ltb_spec (r * x) (2 ^ 63)); try reflexivity; lia.
           ++ rewrite ipow_xo by lia. specialize (S2 y ltac:(lia)).
              destruct (Z.ltb_spec (r * x ^ y) (2 ^ 63)); [nia|reflexivity].
      * assert (Ov : (wrap64 (r * x) =? r * x) = false).
        { apply Z.eqb_neq. pose proof (wrap64_range (r * x)). lia. }
        rewrite Ov. cbn [negb orb]. rewrite ipow_overflow.
        pose proof (P1 (2 * (y / 2)) ltac:(lia)).
        destruct (Z.ltb_spec (r * x ^ y) (2 ^ 63)); [rewrite Pow in *; nia|reflexivity].
    + assert (M : y mod 2 = 0) by (rewrite Zmod_odd, O; reflexivity).
      assert (Pow : x ^ y = x ^ (2 * (y / 2))) by (f_equal; lia).
      cbn [orb]. destruct (Z.ltb_spec (x * x) (2 ^ 63)) as [S|S].
      * rewrite Sq, Z.eqb_refl. cbn [negb]. rewrite IH; [|nia|lia|exact Yd]. rewrite SQ, Pow. reflexivity.
      * destruct Sq as (S1 & S2). rewrite S1. cbn [negb]. rewrite ipow_xo by lia. specialize (S2 y ltac:(lia)).
        destruct (Z.ltb_spec (r * x ^ y) (2 ^ 63)); [nia|reflexivity].
Qed.

Lemma expected_eq k n : 1 <= k < 2 ^ 63 -> 0 <= n < 2 ^ 62 -> expected k n = Z.min (k ^ n) INT64_MAX.
Proof.
  intros K N. unfold expected, ipow_safe. rewrite ipow_ok; [|lia|lia|].
  - rewrite Z.mul_1_l. unfold INT64_MAX. destruct (Z.ltb_spec (k ^ n) (2 ^ 63)); lia.
  - assert (2 ^ 62 <= 2 ^ Z.of_nat 64) by (apply Z.pow_le_mono_r; lia). lia.
Qed.

(* ---- all words ---- *)

Definition letters (elow ehigh : Z) : list Z :=
  map (fun i => elow + Z.of_nat i) (seq 0 (Z.to_nat (ehigh - elow + 1))).

Fixpoint all_words (ls : list Z) (n : nat) : list (list Z) :=
  match n with
  | O => [[]]
  | S n => flat_map (fun c => map (cons c) (all_words ls n)) ls
  end.

Lemma letters_in elow ehigh c : In c (letters elow ehigh) <-> elow <= c <= ehigh.
Proof.
  unfold letters. rewrite in_map_iff. split.
  - intros (i & <- & I). apply in_seq in I. lia.
  - intros H. exists (Z.to_nat (c - elow)). split; [lia|]. apply in_seq. lia.
Qed.

Lemma all_words_in ls n : forall w, In w (all_words ls n) <-> length w = n /\ Forall (fun c => In c ls) w.
Proof.
  induction n as [|n IH]; intros w; cbn [all_words].
  - split; [intros [<-|[]]; auto|]. intros (H & _). destruct w; [now left|discriminate].
  - rewrite in_flat_map. split.
    + intros (c & C & I). apply in_map_iff in I as (u & <- & U). apply IH in U as (L & F). cbn. auto.
    + intros (L & F). destruct w as [|c u]; [discriminate|]. inversion F as [|? ? Fc Fu]; subst. exists c. split; auto.
      apply in_map. apply IH. cbn in L. auto.
Qed.

Lemma all_words_length ls n : Z.of_nat (length (all_words ls n)) = Z.of_nat (length ls) ^ Z.of_nat n.
Proof.
  induction n as [|n IH]; [reflexivity|]. cbn [all_words].
  assert (H : forall l, Z.of_nat (length (flat_map (fun c => map (cons c) (all_words ls n)) l)) =
    Z.of_nat (length l) * Z.of_nat (length (all_words ls n))).
  { induction l as [|c l IHl]; [reflexivity|]. cbn [flat_map]. rewrite app_length, map_length, Nat2Z.inj_add, IHl.
    cbn [length]. lia. }
  rewrite H, IH. rewrite Nat2Z.inj_succ, Z.pow_succ_r by lia. reflexivity.
Qed.

Lemma word_in elow ehigh n w : word_of elow ehigh n w <-> In w (all_words (letters elow ehigh) n).
Proof.
  rewrite all_words_in. unfold word_of. split; intros (L & F); split; auto; rewrite Forall_forall in *; intros c C;
    [apply letters_in|apply letters_in]; auto.
Qed.

Lemma letters_length elow ehigh : elow <= ehigh -> Z.of_nat (length (letters elow ehigh)) = ehigh - elow + 1.
Proof. intros H. unfold letters. rewrite map_length, seq_length. lia. Qed.

(* ---- the check ---- *)

Lemma duplicates_nil seen chars :
  (forall p, In p seen -> fst p = encode_choice 0 (snd p) /\ encode_choice 0 (snd p) <> INT64_MAX) ->
  duplicates seen (encode_choice 0 chars) chars = [] <-> ~ In chars (map snd seen).
Proof.
  induction seen as [|[h w] seen IH]; intros H; cbn [duplicates flat_map map In].
  - split; auto.
  - destruct (H (h, w) (or_introl eq_refl)) as (E & N). cbn [fst snd] in E, N |- *.
    assert (IH' := IH (fun p P => H p (or_intror P))). unfold duplicates in IH'.
    rewrite E. destruct (Z.eqb_spec (encode_choice 0 w) INT64_MAX); [congruence|].
    destruct (Z.eqb_spec (encode_choice 0 chars) (encode_choice 0 w)) as [Q|Q].
    + destruct (same_chars w chars) eqn:S.
      * apply same_chars_eq in S. subst w. cbn. split; [discriminate|]. intros X. exfalso. auto.
      * cbn [app]. rewrite IH'. split; [|tauto]. intros X [Y|Y]; auto. subst w.
        assert (same_chars chars chars = true) by now apply same_chars_eq. congruence.
    + cbn [app]. rewrite IH'. split; [|tauto]. intros X [Y|Y]; auto. subst w. congruence.
Qed.

Definition good_hash (w : list Z) : Prop := encode_choice 0 w <> INT64_MAX.

Lemma acheck_known k l n : forall expect have seen,
  0 <= n -> 0 <= have -> 0 <= expect ->
  Forall good_hash (words l) ->
  (forall p, In p seen -> fst p = encode_choice 0 (snd p) /\ good_hash (snd p)) ->
  acheck k l n expect have seen = [] <->
    (Forall (fun w => Z.of_nat (length w) = n) (words l) /\
     NoDup (words l) /\ (forall w, In w (words l) -> ~ In w (map snd seen)) /\
     (In AOthers l \/ expect <= have + Z.of_nat (length (words l)))).
Proof.
  induction l as [|c l IH]; intros expect have seen Hn Hh He G S; cbn [acheck words].
  - cbn [length]. replace (have + Z.of_nat 0) with have by lia. destruct (Z.ltb_spec have expect); cbn [andb].
    + destruct (Z.eqb_spec expect (-1)); [lia|]. cbn [negb]. split; [discriminate|]. intros (_ & _ & _ & [[]|X]). lia.
    + split; [|reflexivity]. intros _. split; [constructor|]. split; [constructor|]. split; [intros w []|right; lia].
  - destruct c as [|w]; cbn [words] in *.
    + rewrite IH by auto. split.
      * intros (A & B & C & _). repeat split; auto. left. now left.
      * intros (A & B & C & _). repeat split; auto. right. lia.
    + inversion G as [|? ? Gw Gl]; subst. destruct (Z.eqb_spec n (-1)); [lia|].
      destruct (Z.eqb_spec (Z.of_nat (length w)) n) as [L|L]; cbn [negb].
      2: { split; [discriminate|]. intros (A & _). inversion A; congruence. }
      assert (S' : forall p, In p (seen ++ [(encode_choice 0 w, w)]) -> fst p = encode_choice 0 (snd p) /\ good_hash (snd p)).
      { intros p P. apply in_app_or in P as [P|[<-|[]]]; auto. }
      split.
      * intros E. apply app_eq_nil in E as (E1 & E2). apply duplicates_nil in E1; [|exact S].
        apply IH in E2; auto; [|lia]. destruct E2 as (A & B & C & D).
        split; [constructor; auto|]. split.
        { constructor; auto. intros X. apply (C w X). rewrite map_app. apply in_or_app. right. now left. }
        split. { intros u [<-|U]; auto. intros X. apply (C u U). rewrite map_app. apply in_or_app; auto. }
        destruct D as [D|D]; [left; now right|right; cbn [length]; lia].
      * intros (A & B & C & D). inversion A as [|? ? Aw Al]; subst. inversion B as [|? ? Bw Bl]; subst.
        assert (E1 : duplicates seen (encode_choice 0 w) w = []) by (apply duplicates_nil; [exact S|apply C; now left]).
        rewrite E1. cbn [app]. apply IH; auto; [lia|]. split; auto. split; auto. split.
        { intros u U. rewrite map_app. cbn. intros X. apply in_app_or in X as [X|[X|[]]]; [apply (C u); auto; now right|congruence]. }
        destruct D as [[D|D]|D]; [discriminate|auto|]. right. cbn [length] in D. lia.
Qed.

(* ---- encodings ---- *)

Lemma wrap64_mod a b : a mod 2 ^ 64 = b mod 2 ^ 64 -> wrap64 a = wrap64 b.
Proof.
  intros H. unfold wrap64. f_equal. rewrite <- (Zplus_mod_idemp_l a), <- (Zplus_mod_idemp_l b), H. reflexivity.
Qed.

Lemma wrap64_cong z : wrap64 z mod 2 ^ 64 = z mod 2 ^ 64.
Proof.
  unfold wrap64. rewrite Zminus_mod_idemp_l. f_equal. lia.
Qed.

(* The polynomial both compute. *)
Definition poly (m : Z) (w : list Z) : Z := fold_left (fun e c => e * m + c) w 0.

Lemma value_fold m w : forall e e', e mod 2 ^ 64 = e' mod 2 ^ 64 ->
  fold_left (fun enc c => wrap64 (wrap64 (enc * m) + c)) w e mod 2 ^ 64 =
  fold_left (fun e c => e * m + c) w e' mod 2 ^ 64.
Proof.
  induction w as [|c w IH]; intros e e' H; [exact H|]. cbn [fold_left]. apply IH.
  rewrite wrap64_cong, Zplus_mod, wrap64_cong, <- Zplus_mod.
  rewrite Zplus_mod, (Zmult_mod e), H, <- Zmult_mod, <- Zplus_mod. reflexivity.
Qed.

Lemma value_wrapped m w : wrap64 (fold_left (fun enc c => wrap64 (wrap64 (enc * m) + c)) w 0) =
  fold_left (fun enc c => wrap64 (wrap64 (enc * m) + c)) w 0.
Proof.
  apply wrap64_id. induction w as [|c w IH] using rev_ind; [cbn; lia|]. rewrite fold_left_app. cbn [fold_left]. apply wrap64_range.
Qed.

Lemma value_poly m w : fold_left (fun enc c => wrap64 (wrap64 (enc * m) + c)) w 0 = wrap64 (poly m w).
Proof. rewrite <- value_wrapped. apply wrap64_mod. now apply value_fold. Qed.

Lemma hash_poly w : encode_choice 0 w = wrap64 (poly 668265261 w).
Proof.
  unfold encode_choice. apply wrap64_mod. unfold poly.
  assert (H : forall e e', e mod 2 ^ 64 = e' mod 2 ^ 64 ->
    fold_left (encode_step 0) w e mod 2 ^ 64 = fold_left (fun e c => e * 668265261 + c) w e' mod 2 ^ 64).
  { induction w as [|c w IH]; intros e e' H; [exact H|]. cbn [fold_left]. apply IH. unfold encode_step. cbn [Z.ltb Z.compare].
    rewrite Zmod_mod, Zplus_mod, (Zmult_mod e), H, <- Zmult_mod, <- Zplus_mod. reflexivity. }
  now apply H.
Qed.

Lemma hash_value w : encode_value false 0 w = Z.rem (encode_choice 0 w) max_cases.
Proof. unfold encode_value. rewrite value_poly, hash_poly. reflexivity. Qed.

Lemma hash_value_any nb w : encode_value false nb w = encode_value false 0 w.
Proof. reflexivity. Qed.

Lemma lor_add a b c : 0 <= b -> 0 <= c < 2 ^ b -> 0 <= a -> Z.lor (a * 2 ^ b) c = a * 2 ^ b + c.
Proof.
  intros Hb Hc Ha. rewrite <- Z.shiftl_mul_pow2 by lia. 
  assert (L : Z.land (Z.shiftl a b) c = 0).
  { apply Z.bits_inj'. intros n Hn. rewrite Z.land_spec, Z.bits_0. destruct (Z_lt_dec n b).
    - rewrite Z.shiftl_spec_low by lia. reflexivity.
    - destruct (Z.eq_dec c 0) as [->|Nc]; [rewrite Z.bits_0; apply andb_false_r|].
      rewrite (Z.bits_above_log2 c n); [apply andb_false_r|lia|].
      apply Z.log2_lt_pow2; [lia|]. apply Z.lt_le_trans with (2 ^ b); [lia|]. apply Z.pow_le_mono_r; lia. }
  rewrite <- Z.lxor_lor by exact L. rewrite <- Z.add_nocarry_lxor by exact L. reflexivity.
Qed.

Definition digits (b : Z) (w : list Z) : Prop := Forall (fun c => 0 <= c < b) w.

Lemma poly_app m u w : poly m (u ++ w) = fold_left (fun e c => e * m + c) w (poly m u).
Proof. unfold poly. now rewrite fold_left_app. Qed.

Lemma poly_bound b w : 1 <= b -> digits b w -> 0 <= poly b w < b ^ Z.of_nat (length w).
Proof.
  intros B. induction w as [|c w IH] using rev_ind; intros D; [cbn; lia|].
  apply Forall_app in D as (D & Dc). inversion Dc; subst. rewrite poly_app. cbn [fold_left].
  rewrite app_length. cbn [length]. rewrite Nat.add_1_r, Nat2Z.inj_succ, Z.pow_succ_r by lia.
  specialize (IH D). nia.
Qed.

Lemma poly_inj b u : forall w, 1 <= b -> digits b u -> digits b w -> length u = length w -> poly b u = poly b w -> u = w.
Proof.
  induction u as [|c u IH] using rev_ind; intros w B Du Dw L E.
  - destruct w; [reflexivity|discriminate].
  - destruct w as [|d w _] using rev_ind; [rewrite app_length in L; cbn in L; lia|].
    apply Forall_app in Du as (Du & Dc). apply Forall_app in Dw as (Dw & Dd).
    inversion Dc; subst. inversion Dd; subst. rewrite !poly_app in E. cbn [fold_left] in E.
    rewrite !app_length in L. cbn in L.
    assert (c = d /\ poly b u = poly b w) as (-> & E').
    { assert (Q : (poly b u * b + c) mod b = (poly b w * b + d) mod b) by congruence.
      rewrite !(Z.add_comm (_ * b)), !Z_mod_plus_full, !Z.mod_small in Q by lia. subst d. split; auto. nia. }
    f_equal. apply IH; auto. lia.
Qed.

Lemma exact_poly nb w : 0 < nb -> digits (2 ^ nb) w -> Z.of_nat (length w) * nb <= 64 ->
  encode_choice nb w = wrap64 (poly (2 ^ nb) w).
Proof.
  intros Hb D L. unfold encode_choice. f_equal.
  assert (B : 1 <= 2 ^ nb) by (assert (0 < 2 ^ nb) by (apply Z.pow_pos_nonneg; lia); lia).
  revert D L. induction w as [|c w IH] using rev_ind; intros D L; [reflexivity|].
  apply Forall_app in D as (D & Dc). inversion Dc; subst. rewrite app_length in L. cbn [length] in L.
  rewrite fold_left_app, poly_app. cbn [fold_left]. rewrite IH by (auto; nia).
  unfold encode_step. destruct (Z.ltb_spec 0 nb); [|lia].
  pose proof (poly_bound (2 ^ nb) w B D) as P. rewrite <- Z.pow_mul_r in P by lia.
  rewrite Z.mod_small.
  - apply lor_add; lia.
  - split; [nia|]. assert (2 ^ (nb * Z.of_nat (length w)) * 2 ^ nb <= 2 ^ 64).
    { rewrite <- Z.pow_add_r by lia. apply Z.pow_le_mono_r; lia. }
    nia.
Qed.

Lemma wrap64_inj a b : 0 <= a < 2 ^ 64 -> 0 <= b < 2 ^ 64 -> wrap64 a = wrap64 b -> a = b.
Proof.
  intros A B E. assert (Q : wrap64 a mod 2 ^ 64 = wrap64 b mod 2 ^ 64) by congruence.
  rewrite !wrap64_cong, !Z.mod_small in Q by lia. exact Q.
Qed.

Lemma zeros_poly m w : Forall (fun c => c = 0) w -> poly m w = 0.
Proof.
  induction w as [|c w IH] using rev_ind; intros F; [reflexivity|]. apply Forall_app in F as (F & Fc). inversion Fc; subst.
  rewrite poly_app, IH by auto. reflexivity.
Qed.

Lemma ilog2_loop_ok f : forall n r c, 1 <= c -> n <= c * 2 ^ Z.of_nat f -> c = 2 ^ r -> 0 <= r ->
  let x := ilog2_loop f n r c in n <= 2 ^ x /\ r <= x /\ (c < n -> r < x).
Proof.
  induction f as [|f IH]; intros n r c C N E R; cbn [ilog2_loop].
  - cbn in N. subst c. split; [lia|]. split; lia.
  - destruct (Z.ltb_spec c n).
    + destruct (IH n (r + 1) (c * 2)) as (A & B & D); [lia| | |lia|].
      * rewrite Nat2Z.inj_succ, Z.pow_succ_r in N by lia. nia.
      * rewrite Z.pow_add_r by lia. subst c. reflexivity.
      * cbn in A, B, D |- *. split; auto. split; lia.
    + subst c. cbn. split; [lia|]. split; lia.
Qed.

Lemma ilog2_ok n : 1 <= n <= 2 ^ 30 -> 0 <= ilog2 n /\ n <= 2 ^ ilog2 n /\ (2 <= n -> 0 < ilog2 n).
Proof.
  intros H. unfold ilog2. destruct (Z.leb_spec n 1).
  - split; [lia|]. split; [cbn; lia|lia].
  - destruct (ilog2_loop_ok 64 n 0 1) as (A & B & C); [lia| |reflexivity|lia|].
    + assert (2 ^ 30 <= 2 ^ Z.of_nat 64) by (apply Z.pow_le_mono_r; lia). lia.
    + repeat split; [exact B|exact A|]. intros _. apply C. lia.
Qed.

Definition good_word (literals : Z) (n : nat) (w : list Z) : Prop := word_of 0 (literals - 1) n w.

(* In the exact case the encodings tell the words apart. *)
Lemma exact_inj literals n u w : 1 <= literals <= 2 ^ 30 -> Z.of_nat n * ilog2 literals <= 64 ->
  good_word literals n u -> good_word literals n w ->
  encode_choice (ilog2 literals) u = encode_value true (ilog2 literals) w <-> u = w.
Proof.
  intros L N (Lu & Fu) (Lw & Fw). destruct (ilog2_ok literals L) as (B0 & B1 & B2).
  unfold encode_value. rewrite value_poly.
  destruct (Z.eq_dec literals 1) as [->|N1].
  - assert (Zr : forall x, Forall (fun c => 0 <= c <= 1 - 1) x -> Forall (fun c => c = 0) x).
    { intros x F. rewrite Forall_forall in *. intros c C. specialize (F c C). lia. }
    cbn. rewrite hash_poly, !zeros_poly by auto. split; auto. intros _.
    apply Zr in Fu. apply Zr in Fw. clear - Lu Lw Fu Fw. revert w n Lu Lw Fw. induction u as [|c u IH]; intros [|d w] n Lu Lw Fw; cbn in *; try congruence; try lia.
    inversion Fu; subst. inversion Fw; subst. f_equal. apply (IH ltac:(auto) w (length u)); auto; congruence.
  - assert (D : forall x, Forall (fun c => 0 <= c <= literals - 1) x -> digits (2 ^ ilog2 literals) x).
    { intros x F. unfold digits. rewrite Forall_forall in *. intros c C. specialize (F c C). lia. }
    specialize (B2 ltac:(lia)). rewrite exact_poly by (auto; rewrite Lu; lia).
    assert (P : 1 <= 2 ^ ilog2 literals) by lia.
    assert (Bd : forall x, length x = n -> digits (2 ^ ilog2 literals) x -> 0 <= poly (2 ^ ilog2 literals) x < 2 ^ 64).
    { intros x Lx Dx. pose proof (poly_bound _ x P Dx) as Q. rewrite Lx, <- Z.pow_mul_r in Q by lia.
      assert (2 ^ (ilog2 literals * Z.of_nat n) <= 2 ^ 64) by (apply Z.pow_le_mono_r; lia). lia. }
    split; [|intros ->; reflexivity]. intros E. apply wrap64_inj in E; auto.
    eapply poly_inj; eauto. congruence.
Qed.

(* ---- the generated code ---- *)

(* The choices met so far with their alternatives, the latest first. *)
Definition last_match (done : list (list Z * nat)) (v : list Z) : option nat :=
  match find (fun q => same_chars (fst q) v) done with Some q => Some (snd q) | None => None end.

Definition run_entries (exact : bool) (nb : Z) (entries : list (Z * block)) (def : option nat) (v : list Z) : option nat :=
  match find (fun p => fst p =? encode_value exact nb v) entries with
  | Some p => run_block def (snd p) v
  | None => def
  end.

Lemma chain_in_find entries enc f e' : 
  match chain_in entries enc f with
  | None => find (fun p => fst p =? enc) entries = None
  | Some r => exists b, find (fun p => fst p =? enc) entries = Some (enc, b) /\
      find (fun p => fst p =? e') r = if e' =? enc then Some (enc, f b) else find (fun p => fst p =? e') entries
  end.
Proof.
  induction entries as [|[e b] l IH]; cbn [chain_in]; [reflexivity|].
  destruct (Z.eqb_spec e enc) as [->|N].
  - exists b. cbn. rewrite Z.eqb_refl. split; auto. rewrite (Z.eqb_sym enc e'). destruct (e' =? enc); reflexivity.
  - destruct (chain_in l enc f) as [r|].
    + destruct IH as (b' & A & B). exists b'. cbn. destruct (Z.eqb_spec e enc); [congruence|]. split; auto.
      destruct (Z.eqb_spec e e') as [->|N2].
      * destruct (Z.eqb_spec e' enc); [congruence|reflexivity].
      * exact B.
    + cbn. destruct (Z.eqb_spec e enc); [congruence|]. exact IH.
Qed.

Lemma find_app {A} (f : A -> bool) l r : find f (l ++ r) = match find f l with Some x => Some x | None => find f r end.
Proof. induction l as [|x l IH]; cbn; [reflexivity|]. destruct (f x); auto. Qed.

Definition inv_hash (entries : list (Z * block)) (done : list (list Z * nat)) : Prop :=
  forall nb def v, run_entries false nb entries def v = match last_match done v with Some k => Some k | None => def end.

Lemma hash_step entries done nb k chars def st' :
  inv_hash entries done -> lower_achoice false nb k (AName chars) (entries, def) = Ok st' ->
  inv_hash (fst st') ((chars, k) :: done) /\ snd st' = def.
Proof.
  intros I E. cbn [lower_achoice] in E. set (enc := Z.rem (encode_choice 0 chars) max_cases) in *.
  destruct (chain_in entries enc (BTest chars (BAlt k))) as [r|] eqn:C; injection E as <-; cbn [fst snd]; split; auto;
    intros nb' def' v; specialize (I nb' def' v); unfold run_entries, last_match in *; cbn [find fst snd];
    rewrite hash_value_any, hash_value in *;
    pose proof (chain_in_find entries enc (BTest chars (BAlt k)) (Z.rem (encode_choice 0 v) max_cases)) as X; rewrite C in X.
  - destruct X as (b & F & G). rewrite G. destruct (Z.eqb_spec (Z.rem (encode_choice 0 v) max_cases) enc) as [Q|Q].
    + cbn [snd run_block]. destruct (same_chars chars v); [reflexivity|]. rewrite Q, F in I. cbn [snd] in I. exact I.
    + destruct (same_chars chars v) eqn:S; [|exact I]. apply same_chars_eq in S. subst v. exfalso. apply Q. reflexivity.
  - rewrite find_app. cbn [find fst]. destruct (Z.eqb_spec enc (Z.rem (encode_choice 0 v) max_cases)) as [Q|Q].
    + rewrite Q in X. rewrite X in *. cbn [snd run_block]. destruct (same_chars chars v); [reflexivity|exact I].
    + destruct (same_chars chars v) eqn:S.
      * apply same_chars_eq in S. subst v. exfalso. apply Q. reflexivity.
      * destruct (find _ entries) as [p|]; exact I.
Qed.

(* The exact case, for good words. *)
Definition inv_exact (literals : Z) (n : nat) (entries : list (Z * block)) (done : list (list Z * nat)) : Prop :=
  forall v, good_word literals n v ->
    match find (fun p => fst p =? encode_value true (ilog2 literals) v) entries with
    | Some (_, b) => exists k, b = BAlt k /\ In (v, k) done
    | None => forall k, ~ In (v, k) done
    end.

Lemma exact_step literals n entries done k chars def st' :
  1 <= literals <= 2 ^ 30 -> Z.of_nat n * ilog2 literals <= 64 -> good_word literals n chars ->
  inv_exact literals n entries done -> lower_achoice true (ilog2 literals) k (AName chars) (entries, def) = Ok st' ->
  inv_exact literals n (fst st') ((chars, k) :: done) /\ snd st' = def.
Proof.
  intros L N G I E. cbn [lower_achoice] in E. injection E as <-. cbn [fst snd]. split; auto.
  intros v V. specialize (I v V). rewrite find_app. cbn [find fst].
  destruct (find _ entries) as [[e b]|].
  - destruct I as (k' & -> & I). exists k'. split; auto. now right.
  - destruct (Z.eqb_spec (encode_choice (ilog2 literals) chars) (encode_value true (ilog2 literals) v)) as [Q|Q].
    + apply (exact_inj literals n chars v L N G V) in Q. subst v. exists k. split; auto. now left.
    + intros k' [X|X]; [|exact (I k' X)]. injection X as -> ->. apply Q. now apply (exact_inj literals n v v L N G V).
Qed.

(* Both together: what is known of the code after some choices. *)
Definition aexact (literals : Z) (n : nat) : bool := Z.of_nat n * ilog2 literals <=? 64.

Definition inv (literals : Z) (n : nat) (entries : list (Z * block)) (done : list (list Z * nat)) : Prop :=
  if aexact literals n then inv_exact literals n entries done else inv_hash entries done.

Lemma inv_run literals n entries done def v :
  inv literals n entries done -> good_word literals n v ->
  (exists k, run_entries (aexact literals n) (ilog2 literals) entries def v = Some k /\ In (v, k) done) \/
  (run_entries (aexact literals n) (ilog2 literals) entries def v = def /\ forall k, ~ In (v, k) done).
Proof.
  unfold inv. destruct (aexact literals n); intros I V.
  - specialize (I v V). unfold run_entries. destruct (find _ entries) as [[e b]|].
    + destruct I as (k & -> & I). left. exists k. split; [reflexivity|exact I].
    + right. split; [reflexivity|exact I].
  - pose proof (I (ilog2 literals) def v) as Ev. unfold last_match in Ev. destruct (find _ done) as [[w k]|] eqn:F.
    + apply find_some in F as (F & S). cbn in S. apply same_chars_eq in S. subst w. left. exists k. auto.
    + right. split; auto. intros k X. apply (find_none _ _ F) in X. cbn in X.
      assert (same_chars v v = true) by now apply same_chars_eq. congruence.
Qed.

Definition aothers_in (l : list achoice) : bool := existsb (fun c => match c with AOthers => true | _ => false end) l.

Lemma aothers_in_spec l : aothers_in l = true <-> In AOthers l.
Proof.
  unfold aothers_in. rewrite existsb_exists. split; [intros ([] & H & E); congruence|]. intros H. exists AOthers. auto.
Qed.

Definition numbered (k : nat) (l : list achoice) : list (list Z * nat) := map (fun w => (w, k)) (words l).

Lemma inv_step literals n entries done k chars def st' :
  1 <= literals <= 2 ^ 30 -> good_word literals n chars -> inv literals n entries done ->
  lower_achoice (aexact literals n) (ilog2 literals) k (AName chars) (entries, def) = Ok st' ->
  inv literals n (fst st') ((chars, k) :: done) /\ snd st' = def.
Proof.
  unfold inv. intros L G I E. destruct (aexact literals n) eqn:X.
  - unfold aexact in X. apply Z.leb_le in X. eapply exact_step; eauto.
  - eapply hash_step; eauto.
Qed.

Lemma inv_nil literals n : inv literals n [] [].
Proof.
  unfold inv. destruct (aexact literals n).
  - intros v V. cbn. auto.
  - intros nb def v. reflexivity.
Qed.

Lemma lower_alt_ok literals n k l : forall entries def done,
  1 <= literals <= 2 ^ 30 -> Forall (good_word literals n) (words l) -> inv literals n entries done ->
  (forall a b, l = a ++ AOthers :: b -> b = []) -> (In AOthers l -> def = None) ->
  exists entries' def' done', lower_alt (aexact literals n) (ilog2 literals) k l (entries, def) = Ok (entries', def') /\
    inv literals n entries' done' /\
    (forall w j, In (w, j) done' <-> In (w, j) done \/ j = k /\ In w (words l)) /\
    def' = if aothers_in l then Some k else def.
Proof.
  induction l as [|c l IH]; intros entries def done L G I O D; cbn [lower_alt].
  - exists entries, def, done. split; auto. split; auto. split; [|reflexivity]. intros w j. cbn. tauto.
  - destruct c as [|w].
    + assert (l = []) by (apply (O [] l); reflexivity). subst l. cbn [lower_achoice]. rewrite (D (or_introl eq_refl)). cbn [bind lower_alt].
      exists entries, (Some k), done. split; auto. split; auto. split; [|reflexivity]. intros w j. cbn. tauto.
    + cbn [words] in G. inversion G as [|? ? Gw Gl]; subst.
      destruct (lower_achoice (aexact literals n) (ilog2 literals) k (AName w) (entries, def)) as [[e1 d1]|] eqn:E.
      * cbn [bind]. destruct (inv_step literals n entries done k w def (e1, d1) L Gw I E) as (I1 & Hd). cbn in I1, Hd. subst d1.
        destruct (IH e1 def ((w, k) :: done) L Gl I1) as (e2 & d2 & done2 & E2 & I2 & H2 & D2).
        { intros a b ->. apply (O (AName w :: a) b). reflexivity. }
        { intros X. apply D. now right. }
        exists e2, d2, done2. split; auto. split; auto. split; [|exact D2].
        intros x j. rewrite H2. cbn. split.
        -- intros [[X|X]|(-> & X)]; [injection X as <- <-; auto|auto|auto].
        -- intros [X|(-> & [X|X])]; [auto|subst x; auto|auto].
      * exfalso. cbn [lower_achoice] in E. destruct (aexact literals n); [discriminate|].
        destruct (chain_in _ _ _); discriminate.
Qed.

Lemma words_app a b : words (a ++ b) = words a ++ words b.
Proof. induction a as [|[|w] a IH]; cbn; auto. now rewrite IH. Qed.

Lemma words_in l w : In w (words l) <-> In (AName w) l.
Proof.
  induction l as [|[|x] l IH]; cbn; [tauto| |].
  - rewrite IH. intuition discriminate.
  - rewrite IH. split; intros [H|H]; auto; left; congruence.
Qed.

Lemma lower_alts_ok literals n s : forall k entries def done,
  1 <= literals <= 2 ^ 30 -> Forall (good_word literals n) (words (concat s)) -> inv literals n entries done ->
  aothers_last s -> (In AOthers (concat s) -> def = None) ->
  exists entries' def' done', lower_alts (aexact literals n) (ilog2 literals) k s (entries, def) = Ok (entries', def') /\
    inv literals n entries' done' /\
    (forall w j, In (w, j) done' <-> In (w, j) done \/ exists i l, j = (k + i)%nat /\ nth_error s i = Some l /\ In (AName w) l) /\
    match def' with
    | Some j => def = Some j \/ exists i l, j = (k + i)%nat /\ nth_error s i = Some l /\ In AOthers l
    | None => def = None /\ ~ In AOthers (concat s)
    end.
Proof.
  induction s as [|l s IH]; intros k entries def done L G I O D; cbn [lower_alts].
  - exists entries, def, done. split; auto. split; auto. split; [|destruct def; auto].
    intros w j. split; auto. intros [X|([|i] & l & _ & X & _)]; auto; discriminate.
  - cbn [concat] in G, D. rewrite words_app in G. apply Forall_app in G as (Gl & Gs).
    assert (Ol : forall a b, l = a ++ AOthers :: b -> b = [] /\ concat s = []).
    { intros a b ->. specialize (O a (b ++ concat s)). cbn [concat] in O. rewrite <- app_assoc in O.
      specialize (O eq_refl). now apply app_eq_nil in O. }
    destruct (lower_alt_ok literals n k l entries def done L Gl I) as (e1 & d1 & done1 & E1 & I1 & H1 & D1).
    { intros a b E. now apply (Ol a b). } { intros X. apply D. apply in_or_app; auto. }
    rewrite E1. cbn [bind].
    destruct (IH (S k) e1 d1 done1 L Gs I1) as (e2 & d2 & done2 & E2 & I2 & H2 & D2).
    { intros a b E. apply (O (l ++ a) b). cbn [concat]. rewrite E, <- app_assoc. reflexivity. }
    { intros X. rewrite D1. destruct (aothers_in l) eqn:A; [|apply D; apply in_or_app; auto].
      apply aothers_in_spec in A. apply in_split in A as (a & b & E). destruct (Ol a b E) as (_ & Z). rewrite Z in X. destruct X. }
    exists e2, d2, done2. split; auto. split; auto. split.
    + intros w j. rewrite H2, H1, words_in. split.
      * intros [[X|(-> & X)]|(i & l' & -> & X)]; auto.
        -- right. exists 0%nat, l. split; [lia|auto].
        -- right. exists (S i), l'. split; [lia|auto].
      * intros [X|([|i] & l' & -> & X & Y)]; auto.
        -- injection X as ->. left. right. split; [lia|auto].
        -- right. exists i, l'. split; [lia|auto].
    + destruct d2 as [j|].
      * destruct D2 as [D2|(i & l' & -> & X)]; [|right; exists (S i), l'; split; [lia|auto]].
        rewrite D2 in D1. destruct (aothers_in l) eqn:A; [|auto]. apply aothers_in_spec in A. injection D1 as ->.
        right. exists 0%nat, l. split; [lia|auto].
      * destruct D2 as (-> & N). destruct (aothers_in l) eqn:A; [discriminate|]. split; auto.
        cbn [concat]. intros X. apply in_app_or in X as [X|X]; [apply aothers_in_spec in X; congruence|auto].
Qed.

Lemma lower_array_selects literals n s :
  1 <= literals <= 2 ^ 30 -> Forall (good_word literals n) (words (concat s)) -> aothers_last s ->
  exists code, lower_case_array literals (Z.of_nat n) s = Ok code /\
    forall v, good_word literals n v -> exists r, run_array code v = Ok r /\ aselects s v r.
Proof.
  intros L G O. unfold lower_case_array. cbv zeta. change (Z.of_nat n * ilog2 literals <=? 64) with (aexact literals n).
  destruct (lower_alts_ok literals n s 0 [] None [] L G (inv_nil literals n) O (fun _ => eq_refl)) as (e & d & done & E & I & H & D).
  rewrite E. cbn [bind]. eexists. split; [reflexivity|]. intros v V. unfold run_array. cbn [ac_length ac_exact ac_nbits ac_cases ac_def].
  destruct V as (Lv & Fv). rewrite Lv, Z.eqb_refl. cbn [negb].
  assert (V : good_word literals n v) by (split; auto).
  assert (R : exists r, match find (fun p => fst p =? encode_value (aexact literals n) (ilog2 literals) v) e with
            | Some p => Ok (run_block d (snd p) v) | None => Ok d end = Ok r /\
            r = run_entries (aexact literals n) (ilog2 literals) e d v).
  { unfold run_entries. destruct (find _ e) as [p|]; eauto. }
  destruct R as (r & R & ->). rewrite R. eexists. split; [reflexivity|].
  destruct (inv_run literals n e done d v I V) as [(k & -> & X)|(-> & X)].
  - apply H in X as [[]|(i & l & -> & J & Y)]. eapply asel_choice; eauto.
  - assert (N : ~ In v (words (concat s))).
    { intros Y. apply words_in in Y. apply in_concat_nth in Y as (j & l & J & Y). apply (X j). apply H. right. exists j, l. auto. }
    destruct d as [k|].
    + destruct D as [D|(i & l & -> & J & Y)]; [discriminate|]. eapply asel_others; eauto.
    + destruct D as (_ & D). now apply asel_none.
Qed.

(* ---- counting ---- *)

Lemma letters_nodup elow ehigh : NoDup (letters elow ehigh).
Proof.
  unfold letters. apply FinFun.Injective_map_NoDup; [|apply seq_NoDup]. intros a b E. lia.
Qed.

Lemma nodup_app {A} (l r : list A) : NoDup l -> NoDup r -> (forall x, In x l -> ~ In x r) -> NoDup (l ++ r).
Proof.
  induction l as [|x l IH]; intros L R D; [exact R|]. inversion L; subst. cbn. constructor.
  - intros X. apply in_app_or in X as [X|X]; [auto|]. apply (D x); [now left|auto].
  - apply IH; auto. intros y Y. apply D. now right.
Qed.

Lemma all_words_nodup ls n : NoDup ls -> NoDup (all_words ls n).
Proof.
  intros D. induction n as [|n IH]; [repeat constructor; intros []|]. cbn [all_words].
  generalize dependent (all_words ls n). intros ws W.
  induction D as [|c l C D IHl]; [constructor|]. cbn [flat_map]. apply nodup_app; auto.
  - apply FinFun.Injective_map_NoDup; auto. intros a b E. now injection E.
  - intros w X Y. apply in_map_iff in X as (u & <- & _). apply in_flat_map in Y as (d & Dl & Y).
    apply in_map_iff in Y as (u' & E & _). injection E as -> _. auto.
Qed.

Lemma count_covers elow ehigh n (l : list (list Z)) :
  elow <= ehigh -> Forall (word_of elow ehigh n) l -> NoDup l ->
  (ehigh - elow + 1) ^ Z.of_nat n <= Z.of_nat (length l) <-> forall w, word_of elow ehigh n w -> In w l.
Proof.
  intros H F D. rewrite <- letters_length, <- all_words_length by auto. split.
  - intros L w W. apply word_in in W. revert w W. change (incl (all_words (letters elow ehigh) n) l).
    apply NoDup_length_incl; auto; [lia|]. intros w W. apply word_in. rewrite Forall_forall in F. auto.
  - intros C. apply inj_le. apply NoDup_incl_length; [apply all_words_nodup, letters_nodup|].
    intros w W. apply C. now apply word_in.
Qed.

Lemma acheck_first k l : (forall a b, l = a ++ AOthers :: b -> b = []) ->
  acheck k l (-1) (-1) 0 [] =
  match words l with
  | [] => []
  | w :: _ => acheck k l (Z.of_nat (length w)) (expected k (Z.of_nat (length w))) 0 []
  end.
Proof.
  intros O. destruct l as [|[|w] l]; [reflexivity| |].
  - rewrite (O [] l eq_refl). reflexivity.
  - cbn [words acheck]. rewrite Z.eqb_refl. cbn [negb].
    destruct (Z.eqb_spec (Z.of_nat (length w)) (-1)); [lia|]. rewrite ?Z.eqb_refl. reflexivity.
Qed.

Lemma array_known elow ehigh n s :
  elow <= ehigh < elow + 2 ^ 31 -> Z.of_nat n < 2 ^ 62 ->
  Forall (Forall (fun c => elow <= c <= ehigh)) (words (concat s)) ->
  Forall good_hash (words (concat s)) -> Z.of_nat (length (words (concat s))) < 2 ^ 31 ->
  check_array_case (ehigh - elow + 1) (Some (Z.of_nat n)) s = [] <->
    Forall (fun w => length w = n) (words (concat s)) /\ NoDup (words (concat s)) /\
    (In AOthers (concat s) \/ forall w, word_of elow ehigh n w -> In w (words (concat s))).
Proof.
  intros H N C G L. unfold check_array_case.
  assert (P : 1 <= (ehigh - elow + 1) ^ Z.of_nat n).
  { assert (0 < (ehigh - elow + 1) ^ Z.of_nat n) by (apply Z.pow_pos_nonneg; lia). lia. }
  rewrite acheck_known; auto; try lia.
  - rewrite expected_eq by lia.
    assert (Q : Forall (fun w : list Z => Z.of_nat (length w) = Z.of_nat n) (words (concat s)) <->
                Forall (fun w => length w = n) (words (concat s))).
    { rewrite !Forall_forall. split; intros F w W; specialize (F w W); lia. }
    rewrite Q. split.
    + intros (F & D & _ & E). split; auto. split; auto. destruct E as [E|E]; [auto|right].
      apply count_covers; auto; [lia| |unfold INT64_MAX in E; lia].
      rewrite Forall_forall in *. intros w W. split; [auto|]. apply C. auto.
    + intros (F & D & E). split; auto. split; auto. split; [intros w _ []|].
      destruct E as [E|E]; [auto|right]. apply count_covers in E; auto; [unfold INT64_MAX; lia|lia|].
      rewrite Forall_forall in *. intros w W. split; [auto|]. apply C. auto.
  - rewrite expected_eq by lia. unfold INT64_MAX. lia.
  - intros p [].
Qed.
