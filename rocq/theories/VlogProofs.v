From Coq Require Import List ZArith Bool Lia.
From Verif Require Import Base VlogSpec VlogModel.
Import ListNotations.
Local Open Scope Z_scope.

(* Scalars *)
Ltac bit a := destruct a; cbn in *; try discriminate; auto.
Lemma eqb_eq : forall a b, logic_eqb a b = true <-> a = b.
Proof. destruct a, b; cbn; split; congruence. Qed.
Lemma and_known : forall a b, known a = true -> known b = true -> v_and a b = s_and a b.
Proof. intros a b A B. bit a; bit b. Qed.
Lemma or_known : forall a b, known a = true -> known b = true -> v_or a b = s_or a b.
Proof. intros a b A B. bit a; bit b. Qed.
Lemma and_vague : forall a b, vague (v_and a b) (s_and a b).
Proof. unfold vague. intros. bit a; bit b. Qed.
Lemma or_vague : forall a b, vague (v_or a b) (s_or a b).
Proof. unfold vague. intros. bit a; bit b. Qed.
Lemma xor_exact : forall a b, v_xor a b = s_xor a b.
Proof. intros. bit a; bit b. Qed.
Lemma not_exact : forall a, v_not a = s_not a.
Proof. intros. bit a. Qed.

(* Bitwise operators step by step *)
Lemma v_bitwise_cons : forall f a l b r, v_bitwise f (a :: l) (b :: r) = f a b :: v_bitwise f l r.
Proof.
  intros. unfold v_bitwise. cbn [length Nat.max seq map Nat.ltb Nat.leb andb at_ nth].
  cbn. f_equal. rewrite <- seq_shift, map_map. apply map_ext. intros i. reflexivity.
Qed.
Lemma v_bitwise_nil_r : forall f l, v_bitwise f l [] = repeat L0 (length l).
Proof.
  intros. unfold v_bitwise. cbn [length]. rewrite Nat.max_0_r.
  transitivity (map (fun _ => L0) (seq 0 (length l))).
  - apply map_ext. intros i. destruct (i <? length l)%nat; reflexivity.
  - generalize 0%nat. induction (length l); intros s; cbn; [|f_equal]; auto.
Qed.
Lemma v_bitwise_nil_l : forall f r, v_bitwise f [] r = repeat L0 (length r).
Proof.
  intros. unfold v_bitwise. cbn [length Nat.max].
  transitivity (map (fun _ => L0) (seq 0 (length r))).
  - apply map_ext. intros i. reflexivity.
  - generalize 0%nat. induction (length r); intros s; cbn; [|f_equal]; auto.
Qed.
Lemma pairs_cons : forall a l b r, pairs (a :: l) (b :: r) = (a, b) :: pairs l r.
Proof. reflexivity. Qed.
Lemma pairs_nil_r : forall l, pairs l [] = map (fun a => (a, L0)) l.
Proof.
  intros. unfold pairs, wider, extend. cbn [length]. rewrite Nat.max_0_r, Nat.sub_diag, Nat.sub_0_r.
  cbn. rewrite app_nil_r. induction l; cbn; congruence.
Qed.
Lemma pairs_nil_l : forall r, pairs [] r = map (fun b => (L0, b)) r.
Proof.
  intros. unfold pairs, wider, extend. cbn [length Nat.max]. rewrite Nat.sub_diag, Nat.sub_0_r.
  cbn. rewrite app_nil_r. induction r; cbn; congruence.
Qed.

(* Going through two vectors, the shorter extended *)
Lemma pairs_ind : forall P : list logic -> list logic -> Prop,
  P [] [] -> (forall a l, P l [] -> P (a :: l) []) -> (forall b r, P [] r -> P [] (b :: r)) ->
  (forall a l b r, P l r -> P (a :: l) (b :: r)) -> forall l r, P l r.
Proof.
  intros P P0 P1 P2 P3 l. induction l; intros r.
  - induction r; auto.
  - destruct r; auto.
Qed.

Lemma bitwise_nil_r : forall f l, bitwise f l [] = map (fun a => f a L0) l.
Proof. intros. unfold bitwise. rewrite pairs_nil_r, map_map. reflexivity. Qed.
Lemma bitwise_nil_l : forall f r, bitwise f [] r = map (fun b => f L0 b) r.
Proof. intros. unfold bitwise. rewrite pairs_nil_l, map_map. reflexivity. Qed.

Lemma and_bits_vague : forall l r, Forall2 vague (v_and_bits l r) (bitwise s_and l r).
Proof.
  unfold v_and_bits. apply pairs_ind.
  - constructor.
  - intros a l. rewrite !v_bitwise_nil_r, !bitwise_nil_r. cbn. constructor; auto. right. bit a.
  - intros b r. rewrite !v_bitwise_nil_l, !bitwise_nil_l. cbn. constructor; auto. right. bit b.
  - intros. rewrite v_bitwise_cons. unfold bitwise. rewrite pairs_cons. cbn [map fst snd].
    constructor; auto. apply and_vague.
Qed.
Lemma all_known_cons : forall a l, all_known (a :: l) = true <-> known a = true /\ all_known l = true.
Proof. intros. unfold all_known. cbn. apply andb_true_iff. Qed.
Lemma and_bits_known : forall l r, all_known l = true -> all_known r = true ->
  v_and_bits l r = bitwise s_and l r.
Proof.
  unfold v_and_bits. apply (pairs_ind (fun l r => all_known l = true -> all_known r = true ->
    v_bitwise v_and l r = bitwise s_and l r)).
  - reflexivity.
  - intros a l IH A B. apply all_known_cons in A. destruct A as [A A']. specialize (IH A' B).
    rewrite v_bitwise_nil_r in *. rewrite bitwise_nil_r in *. cbn. rewrite IH. f_equal. bit a.
  - intros b r IH A B. apply all_known_cons in B. destruct B as [B B']. specialize (IH A B').
    rewrite v_bitwise_nil_l in *. rewrite bitwise_nil_l in *. cbn. rewrite IH. f_equal.
  - intros a l b r IH A B. apply all_known_cons in A. apply all_known_cons in B.
    rewrite v_bitwise_cons. unfold bitwise in *. rewrite pairs_cons. cbn [map fst snd].
    rewrite IH by tauto. f_equal. apply and_known; tauto.
Qed.
Lemma or_bits_known : forall l r, length l = length r -> all_known l = true -> all_known r = true ->
  v_or_bits l r = bitwise s_or l r.
Proof.
  unfold v_or_bits. induction l as [|a l IH]; intros [|b r] E A B; cbn in E; try discriminate; [reflexivity|].
  apply all_known_cons in A. apply all_known_cons in B.
  rewrite v_bitwise_cons. unfold bitwise in *. rewrite pairs_cons. cbn [map fst snd].
  rewrite IH by (lia || tauto). f_equal. apply or_known; tauto.
Qed.
Lemma or_bits_vague : forall l r, length l = length r -> Forall2 vague (v_or_bits l r) (bitwise s_or l r).
Proof.
  unfold v_or_bits. induction l as [|a l IH]; intros [|b r] E; cbn in E; try discriminate; [constructor|].
  rewrite v_bitwise_cons. unfold bitwise in *. rewrite pairs_cons. cbn [map fst snd].
  constructor; [apply or_vague|apply IH; lia].
Qed.

(* Folds *)
Lemma known_rev : forall l, all_known (rev l) = all_known l.
Proof.
  intros. apply eq_true_iff_eq. unfold all_known. rewrite !forallb_forall.
  split; intros H x I; apply H; rewrite <- in_rev in *; auto.
Qed.
Definition ones (l : list logic) : bool := existsb (logic_eqb L1) l.
Definition zeros (l : list logic) : bool := existsb (logic_eqb L0) l.
Lemma existsb_rev : forall (f : logic -> bool) l, existsb f (rev l) = existsb f l.
Proof.
  intros. apply eq_true_iff_eq. rewrite !existsb_exists.
  split; intros (x & I & F); exists x; split; auto; rewrite <- in_rev in *; auto.
Qed.
Lemma fold_or : forall l c, fold_left v_or l c =
  match l with
  | [] => c
  | _ => if known c && all_known l then of_bool (logic_eqb c L1 || ones l) else LX
  end.
Proof.
  induction l as [|a l IH]; intros c; [reflexivity|].
  cbn [fold_left]. rewrite IH. unfold all_known, ones.
  destruct l as [|b l]; [bit a; bit c|].
  set (m := b :: l). cbn [forallb existsb]. fold (all_known m).
  destruct (all_known m), (existsb (logic_eqb L1) m); bit a; bit c.
Qed.
Lemma fold_and : forall l c, fold_left v_and l c =
  match l with
  | [] => c
  | _ => if known c && all_known l then of_bool (logic_eqb c L1 && negb (zeros l)) else LX
  end.
Proof.
  induction l as [|a l IH]; intros c; [reflexivity|].
  cbn [fold_left]. rewrite IH. unfold all_known, zeros.
  destruct l as [|b l]; [bit a; bit c|].
  set (m := b :: l). cbn [forallb existsb]. fold (all_known m).
  destruct (all_known m), (existsb (logic_eqb L0) m); bit a; bit c.
Qed.

Lemma ones_zeros : forall l, all_known l = true -> forallb (logic_eqb L0) l = negb (ones l).
Proof.
  induction l as [|a l IH]; intros A; [reflexivity|]. apply all_known_cons in A.
  unfold ones in *. cbn. rewrite IH by tauto. destruct A. bit a.
Qed.
Lemma truth_known : forall l, all_known l = true -> truth l = of_bool (ones l).
Proof.
  intros l A. unfold truth. rewrite ones_zeros by auto. fold (ones l). destruct (ones l); reflexivity.
Qed.
Lemma log_or_is : forall l r, v_log_or l r = if all_known l && all_known r then of_bool (ones l || ones r) else LX.
Proof.
  intros. unfold v_log_or. rewrite <- (known_rev l), <- (known_rev r). unfold ones.
  rewrite <- (existsb_rev _ l), <- (existsb_rev _ r). fold (ones (rev l)) (ones (rev r)).
  generalize (rev l) (rev r). clear l r. intros l r. rewrite !fold_or.
  destruct l as [|a l]; destruct r as [|b r]; cbn [known andb]; try reflexivity.
  - cbn [all_known forallb andb]. rewrite orb_false_r, andb_true_r. cbn. reflexivity.
  - generalize (a :: l) (b :: r). intros x y.
    destruct (all_known x), (all_known y), (ones x), (ones y); reflexivity.
Qed.
Lemma log_and_is : forall l r, v_log_and l r = if all_known l && all_known r then L0 else LX.
Proof.
  intros. unfold v_log_and. rewrite <- (known_rev l), <- (known_rev r).
  generalize (rev l) (rev r). clear l r. intros l r. rewrite !fold_and.
  destruct l as [|a l]; destruct r as [|b r]; cbn [known andb]; try reflexivity.
  - generalize (a :: l). intros x. rewrite andb_true_r. reflexivity.
  - generalize (a :: l) (b :: r). intros x y.
    destruct (all_known x), (all_known y), (zeros x), (zeros y); reflexivity.
Qed.
Lemma not_loop_is : forall l c, known c = true -> not_loop l c =
  if all_known l then (if ones l then L0 else c) else LX.
Proof.
  induction l as [|a l IH]; intros c K; [reflexivity|].
  unfold all_known, ones in *. destruct a; cbn [not_loop forallb existsb known logic_eqb andb orb]; auto.
  rewrite IH by auto. fold (all_known l). destruct (all_known l), (existsb (logic_eqb L1) l); reflexivity.
Qed.
Lemma log_not_is : forall l, v_log_not l = if all_known l then of_bool (negb (ones l)) else LX.
Proof.
  intros. unfold v_log_not. rewrite not_loop_is by reflexivity. rewrite known_rev. unfold ones.
  rewrite existsb_rev. destruct (all_known l), (existsb (logic_eqb L1) l); reflexivity.
Qed.

Lemma s_or_reduce_is : forall l, all_known l = true -> s_or_reduce l = of_bool (ones l).
Proof.
  induction l as [|a l IH]; intros A; [reflexivity|]. apply all_known_cons in A. unfold s_or_reduce, ones in *.
  cbn [fold_right existsb]. rewrite IH by tauto. destruct A. destruct (existsb (logic_eqb L1) l); bit a.
Qed.
Lemma s_and_reduce_is : forall l, all_known l = true -> s_and_reduce l = of_bool (negb (zeros l)).
Proof.
  induction l as [|a l IH]; intros A; [reflexivity|]. apply all_known_cons in A. unfold s_and_reduce, zeros in *.
  cbn [fold_right existsb]. rewrite IH by tauto. destruct A. destruct (existsb (logic_eqb L0) l); bit a.
Qed.
Lemma or_reduce_is : forall l, or_reduce l = if all_known l then of_bool (ones l) else LX.
Proof.
  intros. unfold or_reduce. rewrite fold_or. rewrite <- (known_rev l). unfold ones. rewrite <- (existsb_rev _ l).
  destruct (rev l); reflexivity.
Qed.
Lemma and_reduce_is : forall l, and_reduce l = if all_known l then of_bool (negb (zeros l)) else LX.
Proof.
  intros. unfold and_reduce. rewrite fold_and. rewrite <- (known_rev l). unfold zeros. rewrite <- (existsb_rev _ l).
  destruct (rev l); reflexivity.
Qed.

Lemma xor_assoc : forall a b c, v_xor a (v_xor b c) = v_xor (v_xor a b) c.
Proof. intros. bit a; bit b; bit c. Qed.
Lemma xor_comm : forall a b, v_xor a b = v_xor b a.
Proof. intros. bit a; bit b. Qed.
Lemma s_xor_reduce_norm : forall l, s_xor L0 (s_xor_reduce l) = s_xor_reduce l.
Proof. intros [|a l]; [reflexivity|]. cbn. generalize (fold_right s_xor L0 l). intros b. bit a; bit b. Qed.
Lemma fold_xor : forall l c, fold_left v_xor l (s_xor L0 c) = s_xor c (s_xor_reduce l).
Proof.
  induction l as [|a l IH]; intros c; cbn [fold_left].
  - cbn. bit c.
  - replace (v_xor (s_xor L0 c) a) with (s_xor L0 (s_xor c a)) by (bit c; bit a).
    rewrite IH. cbn [s_xor_reduce fold_right]. fold (s_xor_reduce l). rewrite <- !xor_exact. symmetry. apply xor_assoc.
Qed.
Lemma s_xor_reduce_app : forall l m, s_xor_reduce (l ++ m) = s_xor (s_xor_reduce l) (s_xor_reduce m).
Proof.
  induction l as [|a l IH]; intros m; cbn [app].
  - symmetry. apply s_xor_reduce_norm.
  - cbn [s_xor_reduce fold_right]. fold (s_xor_reduce (l ++ m)) (s_xor_reduce l). rewrite IH, <- !xor_exact. apply xor_assoc.
Qed.
Lemma s_xor_reduce_rev : forall l, s_xor_reduce (rev l) = s_xor_reduce l.
Proof.
  induction l as [|a l IH]; [reflexivity|]. cbn [rev]. rewrite s_xor_reduce_app, IH.
  cbn [s_xor_reduce fold_right]. fold (s_xor_reduce l). rewrite <- (s_xor_reduce_norm l). generalize (s_xor_reduce l). intros b. bit a; bit b.
Qed.
Lemma xor_reduce_is : forall l, length l <> 1%nat -> xor_reduce l = s_xor_reduce l.
Proof.
  intros l N. rewrite <- s_xor_reduce_rev. unfold xor_reduce. rewrite <- rev_length in N.
  destruct (rev l) as [|a [|b m]]; cbn in N; [reflexivity|lia|].
  cbn [fold_left s_xor_reduce fold_right]. fold (s_xor_reduce m).
  replace (v_xor a b) with (s_xor L0 (s_xor a b)) by (bit a; bit b). rewrite fold_xor.
  rewrite <- !xor_exact. symmetry. apply xor_assoc.
Qed.

(* Numbers *)
Lemma number_nonneg : forall l, 0 <= number l < 2 ^ Z.of_nat (length l).
Proof.
  induction l as [|a l IH]; cbn [number length]; [cbn; lia|].
  rewrite Nat2Z.inj_succ, Z.pow_succ_r by lia. destruct a; lia.
Qed.
Lemma number_zeros : forall n, number (repeat L0 n) = 0.
Proof. induction n; cbn; lia. Qed.
Lemma number_app : forall l m, number (l ++ m) = number l + 2 ^ Z.of_nat (length l) * number m.
Proof.
  induction l as [|a l IH]; intros m; cbn [app number length]; [lia|].
  rewrite IH, Nat2Z.inj_succ, Z.pow_succ_r by lia. lia.
Qed.
Lemma bits_length : forall n z, length (bits n z) = n.
Proof. induction n; intros; cbn; auto. Qed.
Lemma bits_number : forall l, all_known l = true -> bits (length l) (number l) = l.
Proof.
  induction l as [|a l IH]; intros A; [reflexivity|]. apply all_known_cons in A. cbn [length bits number].
  destruct A as [A A']. f_equal.
  - rewrite Z.odd_add_mul_2. destruct a; cbn in *; (reflexivity || discriminate).
  - replace ((match a with L1 => 1 | _ => 0 end + 2 * number l) / 2) with (number l); [auto|].
    destruct a; Z.div_mod_to_equations; lia.
Qed.
Lemma bits_mod : forall n a b, a mod 2 ^ Z.of_nat n = b mod 2 ^ Z.of_nat n -> bits n a = bits n b.
Proof.
  induction n; intros a b E; [reflexivity|]. rewrite Nat2Z.inj_succ, Z.pow_succ_r in E by lia.
  assert (P : 0 < 2 ^ Z.of_nat n) by (apply Z.pow_pos_nonneg; lia).
  assert (D : exists k, a = b + 2 * (2 ^ Z.of_nat n * k)).
  { exists (a / (2 * 2 ^ Z.of_nat n) - b / (2 * 2 ^ Z.of_nat n)).
    pose proof (Z.div_mod a (2 * 2 ^ Z.of_nat n) ltac:(lia)). pose proof (Z.div_mod b (2 * 2 ^ Z.of_nat n) ltac:(lia)). nia. }
  destruct D as [k ->]. cbn [bits]. rewrite Z.odd_add_mul_2. f_equal. apply IHn.
  replace (b + 2 * (2 ^ Z.of_nat n * k)) with (b + (2 ^ Z.of_nat n * k) * 2) by lia.
  rewrite Z.div_add by lia. rewrite (Z.mul_comm _ k). apply Z.mod_add. lia.
Qed.
Lemma number_bits : forall n z, number (bits n z) = z mod 2 ^ Z.of_nat n.
Proof.
  induction n; intros z; cbn [bits number]; [cbn; rewrite Z.mod_1_r; reflexivity|].
  rewrite IHn, Nat2Z.inj_succ, Z.pow_succ_r by lia.
  assert (P : 0 < 2 ^ Z.of_nat n) by (apply Z.pow_pos_nonneg; lia).
  rewrite Z.rem_mul_r by lia. rewrite (Zmod_odd z). destruct (Z.odd z); lia.
Qed.
Lemma known_bits : forall n z, all_known (bits n z) = true.
Proof. induction n; intros; [reflexivity|]. cbn [bits]. apply all_known_cons. split; auto. destruct (Z.odd z); reflexivity. Qed.

(* resize *)
Lemma number_resize : forall l n, number (resize l n) = number l mod 2 ^ Z.of_nat n.
Proof.
  intros. unfold resize. pose proof (number_nonneg l).
  destruct (Nat.eqb_spec n (length l)) as [->|N]; [symmetry; apply Z.mod_small; lia|].
  destruct (Nat.ltb_spec n (length l)).
  - rewrite <- (firstn_skipn n l) at 2. rewrite number_app, firstn_length_le by lia.
    rewrite (Z.mul_comm _ (number (skipn n l))), Z.mod_add by (apply Z.pow_nonzero; lia). symmetry. apply Z.mod_small.
    pose proof (number_nonneg (firstn n l)) as Q. rewrite firstn_length_le in Q by lia. lia.
  - rewrite number_app, number_zeros. symmetry. rewrite Z.mod_small; [lia|].
    assert (2 ^ Z.of_nat (length l) <= 2 ^ Z.of_nat n) by (apply Z.pow_le_mono_r; lia). lia.
Qed.
Lemma resize_length : forall l n, length (resize l n) = n.
Proof.
  intros. unfold resize. destruct (Nat.eqb_spec n (length l)); [auto|].
  destruct (Nat.ltb_spec n (length l)); [apply firstn_length_le; lia|]. rewrite app_length, repeat_length. lia.
Qed.
Lemma known_app : forall l m, all_known (l ++ m) = all_known l && all_known m.
Proof. intros. apply forallb_app. Qed.
Lemma known_zeros : forall n, all_known (repeat L0 n) = true.
Proof. induction n; auto. Qed.
Lemma known_resize : forall l n, (length l <= n)%nat -> all_known (resize l n) = all_known l.
Proof.
  intros. unfold resize. destruct (Nat.eqb_spec n (length l)); [auto|].
  destruct (Nat.ltb_spec n (length l)); [lia|]. rewrite known_app, known_zeros. apply andb_true_r.
Qed.

(* Addition *)
Lemma add_loop : forall l r c, length l = length r -> all_known l = true -> all_known r = true -> known c = true ->
  add_unsigned l r c = bits (length l) (number l + number r + number [c]).
Proof.
  induction l as [|a l IH]; intros [|b r] c E A B C; cbn in E; try discriminate; [reflexivity|].
  apply all_known_cons in A. apply all_known_cons in B. destruct A as [A A'], B as [B B'].
  cbn [add_unsigned]. rewrite IH; [|lia|auto|auto|bit a; bit b; bit c].
  cbn [length bits number]. f_equal.
  - replace (match a with L1 => 1 | _ => 0 end + 2 * number l + (match b with L1 => 1 | _ => 0 end + 2 * number r)
      + (match c with L1 => 1 | _ => 0 end + 2 * 0)) with
      ((match a with L1 => 1 | _ => 0 end + match b with L1 => 1 | _ => 0 end + match c with L1 => 1 | _ => 0 end)
       + 2 * (number l + number r)) by lia.
    rewrite Z.odd_add_mul_2. destruct a; try discriminate; destruct b; try discriminate; destruct c; try discriminate; reflexivity.
  - f_equal. destruct a, b, c; cbn in *; try discriminate; Z.div_mod_to_equations; lia.
Qed.
Lemma neg_loop_is : forall l c, all_known l = true -> known c = true ->
  neg_loop l c = bits (length l) (2 ^ Z.of_nat (length l) - 1 - number l + number [c]).
Proof.
  induction l as [|a l IH]; intros c A C; [reflexivity|]. apply all_known_cons in A. destruct A as [A A'].
  cbn [neg_loop]. rewrite IH; [|auto|bit a; bit c].
  cbn [length bits number]. rewrite Nat2Z.inj_succ, Z.pow_succ_r by lia.
  set (p := 2 ^ Z.of_nat (length l)). f_equal.
  - replace (2 * p - 1 - (match a with L1 => 1 | _ => 0 end + 2 * number l) + (match c with L1 => 1 | _ => 0 end + 2 * 0)) with
      ((1 - (match a with L1 => 1 | _ => 0 end) + match c with L1 => 1 | _ => 0 end) + 2 * (p - 1 - number l)) by lia.
    rewrite Z.odd_add_mul_2. destruct a; try discriminate; destruct c; try discriminate; reflexivity.
  - f_equal. destruct a, c; cbn in *; try discriminate; Z.div_mod_to_equations; lia.
Qed.

(* Less definite operands give a less definite result. *)
Definition below (a b : logic) : Prop := known a = false \/ a = b.
Lemma below_xor : forall a a' b b', below a a' -> below b b' -> vague (v_xor a b) (v_xor a' b').
Proof. unfold below, vague. intros a a' b b' [A|A] [B|B]; subst; destruct b'; try destruct b; destruct a'; try destruct a; cbn in *; try discriminate; auto. Qed.
Lemma below_and : forall a a' b b', below a a' -> below b b' -> vague (v_and a b) (v_and a' b').
Proof. unfold below, vague. intros a a' b b' [A|A] [B|B]; subst; destruct b'; try destruct b; destruct a'; try destruct a; cbn in *; try discriminate; auto. Qed.
Lemma below_or : forall a a' b b', below a a' -> below b b' -> vague (v_or a b) (v_or a' b').
Proof. unfold below, vague. intros a a' b b' [A|A] [B|B]; subst; destruct b'; try destruct b; destruct a'; try destruct a; cbn in *; try discriminate; auto. Qed.
Lemma below_not : forall a a', below a a' -> vague (v_not a) (v_not a').
Proof. unfold below, vague. intros a a' [A|A]; subst; destruct a'; try destruct a; cbn in *; try discriminate; auto. Qed.
Lemma vague_below : forall a b, vague a b -> below a b.
Proof. intros a b [->| ->]; [left|right]; reflexivity. Qed.
Lemma settles_below : forall a b, settles a b -> below a b.
Proof. intros a b [K E]. destruct (known a) eqn:A; [right; auto|left; auto]. Qed.
Lemma add_mono : forall l l' r r' c c', Forall2 below l l' -> Forall2 below r r' -> below c c' ->
  Forall2 vague (add_unsigned l r c) (add_unsigned l' r' c').
Proof.
  intros l l' r r' c c' L. revert r r' c c'. induction L; intros r r' c c' R C; [constructor|].
  destruct R; [constructor|]. cbn [add_unsigned].
  constructor; [|apply IHL; auto]; auto 8 using below_xor, below_and, below_or, vague_below.
Qed.
Lemma neg_mono : forall l l' c c', Forall2 below l l' -> below c c' ->
  Forall2 vague (neg_loop l c) (neg_loop l' c').
Proof.
  intros l l' c c' L. revert c c'. induction L; intros c c' C; [constructor|].
  cbn [neg_loop]. constructor; [|apply IHL]; auto 8 using below_xor, below_and, below_not, vague_below.
Qed.
Lemma settles_list : forall l l', Forall2 settles l l' ->
  Forall2 below l l' /\ all_known l' = true /\ length l' = length l.
Proof.
  induction 1; [repeat constructor|]. destruct IHForall2 as (A & B & C). split; [|split].
  - constructor; auto using settles_below.
  - apply all_known_cons. split; auto. apply H.
  - cbn. lia.
Qed.
Lemma forall2_len : forall (P : logic -> logic -> Prop) l m, Forall2 P l m -> length l = length m.
Proof. induction 1; cbn; auto. Qed.
Lemma below_resize : forall l l' n, Forall2 below l l' -> (length l <= n)%nat -> Forall2 below (resize l n) (resize l' n).
Proof.
  intros l l' n F L. pose proof (forall2_len _ _ _ F) as E. unfold resize. rewrite <- E.
  destruct (Nat.eqb_spec n (length l)); [auto|]. destruct (Nat.ltb_spec n (length l)); [lia|].
  apply Forall2_app; auto. induction (n - length l)%nat; constructor; auto. right. reflexivity.
Qed.

(* Equality *)
Lemma number_cons_eq : forall a l b r, known a = true -> known b = true ->
  (number (a :: l) =? number (b :: r)) = logic_eqb a b && (number l =? number r).
Proof.
  intros. cbn [number]. pose proof (number_nonneg l). pose proof (number_nonneg r).
  destruct a, b; try discriminate; cbn [andb logic_eqb];
  destruct (Z.eqb_spec (number l) (number r)); try apply Z.eqb_eq; try apply Z.eqb_neq; lia.
Qed.
Lemma rest_loop_is : forall l c, known c = true -> rest_loop l c =
  if all_known l then (if ones l then L0 else c) else LX.
Proof.
  induction l as [|a l IH]; intros c K; [reflexivity|]. unfold all_known, ones in *.
  destruct a; cbn [rest_loop forallb existsb known logic_eqb andb orb eqb negb]; auto.
  rewrite IH by auto. fold (all_known l). destruct (all_known l), (existsb (logic_eqb L1) l); reflexivity.
Qed.
Lemma equal_loop_is : forall l r c, known c = true -> equal_loop l r c =
  if all_known l && all_known r then (if existsb differ (pairs l r) then L0 else c) else LX.
Proof.
  apply (pairs_ind (fun l r => forall c, known c = true -> equal_loop l r c =
  if all_known l && all_known r then (if existsb differ (pairs l r) then L0 else c) else LX)).
  - reflexivity.
  - intros a l _ c K. cbn [equal_loop]. rewrite rest_loop_is by auto. rewrite pairs_nil_r. rewrite andb_true_r.
    assert (E : existsb differ (map (fun a => (a, L0)) (a :: l)) = ones (a :: l)).
    { generalize (a :: l). intros m. unfold ones. induction m as [|b m IH]; [reflexivity|]. cbn. rewrite IH. bit b. }
    rewrite E. reflexivity.
  - intros b r _ c K. cbn [equal_loop]. rewrite rest_loop_is by auto. rewrite pairs_nil_l.
    assert (E : existsb differ (map (fun b => (L0, b)) (b :: r)) = ones (b :: r)).
    { generalize (b :: r). intros m. unfold ones. induction m as [|a m IH]; [reflexivity|]. cbn. rewrite IH. bit a. }
    rewrite E. reflexivity.
  - intros a l b r IH c K. rewrite pairs_cons. cbn [equal_loop existsb]. unfold all_known. cbn [forallb].
    fold (all_known l) (all_known r).
    destruct a, b; cbn [eqb logic_eqb known differ andb orb negb]; rewrite ?andb_false_r; try reflexivity;
    rewrite IH by auto; destruct (all_known l && all_known r), (existsb differ (pairs l r)); reflexivity.
Qed.
Lemma differ_number : forall l r, all_known l = true -> all_known r = true ->
  existsb differ (pairs l r) = negb (number l =? number r).
Proof.
  apply (pairs_ind (fun l r => all_known l = true -> all_known r = true ->
    existsb differ (pairs l r) = negb (number l =? number r))).
  - reflexivity.
  - intros a l IH A B. apply all_known_cons in A. destruct A as [A A']. specialize (IH A' B).
    rewrite pairs_nil_r in *. cbn [map existsb]. rewrite IH. cbn [number].
    pose proof (number_nonneg l). destruct a; cbn in A; try discriminate; cbn [differ orb negb].
    + f_equal. destruct (Z.eqb_spec (number l) 0), (Z.eqb_spec (0 + 2 * number l) 0); auto; lia.
    + destruct (Z.eqb_spec (1 + 2 * number l) 0); [lia|reflexivity].
  - intros a l IH A B. apply all_known_cons in B. destruct B as [B B']. specialize (IH A B').
    rewrite pairs_nil_l in *. cbn [map existsb]. rewrite IH. cbn [number].
    pose proof (number_nonneg l). destruct a; cbn in B; try discriminate; cbn [differ orb negb].
    + f_equal. destruct (Z.eqb_spec 0 (number l)), (Z.eqb_spec 0 (0 + 2 * number l)); auto; lia.
    + destruct (Z.eqb_spec 0 (1 + 2 * number l)); [lia|reflexivity].
  - intros a l b r IH A B. apply all_known_cons in A. apply all_known_cons in B. destruct A as [A A'], B as [B B'].
    rewrite pairs_cons, number_cons_eq by auto. cbn [existsb]. rewrite IH by auto.
    destruct a, b; cbn in *; try discriminate; reflexivity.
Qed.
Lemma case_equal_is : forall l r, v_case_equal l r = s_case_equal l r.
Proof.
  unfold s_case_equal. apply pairs_ind.
  - reflexivity.
  - intros a l _. rewrite pairs_nil_r. cbn [v_case_equal]. generalize (a :: l). intros m.
    induction m as [|b m IH]; [reflexivity|]. cbn. rewrite IH. bit b.
  - intros a l _. rewrite pairs_nil_l. cbn [v_case_equal]. generalize (a :: l). intros m.
    induction m as [|b m IH]; [reflexivity|]. cbn. rewrite IH. bit b.
  - intros a l b r IH. rewrite pairs_cons. cbn [v_case_equal forallb fst snd]. rewrite IH. unfold eqb.
    destruct (logic_eqb a b); reflexivity.
Qed.

(* Relations *)
Lemma number_zero : forall l, all_known l = true -> (number l = 0 <-> ones l = false).
Proof.
  induction l as [|a l IH]; intros A; [split; reflexivity|]. apply all_known_cons in A. destruct A as [A A'].
  specialize (IH A'). pose proof (number_nonneg l). unfold ones in *. cbn [number existsb].
  destruct a; cbn in A; try discriminate; cbn [logic_eqb orb]; [|split; [lia|discriminate]].
  rewrite <- IH. lia.
Qed.
Lemma known_nonzero : forall l, all_known l = true -> existsb (fun b => negb (eqb b L0)) l = ones l.
Proof.
  induction l as [|a l IH]; intros A; [reflexivity|]. apply all_known_cons in A. destruct A as [A A'].
  unfold ones in *. cbn [existsb]. rewrite IH by auto. destruct a; cbn in *; (reflexivity || discriminate).
Qed.
Lemma less_loop_app : forall p q, (forall x y, In (x, y) p -> x = y) -> less_loop (p ++ q) = less_loop q.
Proof.
  induction p as [|[x y] p IH]; intros q H; [reflexivity|]. cbn [app less_loop].
  assert (x = y) by (apply H; left; auto). subst. rewrite IH by (intros; apply H; right; auto).
  destruct y; reflexivity.
Qed.
(* The comparison from the left: the leading bits decide *)
Lemma less_loop_split : forall p q, less_loop (p ++ q) =
  if forallb (fun xy => logic_eqb (fst xy) (snd xy)) p then less_loop q else less_loop p.
Proof.
  induction p as [|[x y] p IH]; intros q; [reflexivity|]. cbn [app less_loop forallb fst snd].
  rewrite IH. destruct x, y; cbn; auto; destruct (forallb _ p); reflexivity.
Qed.
Lemma greater_loop_split : forall p q, greater_loop (p ++ q) =
  if forallb (fun xy => logic_eqb (fst xy) (snd xy)) p then greater_loop q else greater_loop p.
Proof.
  induction p as [|[x y] p IH]; intros q; [reflexivity|]. cbn [app greater_loop forallb fst snd].
  rewrite IH. destruct x, y; cbn; auto; destruct (forallb _ p); reflexivity.
Qed.
Lemma forallb_rev : forall (f : logic * logic -> bool) l, forallb f (rev l) = forallb f l.
Proof.
  induction l; [reflexivity|]. cbn [rev forallb]. rewrite forallb_app, IHl. cbn. rewrite andb_true_r. apply andb_comm.
Qed.
Lemma same_number : forall l r, length l = length r -> all_known l = true -> all_known r = true ->
  forallb (fun xy => logic_eqb (fst xy) (snd xy)) (combine l r) = (number l =? number r).
Proof.
  induction l as [|a l IH]; intros [|b r] E A B; cbn in E; try discriminate; [reflexivity|].
  apply all_known_cons in A. apply all_known_cons in B. destruct A as [A A'], B as [B B'].
  rewrite number_cons_eq by auto. cbn [combine forallb fst snd]. rewrite IH by (auto; lia). reflexivity.
Qed.
Lemma less_same : forall l r, length l = length r -> all_known l = true -> all_known r = true ->
  less_loop (rev (combine l r)) = of_bool (number l <? number r).
Proof.
  induction l as [|a l IH]; intros [|b r] E A B; cbn in E; try discriminate; [reflexivity|].
  apply all_known_cons in A. apply all_known_cons in B. destruct A as [A A'], B as [B B'].
  cbn [combine rev]. rewrite less_loop_split, forallb_rev, same_number, IH by (auto; lia). cbn [number].
  destruct (Z.eqb_spec (number l) (number r)) as [Q|Q].
  - rewrite Q. destruct a, b; cbn in A, B; try discriminate; cbn [less_loop eqb logic_eqb andb negb];
    destruct (Z.ltb_spec (0 + 2 * number r) (0 + 2 * number r)), (Z.ltb_spec (0 + 2 * number r) (1 + 2 * number r)),
      (Z.ltb_spec (1 + 2 * number r) (0 + 2 * number r)), (Z.ltb_spec (1 + 2 * number r) (1 + 2 * number r)); (reflexivity || lia).
  - f_equal. destruct (Z.ltb_spec (number l) (number r)); symmetry; [apply Z.ltb_lt|apply Z.ltb_ge];
    destruct a, b; lia.
Qed.
Lemma greater_same : forall l r, length l = length r -> all_known l = true -> all_known r = true ->
  greater_loop (rev (combine l r)) = of_bool (number r <? number l).
Proof.
  induction l as [|a l IH]; intros [|b r] E A B; cbn in E; try discriminate; [reflexivity|].
  apply all_known_cons in A. apply all_known_cons in B. destruct A as [A A'], B as [B B'].
  cbn [combine rev]. rewrite greater_loop_split, forallb_rev, same_number, IH by (auto; lia). cbn [number].
  destruct (Z.eqb_spec (number l) (number r)) as [Q|Q].
  - rewrite Q. destruct a, b; cbn in A, B; try discriminate; cbn [greater_loop eqb logic_eqb andb negb];
    destruct (Z.ltb_spec (0 + 2 * number r) (0 + 2 * number r)), (Z.ltb_spec (0 + 2 * number r) (1 + 2 * number r)),
      (Z.ltb_spec (1 + 2 * number r) (0 + 2 * number r)), (Z.ltb_spec (1 + 2 * number r) (1 + 2 * number r)); (reflexivity || lia).
  - f_equal. destruct (Z.ltb_spec (number r) (number l)); symmetry; [apply Z.ltb_lt|apply Z.ltb_ge];
    destruct a, b; lia.
Qed.

Lemma known_parts : forall n l, all_known l = true -> all_known (firstn n l) = true /\ all_known (skipn n l) = true.
Proof. intros n l A. rewrite <- (firstn_skipn n l), known_app in A. apply andb_true_iff in A. auto. Qed.
Lemma number_parts : forall n l, (n <= length l)%nat -> number l = number (firstn n l) + 2 ^ Z.of_nat n * number (skipn n l).
Proof. intros n l L. rewrite <- (firstn_skipn n l) at 1. rewrite number_app, firstn_length_le by auto. reflexivity. Qed.

(* The exact value of the comparisons of known vectors *)
Lemma less_is : forall l r, all_known l = true -> all_known r = true ->
  v_less l r = of_bool (if 2 ^ Z.of_nat (length r) <=? number l then true
                        else if 2 ^ Z.of_nat (length l) <=? number r then false else number l <? number r).
Proof.
  intros l r A B. unfold v_less. set (n := Nat.min (length l) (length r)).
  destruct (known_parts n l A) as [A1 A2], (known_parts n r B) as [B1 B2].
  pose proof (number_parts n l ltac:(subst n; lia)) as L. pose proof (number_parts n r ltac:(subst n; lia)) as R.
  pose proof (number_nonneg (firstn n l)) as K1. pose proof (number_nonneg (firstn n r)) as R1.
  pose proof (number_nonneg (skipn n l)) as L2. pose proof (number_nonneg (skipn n r)) as R2.
  pose proof (number_nonneg l) as L3. pose proof (number_nonneg r) as R3.
  pose proof (number_zero _ A2) as KZ. pose proof (number_zero _ B2) as RZ.
  rewrite firstn_length_le in K1, R1 by (subst n; lia). rewrite (known_nonzero _ B2).
  change (existsb (eqb L1) (skipn n l)) with (ones (skipn n l)). assert (P : 0 < 2 ^ Z.of_nat n) by (apply Z.pow_pos_nonneg; lia).
  rewrite less_same; [|rewrite !firstn_length_le by (subst n; lia); auto|auto|auto].
  rewrite skipn_length in L2, R2.
  destruct (le_lt_dec (length l) (length r)) as [G|G].
  - assert (N : n = length l) by (subst n; lia). rewrite N in *. rewrite Nat.sub_diag in L2. cbn in L2.
    assert (Z0 : number (skipn (length l) l) = 0) by lia. destruct KZ as [KZ _]. rewrite (KZ Z0).
    assert (2 ^ Z.of_nat (length l) <= 2 ^ Z.of_nat (length r)) by (apply Z.pow_le_mono_r; lia).
    destruct (Z.leb_spec (2 ^ Z.of_nat (length r)) (number l)); [lia|].
    destruct (ones (skipn (length l) r)) eqn:O.
    + assert (number (skipn (length l) r) <> 0) by (rewrite RZ; discriminate).
      destruct (Z.leb_spec (2 ^ Z.of_nat (length l)) (number r)); [reflexivity|nia].
    + assert (number (skipn (length l) r) = 0) by (apply RZ; auto).
      destruct (Z.leb_spec (2 ^ Z.of_nat (length l)) (number r)); [nia|]. f_equal. f_equal; nia.
  - assert (N : n = length r) by (subst n; lia). rewrite N in *. rewrite Nat.sub_diag in R2. cbn in R2.
    assert (Z0 : number (skipn (length r) r) = 0) by lia. destruct RZ as [RZ _]. rewrite (RZ Z0).
    assert (2 ^ Z.of_nat (length r) <= 2 ^ Z.of_nat (length l)) by (apply Z.pow_le_mono_r; lia).
    destruct (ones (skipn (length r) l)) eqn:O.
    + assert (number (skipn (length r) l) <> 0) by (rewrite KZ; discriminate).
      destruct (Z.leb_spec (2 ^ Z.of_nat (length r)) (number l)); [reflexivity|nia].
    + assert (number (skipn (length r) l) = 0) by (apply KZ; auto).
      destruct (Z.leb_spec (2 ^ Z.of_nat (length r)) (number l)); [nia|].
      destruct (Z.leb_spec (2 ^ Z.of_nat (length l)) (number r)); [lia|]. f_equal. f_equal; nia.
Qed.
Lemma greater_is : forall l r, all_known l = true -> all_known r = true ->
  v_greater l r = of_bool (if 2 ^ Z.of_nat (length r) <=? number l then false
                        else if 2 ^ Z.of_nat (length l) <=? number r then true else number r <? number l).
Proof.
  intros l r A B. unfold v_greater. set (n := Nat.min (length l) (length r)).
  destruct (known_parts n l A) as [A1 A2], (known_parts n r B) as [B1 B2].
  pose proof (number_parts n l ltac:(subst n; lia)) as L. pose proof (number_parts n r ltac:(subst n; lia)) as R.
  pose proof (number_nonneg (firstn n l)) as K1. pose proof (number_nonneg (firstn n r)) as R1.
  pose proof (number_nonneg (skipn n l)) as L2. pose proof (number_nonneg (skipn n r)) as R2.
  pose proof (number_nonneg l) as L3. pose proof (number_nonneg r) as R3.
  pose proof (number_zero _ A2) as KZ. pose proof (number_zero _ B2) as RZ.
  rewrite firstn_length_le in K1, R1 by (subst n; lia). rewrite (known_nonzero _ B2).
  change (existsb (eqb L1) (skipn n l)) with (ones (skipn n l)). assert (P : 0 < 2 ^ Z.of_nat n) by (apply Z.pow_pos_nonneg; lia).
  rewrite greater_same; [|rewrite !firstn_length_le by (subst n; lia); auto|auto|auto].
  rewrite skipn_length in L2, R2.
  destruct (le_lt_dec (length l) (length r)) as [G|G].
  - assert (N : n = length l) by (subst n; lia). rewrite N in *. rewrite Nat.sub_diag in L2. cbn in L2.
    assert (Z0 : number (skipn (length l) l) = 0) by lia. destruct KZ as [KZ _]. rewrite (KZ Z0).
    assert (2 ^ Z.of_nat (length l) <= 2 ^ Z.of_nat (length r)) by (apply Z.pow_le_mono_r; lia).
    destruct (Z.leb_spec (2 ^ Z.of_nat (length r)) (number l)); [lia|].
    destruct (ones (skipn (length l) r)) eqn:O.
    + assert (number (skipn (length l) r) <> 0) by (rewrite RZ; discriminate).
      destruct (Z.leb_spec (2 ^ Z.of_nat (length l)) (number r)); [reflexivity|nia].
    + assert (number (skipn (length l) r) = 0) by (apply RZ; auto).
      destruct (Z.leb_spec (2 ^ Z.of_nat (length l)) (number r)); [nia|]. f_equal. f_equal; nia.
  - assert (N : n = length r) by (subst n; lia). rewrite N in *. rewrite Nat.sub_diag in R2. cbn in R2.
    assert (Z0 : number (skipn (length r) r) = 0) by lia. destruct RZ as [RZ _]. rewrite (RZ Z0).
    assert (2 ^ Z.of_nat (length r) <= 2 ^ Z.of_nat (length l)) by (apply Z.pow_le_mono_r; lia).
    destruct (ones (skipn (length r) l)) eqn:O.
    + assert (number (skipn (length r) l) <> 0) by (rewrite KZ; discriminate).
      destruct (Z.leb_spec (2 ^ Z.of_nat (length r)) (number l)); [reflexivity|nia].
    + assert (number (skipn (length r) l) = 0) by (apply KZ; auto).
      destruct (Z.leb_spec (2 ^ Z.of_nat (length r)) (number l)); [nia|].
      destruct (Z.leb_spec (2 ^ Z.of_nat (length l)) (number r)); [lia|]. f_equal. f_equal; nia.
Qed.

(* Integers *)
Lemma to_logic_pos : forall n z, 0 <= z -> to_logic_loop n z L0 = bits n z.
Proof.
  induction n; intros z H; [reflexivity|]. cbn [to_logic_loop bits]. rewrite Z.quot_div_nonneg by lia.
  rewrite IHn by (apply Z.div_pos; lia). f_equal. rewrite Zmod_odd. destruct (Z.odd z); reflexivity.
Qed.
Lemma to_logic_neg : forall n z, 0 <= z -> to_logic_loop n z L1 = bits n (- (z + 1)).
Proof.
  induction n; intros z H; [reflexivity|]. cbn [to_logic_loop bits]. rewrite Z.quot_div_nonneg by lia.
  rewrite IHn by (apply Z.div_pos; lia). f_equal.
  - rewrite Zmod_odd, Z.odd_opp. replace (z + 1) with (Z.succ z) by lia. rewrite Z.odd_succ, <- Z.negb_odd.
    destruct (Z.odd z); reflexivity.
  - f_equal. Z.div_mod_to_equations. lia.
Qed.
Lemma to_logic_is : forall z n, to_logic z n = bits n z.
Proof.
  intros. unfold to_logic. destruct (Z.ltb_spec z 0).
  - rewrite to_logic_neg by lia. f_equal. lia.
  - apply to_logic_pos. lia.
Qed.
Lemma to_integer_loop_is : forall l r, 0 <= r < 2 ^ 63 ->
  to_integer_loop l r = let v := r * 2 ^ Z.of_nat (length l) + number (rev l) in
    if v <? 2 ^ 63 then Ok v else Fault.
Proof.
  induction l as [|b l IH]; intros r R.
  - cbn [to_integer_loop length rev number Z.of_nat]. cbv zeta. replace (r * 2 ^ 0 + 0) with r by lia.
    destruct (Z.ltb_spec r (2 ^ 63)); [reflexivity|lia].
  - cbn [to_integer_loop rev length]. cbv zeta. rewrite number_app, rev_length, Nat2Z.inj_succ, Z.pow_succ_r by lia.
    pose proof (number_nonneg (rev l)) as N. rewrite rev_length in N.
    assert (P : 0 < 2 ^ Z.of_nat (length l)) by (apply Z.pow_pos_nonneg; lia).
    unfold int64. destruct (Z.leb_spec (- 2 ^ 63) (r * 2)); [|lia].
    destruct (Z.ltb_spec (r * 2) (2 ^ 63)); cbn [andb bind].
    + unfold eqb. destruct b; cbn [logic_eqb number bind].
      1-3: rewrite IH by lia; cbv zeta;
        match goal with |- (if ?a <? _ then Ok ?a else _) = (if ?b <? _ then _ else _) => replace b with a by lia end; reflexivity.
      destruct (Z.leb_spec (- 2 ^ 63) (r * 2 + 1)); [|lia]. destruct (Z.ltb_spec (r * 2 + 1) (2 ^ 63)); [|exfalso; lia].
      cbn [andb bind]. rewrite IH by lia. cbv zeta.
      match goal with |- (if ?a <? _ then Ok ?a else _) = (if ?b <? _ then _ else _) => replace b with a by lia end; reflexivity.
    + match goal with |- _ = if ?v <? _ then _ else _ => destruct (Z.ltb_spec v (2 ^ 63)) as [Q|Q] end; [|reflexivity].
      exfalso. assert (0 <= 2 ^ Z.of_nat (length l) * number [b]) by (cbn [number]; destruct b; nia). nia.
Qed.
Lemma to_integer_is : forall l, to_integer l = if number l <? 2 ^ 63 then Ok (number l) else Fault.
Proof.
  intros. unfold to_integer. rewrite to_integer_loop_is by lia. cbv zeta. rewrite rev_involutive. reflexivity.
Qed.

(* Nets *)
Lemma decode_encode : forall v s0 s1, 0 <= s0 < 8 -> 0 <= s1 < 8 -> decode_net (encode_net v s0 s1) = (v, s0, s1).
Proof.
  intros v s0 s1 A B. unfold decode_net, encode_net. set (n := pos v + s0 * 4 + s1 * 32).
  assert (0 <= pos v < 4) by (destruct v; cbn; lia). rewrite !Z.rem_mod_nonneg by (try apply Z.div_pos; subst n; lia).
  replace (n mod 4) with (pos v) by (subst n; Z.div_mod_to_equations; lia).
  replace ((n / 4) mod 8) with s0 by (subst n; Z.div_mod_to_equations; lia).
  replace ((n / 32) mod 8) with s1 by (subst n; Z.div_mod_to_equations; lia).
  destruct v; reflexivity.
Qed.
Definition wired (data : logic) (l : list logic) := fold_left s_wire2 l data.
Lemma resolve_strong : forall l data, data <> LZ -> ~ In LX l ->
  fold_left resolve_step (map to_net l) (data, St, St) = (wired data l, St, St).
Proof.
  induction l as [|b l IH]; intros data D X; [reflexivity|]. cbn [map fold_left wired].
  assert (H : resolve_step (data, St, St) (to_net b) = (s_wire2 data b, St, St)).
  { destruct data, b; try reflexivity; exfalso; auto; apply X; left; reflexivity. }
  rewrite H. apply IH.
  - destruct data, b; cbn; try discriminate; auto.
  - intros I. apply X. right. auto.
Qed.
Lemma wire2_assoc : forall a b c, s_wire2 a (s_wire2 b c) = s_wire2 (s_wire2 a b) c.
Proof. intros. bit a; bit b; bit c. Qed.
Lemma wired_is : forall l d, wired d l = s_wire2 d (s_wire l).
Proof.
  induction l as [|b l IH]; intros d; cbn; [bit d|]. fold (wired (s_wire2 d b) l). rewrite IH. symmetry. apply wire2_assoc.
Qed.
Lemma wired_known : forall l d, d <> LZ -> wired d l <> LZ.
Proof. intros. rewrite wired_is. generalize (s_wire l). intros b. bit d; bit b; congruence. Qed.
