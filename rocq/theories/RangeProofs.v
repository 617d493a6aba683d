From Coq Require Import List ZArith Bool Lia.
From Verif Require Import Base RangeSpec RangeModel.
From Verif Require JitModel ArithModel.
Import ListNotations.
Local Open Scope Z_scope.

Definition word (z : Z) : Prop := - 2 ^ 63 <= z < 2 ^ 63.
Definition code (d : direction) : Z := match d with To => 0 | Downto => 1 end.
(* Bounds of 64 bits whose difference fits too *)
Definition narrow (r : range) : Prop :=
  word (r_left r) /\ word (r_right r) /\ Z.abs (r_right r - r_left r) < 2 ^ 63 - 1.
Definition describes (b : bounds) (r : range) : Prop :=
  b = Meta (op_wrap (r_left r) (r_right r) (code (r_dir r))) \/
  b = Static (r_left r) (r_right r) (code (r_dir r)).
(* What is known of a register at compile time is true of its value. *)
Definition knows (k : reg) (v : Z) : Prop := low k <= v <= high k /\ (forall c, const k = Some c -> c = v).

Lemma wrap_id : forall z, word z -> JitModel.wrap z = z.
Proof. intros z W. unfold word in W. unfold JitModel.wrap, JitModel.M63, JitModel.M64. rewrite Z.mod_small; lia. Qed.
Lemma wrap_add : forall a b, JitModel.wrap (JitModel.wrap a + b) = JitModel.wrap (a + b).
Proof.
  intros. unfold JitModel.wrap. f_equal.
  replace ((a + JitModel.M63) mod JitModel.M64 - JitModel.M63 + b + JitModel.M63) with ((a + JitModel.M63) mod JitModel.M64 + b) by lia.
  rewrite Zplus_mod_idemp_l. f_equal. lia.
Qed.
Lemma lxor_m1 : forall c, Z.lxor (-1) c = - c - 1.
Proof. intros. rewrite Z.lxor_m1_l. unfold Z.lnot. lia. Qed.

Lemma size_nonneg : forall r, 0 <= size r.
Proof. intros r. unfold size. destruct (r_dir r); lia. Qed.
Lemma wrap_clamped : forall r, narrow r ->
  clamp (add64 (if code (r_dir r) =? RANGE_DOWNTO then sub64 (r_left r) (r_right r) else sub64 (r_right r) (r_left r)) 1)
  = size r.
Proof.
  intros r (A & B & C). unfold add64, sub64, word, size, clamp, code, RANGE_DOWNTO in *. destruct (r_dir r); cbn [Z.eqb Pos.eqb].
  - rewrite (wrap_id (r_right r - r_left r)) by (unfold word; lia). rewrite wrap_id by (unfold word; lia).
    destruct (Z.ltb_spec (r_right r - r_left r + 1) 0); lia.
  - rewrite (wrap_id (r_left r - r_right r)) by (unfold word; lia). rewrite wrap_id by (unfold word; lia).
    destruct (Z.ltb_spec (r_left r - r_right r + 1) 0); lia.
Qed.
Lemma length_field : forall r, narrow r ->
  d_length (op_wrap (r_left r) (r_right r) (code (r_dir r))) = match r_dir r with To => size r | Downto => - size r - 1 end.
Proof.
  intros r N. unfold op_wrap. cbv zeta. cbn [d_length]. rewrite wrap_clamped by auto.
  destruct (r_dir r); [apply Z.lxor_0_l|apply lxor_m1].
Qed.
Lemma size_word : forall r, narrow r -> size r < 2 ^ 63.
Proof. intros r (A & B & C). unfold size. destruct (r_dir r); lia. Qed.
Lemma desc_len : forall r, narrow r -> uarray_len (op_wrap (r_left r) (r_right r) (code (r_dir r))) = size r.
Proof.
  intros r N. pose proof (size_nonneg r). pose proof (size_word r N). unfold uarray_len. rewrite length_field by auto.
  destruct (r_dir r).
  - rewrite Z.shiftr_div_pow2, Z.div_small by lia. apply Z.lxor_0_l.
  - rewrite Z.shiftr_div_pow2 by lia. replace ((- size r - 1) / 2 ^ 63) with (-1) by (Z.div_mod_to_equations; lia).
    rewrite lxor_m1. lia.
Qed.
Lemma desc_dir : forall r, narrow r -> uarray_dir (op_wrap (r_left r) (r_right r) (code (r_dir r))) = code (r_dir r).
Proof.
  intros r N. pose proof (size_nonneg r). unfold uarray_dir. rewrite length_field by auto.
  destruct (r_dir r); cbn [code].
  - destruct (Z.ltb_spec (size r) 0); lia.
  - destruct (Z.ltb_spec (- size r - 1) 0); lia.
Qed.
Lemma desc_right : forall r, narrow r -> uarray_right (op_wrap (r_left r) (r_right r) (code (r_dir r))) =
  match r_dir r with To => JitModel.wrap (r_left r + size r - 1) | Downto => JitModel.wrap (r_left r - size r + 1) end.
Proof.
  intros r N. pose proof (size_nonneg r). unfold uarray_right. rewrite length_field by auto.
  change (d_left (op_wrap (r_left r) (r_right r) (code (r_dir r)))) with (r_left r).
  unfold add64. rewrite wrap_add. destruct (r_dir r); f_equal.
  - destruct (Z.ltb_spec (size r) 0); lia.
  - destruct (Z.ltb_spec (- size r - 1) 0); lia.
Qed.
Lemma size_zero : forall r, is_null r <-> size r = 0.
Proof.
  intros r. unfold is_null, belongs, size. destruct (r_dir r); split; intros H; try (intros i; lia).
  - specialize (H (r_left r)). lia.
  - specialize (H (r_left r)). lia.
Qed.
(* The right bound of the descriptor, null ranges included *)
Lemma desc_right_is : forall r, narrow r -> uarray_right (op_wrap (r_left r) (r_right r) (code (r_dir r))) =
  if size r =? 0 then match r_dir r with To => r_left r - 1 | Downto => r_left r + 1 end else r_right r.
Proof.
  intros r N. rewrite desc_right by auto. destruct N as (A & B & C). unfold word in *.
  destruct (Z.eqb_spec (size r) 0) as [E|E]; unfold size in *; destruct (r_dir r).
  - rewrite E. rewrite wrap_id by (unfold word; lia). lia.
  - rewrite E. rewrite wrap_id by (unfold word; lia). lia.
  - replace (r_left r + Z.max 0 (r_right r - r_left r + 1) - 1) with (r_right r) by lia. apply wrap_id. auto.
  - replace (r_left r - Z.max 0 (r_left r - r_right r + 1) + 1) with (r_right r) by lia. apply wrap_id. auto.
Qed.

Lemma check_is : forall r v, op_check v (r_left r) (r_right r) (code (r_dir r)) = true <-> belongs r v.
Proof.
  intros. unfold op_check, belongs, RANGE_DOWNTO. destruct (r_dir r); cbn [code Z.eqb Pos.eqb];
  rewrite andb_true_iff, !Z.leb_le; tauto.
Qed.
Lemma null_is : forall r, op_range_null (r_left r) (r_right r) (code (r_dir r)) = true <-> is_null r.
Proof.
  intros. rewrite size_zero. unfold op_range_null, size, RANGE_DOWNTO. destruct (r_dir r); cbn [code Z.eqb Pos.eqb];
  rewrite Z.ltb_lt; lia.
Qed.

(* All that code needs of the bounds of an array *)
Lemma describes_ok : forall b r, describes b r -> narrow r ->
  array_left b = r_left r /\ array_dir b = code (r_dir r) /\ array_len b = size r /\
  (forall v, op_check v (array_left b) (array_right b) (array_dir b) = true <-> belongs r v).
Proof.
  intros b r [->| ->] N; cbn [array_left array_dir array_len array_right].
  - split; [reflexivity|]. split; [apply desc_dir; auto|]. split; [apply desc_len; auto|].
    intros v. rewrite desc_dir, desc_right_is by auto. change (uarray_left _) with (r_left r).
    destruct (Z.eqb_spec (size r) 0) as [E|E]; [|apply check_is].
    pose proof (proj2 (size_zero r) E v) as X. split; [|tauto]. intros H. exfalso.
    unfold op_check, RANGE_DOWNTO in H. destruct (r_dir r); cbn [code Z.eqb Pos.eqb] in H;
    apply andb_true_iff in H; rewrite !Z.leb_le in H; lia.
  - split; [reflexivity|]. split; [reflexivity|]. split; [|intros; apply check_is].
    unfold size, RANGE_TO. destruct (r_dir r); cbn [code Z.eqb]; apply Z.max_comm.
Qed.

Lemma place_bounds : forall r i, belongs r i -> 0 <= place r i < size r.
Proof. intros r i. unfold belongs, place, size. destruct (r_dir r); lia. Qed.
Lemma off_is : forall b r i, describes b r -> narrow r -> belongs r i -> array_off i b = place r i.
Proof.
  intros b r i D N B. destruct (describes_ok b r D N) as (A & C & _). unfold array_off. rewrite A, C.
  pose proof (place_bounds r i B). pose proof (size_word r N). unfold place, sub64, RANGE_DOWNTO in *.
  destruct (r_dir r); cbn [code Z.eqb Pos.eqb]; apply wrap_id; unfold word; lia.
Qed.

Lemma total_pos : forall rs is, Forall2 belongs rs is -> 0 < total rs.
Proof.
  induction 1; cbn; [lia|]. pose proof (place_bounds _ _ H). fold (total l). nia.
Qed.
Lemma place_in_bounds : forall rs is, Forall2 belongs rs is -> 0 <= place_in rs is < total rs.
Proof.
  induction 1; cbn [place_in]; [cbn; lia|]. pose proof (place_bounds _ _ H).
  cbn [total fold_right]. fold (total l). pose proof (total_pos _ _ H0). nia.
Qed.
Lemma place_inj : forall r i j, place r i = place r j -> i = j.
Proof. intros r i j. unfold place. destruct (r_dir r); lia. Qed.
Lemma place_in_inj : forall rs is js, Forall2 belongs rs is -> Forall2 belongs rs js ->
  place_in rs is = place_in rs js -> is = js.
Proof.
  intros rs is js A. revert js. induction A; intros js B E; inversion B; subst; [reflexivity|].
  cbn [place_in] in E. pose proof (place_in_bounds _ _ A). pose proof (place_in_bounds _ _ H4).
  assert (place x y = place x y0) by nia. assert (y = y0) by (apply (place_inj x); auto). subst. f_equal.
  apply IHA; auto. lia.
Qed.
Lemma place_nth : forall r k, 0 <= k < size r -> belongs r (nth_value r k) /\ place r (nth_value r k) = k.
Proof. intros r k. unfold belongs, nth_value, place, size. destruct (r_dir r); lia. Qed.
Lemma place_in_onto : forall rs p, 0 <= p < total rs -> exists is, Forall2 belongs rs is /\ place_in rs is = p.
Proof.
  induction rs as [|r rs IH]; intros p P.
  - cbn in P. exists []. split; [constructor|cbn; lia].
  - cbn [total fold_right] in P. fold (total rs) in P. pose proof (size_nonneg r).
    assert (T : 0 < total rs) by nia.
    assert (Q : 0 <= p / total rs < size r) by (split; [apply Z.div_pos; lia|apply Z.div_lt_upper_bound; nia]).
    destruct (IH (p mod total rs)) as (is & F & E); [apply Z.mod_pos_bound; auto|].
    destruct (place_nth r _ Q) as [B Pl]. exists (nth_value r (p / total rs) :: is).
    split; [constructor; auto|]. cbn [place_in]. rewrite Pl, E. pose proof (Z.div_mod p (total rs)). lia.
Qed.

Lemma ref_loop : forall bs rs, Forall2 describes bs rs -> Forall narrow rs -> forall is first offset,
  length is = length rs -> (first = true -> offset = 0) -> 0 <= offset ->
  (Forall2 belongs rs is -> (offset + 1) * total rs < 2 ^ 63 ->
     array_ref_loop first bs is offset = Some (offset * total rs + place_in rs is)) /\
  (~ Forall2 belongs rs is -> array_ref_loop first bs is offset = None).
Proof.
  induction 1 as [|b r bs rs D DS IH]; intros N is first offset L F O.
  - destruct is; [|discriminate]. cbn. split; [intros; f_equal; lia|]. intros X. exfalso. apply X. constructor.
  - destruct is as [|i is]; [discriminate|]. inversion N as [|? ? N1 N2]; subst. cbn in L.
    destruct (describes_ok b r D N1) as (A1 & A2 & A3 & A4). cbn [array_ref_loop].
    specialize (A4 i). destruct (op_check i (array_left b) (array_right b) (array_dir b)) eqn:C.
    + assert (B : belongs r i) by tauto. pose proof (place_bounds r i B) as PB. pose proof (size_word r N1) as SW.
      rewrite (off_is b r i D N1 B), A3.
      assert (M : forall o, o = (if first then offset else mul64 offset (size r)) ->
        (offset + 1) * size r < 2 ^ 63 -> add64 o (place r i) = offset * size r + place r i).
      { intros o -> Q. unfold add64, mul64. destruct first.
        - rewrite (F eq_refl) in *. apply wrap_id. unfold word. lia.
        - rewrite wrap_add. apply wrap_id. unfold word. nia. }
      cbn [place_in total fold_right]. fold (total rs).
      split.
      * intros FB Q. inversion FB as [|? ? ? ? B1 B2]; subst. pose proof (total_pos _ _ B2) as TP.
        rewrite (M _ eq_refl) by nia.
        destruct (IH N2 is false (offset * size r + place r i)) as [G _]; [lia|discriminate|nia|].
        rewrite G by (auto; nia). f_equal. ring.
      * intros X.
        assert (NB : ~ Forall2 belongs rs is) by (intros Y; apply X; constructor; auto).
        set (o := add64 _ _).
        clear M. revert NB. generalize o false. clear - IH N2 L.
        (* a failing check fails whatever the offset *)
        intros o f NB. destruct (IH N2 is true 0) as [_ G]; [lia|auto|lia|]. specialize (G NB).
        revert G. generalize true 0 f o. clear. revert is.
        induction bs as [|b bs IH]; intros [|i is] f0 o0 f o; cbn [array_ref_loop]; try discriminate.
        destruct (op_check _ _ _ _); auto. apply IH.
    + split; [|reflexivity]. intros FB. exfalso. inversion FB; subst. assert (op_check i (array_left b) (array_right b) (array_dir b) = true) by (rewrite C; tauto).
      congruence.
Qed.

(* Values *)
Lemma values_length : forall r, Z.of_nat (length (values r)) = size r.
Proof. intros. unfold values. rewrite map_length, seq_length. pose proof (size_nonneg r). lia. Qed.
Lemma values_in : forall r i, In i (values r) <-> belongs r i.
Proof.
  intros. unfold values. rewrite in_map_iff. split.
  - intros (k & <- & I). apply in_seq in I. apply place_nth. lia.
  - intros B. pose proof (place_bounds r i B). exists (Z.to_nat (place r i)). split.
    + rewrite Z2Nat.id by lia. unfold nth_value, place. destruct (r_dir r); lia.
    + apply in_seq. lia.
Qed.

(* Variables *)
Lemma width_cases : forall r, width r = 8 \/ width r = 16 \/ width r = 32 \/ width r = 64.
Proof. destruct r; cbn; auto. Qed.
Lemma wrap_cong : forall z w, (w = 8 \/ w = 16 \/ w = 32 \/ w = 64) -> (JitModel.wrap z) mod 2 ^ w = z mod 2 ^ w.
Proof.
  intros z w W. unfold JitModel.wrap.
  assert (E : exists k, (z + JitModel.M63) mod JitModel.M64 - JitModel.M63 = z + k * JitModel.M64).
  { exists (- ((z + JitModel.M63) / JitModel.M64)). pose proof (Z.div_mod (z + JitModel.M63) JitModel.M64 ltac:(discriminate)). lia. }
  destruct E as [k ->]. change JitModel.M64 with (2 ^ 64).
  destruct W as [-> |[-> |[-> | ->]]];
  [change (2 ^ 64) with (2 ^ 56 * 2 ^ 8)|change (2 ^ 64) with (2 ^ 48 * 2 ^ 16)|change (2 ^ 64) with (2 ^ 32 * 2 ^ 32)|];
  rewrite ?Z.mul_assoc; apply Z.mod_add; discriminate.
Qed.
Lemma hold_mod : forall r a b, a mod 2 ^ width r = b mod 2 ^ width r -> hold r a = hold r b.
Proof.
  intros r a b E. unfold hold.
  destruct (ArithModel.vtype_repr_signed r).
  - f_equal. rewrite <- (Zplus_mod_idemp_l a), E, Zplus_mod_idemp_l. reflexivity.
  - destruct (Z.eqb_spec (width r) 64) as [W|W]; [|exact E].
    rewrite W in E. unfold JitModel.wrap. change JitModel.M64 with (2 ^ 64). f_equal.
    rewrite <- (Zplus_mod_idemp_l a), E, Zplus_mod_idemp_l. reflexivity.
Qed.
Lemma hold_cong : forall r z, (hold r z) mod 2 ^ width r = z mod 2 ^ width r.
Proof.
  intros r z. unfold hold. destruct (ArithModel.vtype_repr_signed r).
  - rewrite Zminus_mod_idemp_l. f_equal. lia.
  - destruct (Z.eqb_spec (width r) 64) as [W|W]; [rewrite W; apply wrap_cong; auto|apply Zmod_mod].
Qed.
Definition sound_type (t : ArithModel.vtype) : Prop := word (ArithModel.tlow t) /\ word (ArithModel.thigh t).
Lemma hold_id : forall t z, sound_type t -> ArithModel.tlow t <= z <= ArithModel.thigh t -> hold (ArithModel.vtype_repr t) z = z.
Proof.
  intros [lo hi] z [A B] H. unfold word in *. cbn [ArithModel.tlow ArithModel.thigh] in *.
  unfold ArithModel.vtype_repr.
  assert (S8 : forall w, 0 < w -> - 2 ^ (w - 1) <= z < 2 ^ (w - 1) -> (z + 2 ^ (w - 1)) mod 2 ^ w - 2 ^ (w - 1) = z).
  { intros w W Q. assert (2 ^ w = 2 * 2 ^ (w - 1)) by (rewrite <- Z.pow_succ_r by lia; f_equal; lia). rewrite Z.mod_small; lia. }
  destruct (Z.ltb_spec hi lo); [lia|].
  destruct (Z.ltb_spec lo 0).
  - destruct (Z.leb_spec (-128) lo), (Z.leb_spec hi 127); cbn [andb];
    try (unfold hold; cbn [ArithModel.vtype_repr_signed width]; apply S8; lia);
    destruct (Z.leb_spec (-32768) lo), (Z.leb_spec hi 32767); cbn [andb];
    try (unfold hold; cbn [ArithModel.vtype_repr_signed width]; apply S8; lia);
    destruct (Z.leb_spec (-2147483648) lo), (Z.leb_spec hi 2147483647); cbn [andb];
    (unfold hold; cbn [ArithModel.vtype_repr_signed width]; apply S8; lia).
  - destruct (Z.leb_spec hi 1); [unfold hold; cbn; apply Z.mod_small; lia|].
    destruct (Z.leb_spec hi 255); [unfold hold; cbn; apply Z.mod_small; lia|].
    destruct (Z.leb_spec hi 65535); [unfold hold; cbn; apply Z.mod_small; lia|].
    destruct (Z.leb_spec hi 4294967295); [unfold hold; cbn; apply Z.mod_small; lia|].
    unfold hold. cbn [ArithModel.vtype_repr_signed width Z.eqb Pos.eqb]. apply wrap_id. unfold word. lia.
Qed.
Lemma hold_step : forall t i step step', sound_type t ->
  step' = step \/ step' = hold (ArithModel.vtype_repr t) step ->
  ArithModel.tlow t <= i + step <= ArithModel.thigh t ->
  hold (ArithModel.vtype_repr t) (add64 i step') = i + step.
Proof.
  intros t i step step' T E H. set (r := ArithModel.vtype_repr t) in *.
  transitivity (hold r (i + step)); [|apply hold_id; auto].
  apply hold_mod. unfold add64. rewrite wrap_cong by apply width_cases.
  destruct E as [-> | ->]; [reflexivity|].
  rewrite <- Zplus_mod_idemp_r, hold_cong, Zplus_mod_idemp_r. reflexivity.
Qed.

(* Loops *)
Lemma for_loop : forall S t r (body : S -> Z -> S * bool) right' step', sound_type t ->
  (forall i, belongs r i -> ArithModel.tlow t <= i <= ArithModel.thigh t) ->
  right' = r_right r ->
  (let step := match r_dir r with To => 1 | Downto => -1 end in
   step' = step \/ step' = hold (ArithModel.vtype_repr t) step) ->
  forall k j fuel st, (j + Datatypes.S k = Z.to_nat (size r))%nat -> (k < fuel)%nat ->
  for_body (ArithModel.vtype_repr t) right' step' body fuel (nth_value r (Z.of_nat j)) st =
  Some (run body (map (fun m => nth_value r (Z.of_nat m)) (seq j (Datatypes.S k))) st).
Proof.
  intros S t r body right' step' T In_ -> St.
  induction k; intros j fuel st J F; (destruct fuel as [|fuel]; [lia|]); cbn [for_body seq map run].
  - destruct (body st (nth_value r (Z.of_nat j))) as [st' leave]. destruct leave; [reflexivity|].
    assert (E : nth_value r (Z.of_nat j) = r_right r) by (unfold nth_value, size in *; destruct (r_dir r); lia).
    rewrite E, Z.eqb_refl. reflexivity.
  - destruct (body st (nth_value r (Z.of_nat j))) as [st' leave]. destruct leave; [reflexivity|].
    destruct (Z.eqb_spec (nth_value r (Z.of_nat j)) (r_right r)) as [E|E].
    { exfalso. unfold nth_value, size in *; destruct (r_dir r); lia. }
    assert (Nx : hold (ArithModel.vtype_repr t) (add64 (nth_value r (Z.of_nat j)) step') = nth_value r (Z.of_nat (Datatypes.S j))).
    { assert (Eq : nth_value r (Z.of_nat (Datatypes.S j)) = nth_value r (Z.of_nat j) + match r_dir r with To => 1 | Downto => -1 end)
        by (unfold nth_value; destruct (r_dir r); lia).
      rewrite Eq. apply hold_step; auto. rewrite <- Eq. apply In_. apply place_nth. lia. }
    rewrite Nx. apply IHk; lia.
Qed.
