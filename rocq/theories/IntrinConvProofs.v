(* Comparison and conversion. *)
From Coq Require Import List ZArith NArith Arith Bool Lia.
From Verif Require Import Base IntrinModel IntrinSpec IntrinAddProofs IntrinProofs IntrinOpProofs.
Import ListNotations.

(* ---- comparison ---- *)
Lemma first_diff_ok : forall n m l r pos, let p := first_diff m l r pos n in
  pos <= p <= pos + n /\ (forall j, pos <= j < p -> m (l + j) = m (r + j)) /\
  (p < pos + n -> m (l + p) <> m (r + p)).
Proof.
  induction n as [|n IH]; intros m l r pos; cbn [first_diff].
  - cbv zeta. repeat split; intros; lia.
  - destruct (N.eqb_spec (m (l + pos)) (m (r + pos))) as [E|E].
    + destruct (IH m l r (S pos)) as (A & B & C). cbv zeta. split; [lia|]. split.
      * intros j Hj. destruct (Nat.eq_dec j pos) as [->|NE]; [exact E|]. apply B. lia.
      * intros H. apply C. lia.
    + cbv zeta. split; [lia|]. split; [intros; lia|intros _; exact E].
Qed.

Lemma vec_split : forall m p n k, k < n -> vec m p n = vec m p k ++ m (p + k) :: vec m (S (p + k)) (n - S k).
Proof. intros m p n k H. replace n with (k + S (n - S k)) at 1 by lia. rewrite vec_app, vec_S. reflexivity. Qed.

Lemma compare_ok : forall m l r n o, 0 < n -> clean (vec m l n) -> clean (vec m r n) ->
  let p := first_diff m l r 0 (n - 1) in
  compare_bytes o (m (l + p)) (m (r + p)) =
    match o with
    | Less => (uval (vec m l n) <? uval (vec m r n))
    | Greater => (uval (vec m r n) <? uval (vec m l n))
    | Geq => (uval (vec m r n) <=? uval (vec m l n))
    | Leq => (uval (vec m l n) <=? uval (vec m r n))
    end%Z.
Proof.
  intros m l r n o N0 CL CR. destruct (first_diff_ok (n - 1) m l r 0) as (A & B & C).
  set (p := first_diff m l r 0 (n - 1)) in *. cbv zeta.
  assert (EP : vec m l p = vec m r p) by (apply vec_ext; intros; apply B; lia).
  rewrite (vec_split m l n p), (vec_split m r n p) by lia. rewrite !uval_app. cbn [length uval]. rewrite EP, !vec_length.
  pose proof (uval_range (vec m (S (l + p)) (n - S p))) as UL. pose proof (uval_range (vec m (S (r + p)) (n - S p))) as UR.
  rewrite vec_length in UL, UR. rewrite pow_S.
  assert (D : m (l + p) <> m (r + p) \/ n - S p = 0).
  { destruct (Nat.eq_dec p (n - 1)); [right; lia|left; apply C; lia]. }
  destruct (clean_at _ _ _ CL p ltac:(lia)) as [EL|EL]; destruct (clean_at _ _ _ CR p ltac:(lia)) as [ER|ER];
    rewrite EL, ER in *;
    change (weight (bit01 true)) with 1%Z; change (weight (bit01 false)) with 0%Z;
    change (bit01 true) with 3%N in *; change (bit01 false) with 2%N in *;
    (destruct D as [D|D]; [try (exfalso; apply D; reflexivity)|rewrite D in *; cbn [vec seq map uval] in *]);
    destruct o; cbn [compare_bytes]; symmetry;
    first [apply Z.ltb_lt; cbn in *; lia | apply Z.ltb_ge; cbn in *; lia | apply Z.leb_le; cbn in *; lia | apply Z.leb_gt; cbn in *; lia].
Qed.

Theorem cmp_ok : forall o s, valid s 1 -> valid s 4 ->
  let s' := ieee_compare_unsigned o s in
  nx s' = nx s /\ (forall a, a < nx s -> mm s' a = mm s a) /\
  if (length (operand s 1) =? 0) || (length (operand s 4) =? 0) || existsb meta (operand s 1 ++ operand s 4)
  then ar s' 0 = 0%Z /\ warns s' = S (warns s)
  else ar s' 0 = Z.b2z (relation o (uval (operand s 1)) (uval (operand s 4))) /\ warns s' = warns s.
Proof.
  intros o s V1 V4. destruct (valid_holds s 1 V1) as (H1 & F1 & L1). destruct (valid_holds s 4 V4) as (H4 & F4 & L4).
  set (L := operand s 1) in *. set (R := operand s 4) in *. rewrite L1, L4.
  change (1 + 2) with 3 in *. change (4 + 2) with 6 in *. cbv zeta.
  unfold ieee_compare_unsigned, unsigned_cmp.
  set (ln := ffi_array_length (ar s 3)) in *. set (rn := ffi_array_length (ar s 6)) in *.
  set (sa := set_ar s 0 0%Z).
  assert (LZ : (ln <? 1) || (rn <? 1) = (ln =? 0) || (rn =? 0)).
  { destruct ln as [|[|?]], rn as [|[|?]]; reflexivity. }
  rewrite LZ. destruct ((ln =? 0) || (rn =? 0)) eqn:NZ.
  { cbn. split; [reflexivity|]. split; [reflexivity|]. split; reflexivity. }
  apply orb_false_iff in NZ. destruct NZ as (NL & NR). apply Nat.eqb_neq in NL, NR. cbn [orb].
  assert (Ha1 : holds sa (ptr s 1) ln L) by exact H1. assert (Ha4 : holds sa (ptr s 4) rn R) by exact H4.
  destruct (to_01 sa (ptr s 1) ln sl_X) as [p1 s1] eqn:E1.
  destruct (to_01_ok _ _ _ _ _ _ _ Ha1 F1 E1) as (P1 & K1).
  destruct (to_01 s1 (ptr s 4) rn sl_X) as [p2 s2] eqn:E2.
  destruct (to_01_ok _ _ _ _ _ _ _ (holds_step _ _ _ _ _ P1 Ha4) F4 E2) as (P2 & K2).
  apply (holds_step _ _ _ _ _ P2) in K1. pose proof (step_trans _ _ _ P1 P2) as P.
  rewrite (head_x _ _ _ _ K1 ltac:(lia)), (head_x _ _ _ _ K2 ltac:(lia)). rewrite existsb_app.
  destruct (existsb meta L || existsb meta R) eqn:MM.
  { cbn. split; [reflexivity|]. split; [exact (st_mm _ _ P)|]. split; [|rewrite (st_warns _ _ P); reflexivity].
    rewrite (st_ar _ _ P). reflexivity. }
  apply orb_false_iff in MM. destruct MM as (ML & MR). rewrite to01_known in K1, K2 by assumption.
  set (n := Nat.max ln rn). assert (N0 : 0 < n) by lia. cbv zeta.
  destruct (resize_unsigned s2 p1 ln n) as [p3 s3] eqn:E3.
  destruct (resize_unsigned_ok _ _ _ _ _ _ _ K1 N0 E3) as (P3 & K3).
  destruct (resize_unsigned s3 p2 rn n) as [p4 s4] eqn:E4.
  destruct (resize_unsigned_ok _ _ _ _ _ _ _ (holds_step _ _ _ _ _ P3 K2) N0 E4) as (P4 & K4).
  apply (holds_step _ _ _ _ _ P4) in K3. destruct K3 as (_ & V3). destruct K4 as (_ & V4').
  assert (RU : forall l, length l <= n -> clean (resize_u n (map (fun b => bit01 (high b)) l)) /\
                 uval (resize_u n (map (fun b => bit01 (high b)) l)) = uval l).
  { intros l Hl. split.
    - rewrite resize_u_grow by (rewrite map_length; exact Hl). apply Forall_app. split; [|apply map01_clean].
      apply Forall_forall. intros x Hx. apply repeat_spec in Hx. subst x. right. reflexivity.
    - rewrite resize_u_val by (rewrite map_length; exact Hl). apply map01_val. }
  destruct (RU L ltac:(lia)) as (CL & UL). destruct (RU R ltac:(lia)) as (CR & UR).
  assert (PT : step sa s4) by (eapply step_trans; [exact P|]; eapply step_trans; eassumption).
  pose proof (compare_ok (mm s4) p3 p4 n o N0 ltac:(rewrite V3; exact CL) ltac:(rewrite V4'; exact CR)) as CO.
  cbv zeta in CO. rewrite V3, V4', UL, UR in CO. rewrite CO. cbn [set_ar tlab_restore nx mm ar warns].
  split; [reflexivity|]. split; [exact (st_mm _ _ PT)|]. split; [|exact (st_warns _ _ PT)].
  unfold upd. cbn [Nat.eqb]. unfold relation. destruct o; match goal with |- (if ?b then _ else _) = _ => destruct b; reflexivity end.
Qed.

(* ---- conversion of integers ---- *)
Lemma to_bits_ok : forall n m result arg last m' arg' last', to_bits_loop n m result arg last = (m', arg', last') ->
  outside m m' result (8 * n) /\ arg' = Z.shiftr arg (8 * Z.of_nat n) /\
  last' = (match n with O => last | S n' => Z.to_N (Z.land (Z.shiftr arg (8 * Z.of_nat n')) 255) end) /\
  (forall i, i < 8 * n -> m' (result + i) = b01 (Z.testbit arg (Z.of_nat (8 * n - 1 - i)))).
Proof.
  induction n as [|n IH]; intros m result arg last m' arg' last' E; cbn [to_bits_loop] in E.
  - injection E as <- <- <-. split; [intros a _; reflexivity|]. split; [reflexivity|]. split; [reflexivity|intros; lia].
  - cbv zeta in E. destruct (IH _ _ _ _ _ _ _ E) as (O & A & B & V). split; [|split; [|split]].
    + intros a Ha. rewrite O by lia. apply spread_off. lia.
    + rewrite A, Z.shiftr_shiftr by lia. f_equal. lia.
    + rewrite B. destruct n as [|n'].
      * rewrite Z.shiftr_0_r. reflexivity.
      * rewrite Z.shiftr_shiftr by lia. replace (8 + 8 * Z.of_nat n')%Z with (8 * Z.of_nat (S n'))%Z by lia. reflexivity.
    + intros i Hi. destruct (Nat.lt_ge_cases i (8 * n)) as [C|C].
      * rewrite V by exact C. rewrite Z.shiftr_spec by lia. f_equal. f_equal. lia.
      * rewrite O by lia. replace (result + i) with (result + 8 * n + (i - 8 * n)) by lia. rewrite spread_at by lia.
        assert (T : forall k, (k < 8)%N -> N.testbit (Z.to_N (Z.land arg 255)) k = Z.testbit arg (Z.of_N k)).
        { intros k Hk. change 255%Z with (Z.ones 8). rewrite Z.land_ones by lia.
          assert (R : (0 <= arg mod 2 ^ 8)%Z) by (apply Z.mod_pos_bound; lia).
          rewrite <- (Z2N.id (arg mod 2 ^ 8) R) at 1. 
          rewrite <- (Z.mod_pow2_bits_low arg 8 (Z.of_N k)) by lia.
          rewrite <- (Z2N.id (arg mod 2 ^ 8) R) at 2. rewrite Z.testbit_of_N, Z2N.id by exact R. reflexivity. }
        rewrite T by lia. f_equal. f_equal. lia.
Qed.

Lemma up8 : forall n, exists k, up n 8 = 8 * k /\ n <= 8 * k < n + 8.
Proof.
  intros n. unfold up. exists ((n + 8 - 1) / 8). pose proof (Nat.div_mod (n + 8 - 1) 8 ltac:(lia)).
  pose proof (Nat.mod_upper_bound (n + 8 - 1) 8 ltac:(lia)). lia.
Qed.

Lemma zbits_val : forall n m p arg, (forall i, i < n -> m (p + i) = b01 (Z.testbit arg (Z.of_nat (n - 1 - i)))) ->
  clean (vec m p n) /\ uval (vec m p n) = (arg mod 2 ^ Z.of_nat n)%Z.
Proof.
  intros n m p arg E. pose proof (pow_pos n) as PP. pose proof (Z.mod_pos_bound arg _ PP) as R.
  assert (E' : forall i, i < n -> m (p + i) = b01 (N.testbit (Z.to_N (arg mod 2 ^ Z.of_nat n)) (N.of_nat (n - 1 - i)))).
  { intros i Hi. rewrite E by exact Hi. f_equal. rewrite <- (Z.mod_pow2_bits_low arg (Z.of_nat n)) by lia.
    rewrite <- (Z2N.id (arg mod 2 ^ Z.of_nat n)) at 1 by lia. rewrite <- (nat_N_Z (n - 1 - i)), Z.testbit_of_N. reflexivity. }
  split; [exact (bits_clean _ _ _ _ E')|]. rewrite <- lv_uval by exact (bits_clean _ _ _ _ E'). rewrite (lv_bits _ _ _ _ E').
  rewrite N2Z.inj_mod, Z2N.id, N2Z.inj_pow, nat_N_Z by lia. change (Z.of_N 2) with 2%Z. apply Z.mod_mod. lia.
Qed.

(* The bits of the last eight above the [k] lowest. *)
Lemma spill_check : forallb (fun k => forallb (fun v =>
    Bool.eqb (N.land (N.of_nat v) (255 - (2 ^ N.of_nat k - 1) mod 256) =? 0)%N (v <? 2 ^ k) &&
    Bool.eqb (N.land (N.of_nat v) (255 - (2 ^ N.of_nat k - 1) mod 256) =? 255 - (2 ^ N.of_nat k - 1) mod 256)%N (256 <=? v + 2 ^ k))
  (seq 0 256)) (seq 0 9) = true.
Proof. vm_compute. reflexivity. Qed.
Lemma spill_ok : forall size k v, size <= 8 * k < size + 8 -> (v < 256)%N ->
  let w := (2 ^ N.of_nat (8 + size - 8 * k))%N in
  (N.land v (spill_mask size (8 * k)) =? 0)%N = (v <? w)%N /\
  (N.land v (spill_mask size (8 * k)) =? spill_mask size (8 * k))%N = (256 <=? v + w)%N.
Proof.
  intros size k v H Hv w. unfold spill_mask. unfold w. clear w.
  assert (K : 8 + size - 8 * k < 9) by lia. set (j := 8 + size - 8 * k) in *. clearbody j.
  pose proof spill_check as S0. rewrite forallb_forall in S0. specialize (S0 j ltac:(apply in_seq; lia)).
  rewrite forallb_forall in S0. specialize (S0 (N.to_nat v) ltac:(apply in_seq; lia)). rewrite N2Nat.id in S0.
  apply andb_true_iff in S0. destruct S0 as (A & B). apply Bool.eqb_prop in A, B. rewrite A, B.
  assert (P : N.of_nat (2 ^ j) = (2 ^ N.of_nat j)%N) by (rewrite Nat2N.inj_pow; reflexivity). split.
  - destruct (Nat.ltb_spec (N.to_nat v) (2 ^ j)), (N.ltb_spec v (2 ^ N.of_nat j)); lia.
  - destruct (Nat.leb_spec 256 (N.to_nat v + 2 ^ j)), (N.leb_spec 256 (v + 2 ^ N.of_nat j)); lia.
Qed.

(* The argument, cut in the last eight bits and what is above. *)
Lemma last_facts : forall arg k, 0 < k ->
  let a := Z.shiftr arg (8 * Z.of_nat k) in
  let v := Z.land (Z.shiftr arg (8 * Z.of_nat (k - 1))) 255 in
  (0 <= v < 256)%Z /\ Z.shiftr arg (8 * Z.of_nat (k - 1)) = (a * 256 + v)%Z.
Proof.
  intros arg k H a v. change 255%Z with (Z.ones 8) in v. unfold v. rewrite Z.land_ones by lia. change (2 ^ 8)%Z with 256%Z.
  set (b := Z.shiftr arg (8 * Z.of_nat (k - 1))) in *.
  assert (E : a = (b / 256)%Z).
  { unfold a, b. change 256%Z with (2 ^ 8)%Z. rewrite <- Z.shiftr_div_pow2, Z.shiftr_shiftr by lia. f_equal. lia. }
  pose proof (Z.mod_pos_bound b 256 ltac:(lia)). pose proof (Z.div_mod b 256 ltac:(lia)). split; [lia|]. rewrite E. lia.
Qed.
Lemma shift_bounds : forall arg j lo hi, (0 <= j)%Z ->
  (lo <= Z.shiftr arg j < hi)%Z <-> (lo * 2 ^ j <= arg < hi * 2 ^ j)%Z.
Proof.
  intros arg j lo hi H. rewrite Z.shiftr_div_pow2 by exact H. assert (P : (0 < 2 ^ j)%Z) by (apply Z.pow_pos_nonneg; lia).
  pose proof (Z.div_mod arg (2 ^ j) ltac:(lia)). pose proof (Z.mod_pos_bound arg (2 ^ j) P). nia.
Qed.

Lemma to_unsigned_ok : forall s arg n p s', to_unsigned s arg n = (p, s') ->
  nx s <= p /\ p + n <= nx s' /\ ar s' = ar s /\ nx s <= nx s' /\ (forall a, a < nx s -> mm s' a = mm s a) /\
  clean (vec (mm s') p n) /\ uval (vec (mm s') p n) = (arg mod 2 ^ Z.of_nat n)%Z /\
  ((0 <= arg)%Z -> warns s' = if (arg <? 2 ^ Z.of_nat n)%Z then warns s else S (warns s)).
Proof.
  intros s arg n p s' E. unfold to_unsigned in E. destruct (up8 n) as (k & Ek & Hk). rewrite Ek in E.
  destruct (tlab_alloc s (8 * k) 8) as [res s1] eqn:EA. destruct (alloc_ok _ _ _ _ EA) as (P & A & B & M).
  replace (8 * k / 8) with k in E by (rewrite Nat.mul_comm, Nat.div_mul; lia).
  destruct (to_bits_loop k (mm s1) res arg 0) as [[m a] last] eqn:EL. destruct (to_bits_ok _ _ _ _ _ _ _ _ EL) as (O & Ea & El & V).
  apply pair_equal_spec in E. destruct E as [<- <-].
  match goal with |- context [if ?c then ieee_warn _ else _] => set (w := c) end.
  assert (Q : forall b : bool, mm (if b then ieee_warn (set_mm s1 m) else set_mm s1 m) = m /\ nx (if b then ieee_warn (set_mm s1 m) else set_mm s1 m) = nx s1 /\
     ar (if b then ieee_warn (set_mm s1 m) else set_mm s1 m) = ar s1) by (intros []; auto).
  destruct (Q w) as (Q1 & Q2 & Q3). rewrite Q1, Q2, Q3. clear Q.
  assert (Z1 : clean (vec m (res + 8 * k - n) n) /\ uval (vec m (res + 8 * k - n) n) = (arg mod 2 ^ Z.of_nat n)%Z).
  { apply zbits_val. intros i Hi. replace (res + 8 * k - n + i) with (res + (8 * k - n + i)) by lia. rewrite V by lia. f_equal. f_equal. lia. }
  split; [lia|]. split; [lia|]. split; [exact (st_ar _ _ P)|]. split; [exact (st_nx _ _ P)|].
  split; [intros x Hx; rewrite O by lia; rewrite M; reflexivity|]. split; [apply Z1|]. split; [apply Z1|].
  intros Pos. assert (W : w = negb (arg <? 2 ^ Z.of_nat n)%Z).
  { unfold w. destruct k as [|k'].
    - assert (n = 0) by lia. subst n. subst last a. cbn [Z.of_nat]. rewrite Z.mul_0_r, Z.shiftr_0_r. cbn [N.land N.eqb negb].
      rewrite orb_false_r. destruct (Z.eqb_spec arg 0), (Z.ltb_spec arg (2 ^ 0)); cbn in *; lia.
    - destruct (last_facts arg (S k') ltac:(lia)) as (Rv & Es). replace (S k' - 1) with k' in * by lia. rewrite <- Ea in Es.
      destruct (spill_ok n (S k') last ltac:(lia)) as (SP & _).
      { subst last. lia. }
      rewrite SP. subst last. set (v := Z.land (Z.shiftr arg (8 * Z.of_nat k')) 255) in *.
      pose proof (shift_bounds arg (8 * Z.of_nat k') 0 (2 ^ Z.of_nat (8 + n - 8 * S k')) ltac:(lia)) as SB.
      rewrite <- Z.pow_add_r, Es in SB by lia. replace (Z.of_nat (8 + n - 8 * S k') + 8 * Z.of_nat k')%Z with (Z.of_nat n) in SB by lia.
      assert (PW : Z.of_N (2 ^ N.of_nat (8 + n - 8 * S k')) = (2 ^ Z.of_nat (8 + n - 8 * S k'))%Z) by (rewrite N2Z.inj_pow, nat_N_Z; reflexivity).
      assert (PL : (2 ^ Z.of_nat (8 + n - 8 * S k') <= 256)%Z) by (change 256%Z with (2 ^ 8)%Z; apply Z.pow_le_mono_r; lia).
      set (w2 := (2 ^ N.of_nat (8 + n - 8 * S k'))%N) in *. rewrite <- PW in *. clearbody w2 v.
      destruct (Z.eqb_spec a 0) as [A0|A0], (N.ltb_spec (Z.to_N v) w2), (Z.ltb_spec arg (2 ^ Z.of_nat n)); cbn; try reflexivity; exfalso; lia. }
  rewrite W. destruct (arg <? 2 ^ Z.of_nat n)%Z; cbn; rewrite (st_warns _ _ P); reflexivity.
Qed.

Lemma size_bound : forall n, (0 <= n)%Z -> Z.of_nat (Z.to_nat n) = n.
Proof. intros. lia. Qed.

(* A step that may have given warnings. *)
Lemma return_vec_ok' : forall s s1 p n, nx s <= nx s1 -> (forall a, a < nx s -> mm s1 a = mm s a) -> p + n <= nx s1 ->
  returns s (return_vec s1 p n) (vec (mm s1) p n).
Proof.
  intros s s1 p n N1 M1 P. unfold returns, return_vec, untouched, set_ar, upd. cbn [ar mm nx Nat.eqb].
  rewrite Nat2Z.id, size_lnot, vec_length. repeat split; auto. unfold Z.lnot. lia.
Qed.

Theorem to_unsigned_call : forall s, (0 <= ar s 1)%Z -> (0 <= ar s 2)%Z ->
  exists r, returns s (ieee_to_unsigned s) r /\ length r = Z.to_nat (ar s 2) /\ clean r /\
    uval r = (ar s 1 mod 2 ^ ar s 2)%Z /\
    warns (ieee_to_unsigned s) = if (ar s 2 <? 1)%Z || (ar s 1 <? 2 ^ ar s 2)%Z then warns s else S (warns s).
Proof.
  intros s HA HS. unfold ieee_to_unsigned. destruct (Z.ltb_spec (ar s 2) 1) as [C|C].
  - exists []. assert (E : ar s 2 = 0%Z) by lia. rewrite E. split; [apply return_null_ok, step_refl|].
    split; [reflexivity|]. split; [constructor|]. split; [rewrite Z.pow_0_r, Z.mod_1_r; reflexivity|reflexivity].
  - destruct (to_unsigned s (ar s 1) (Z.to_nat (ar s 2))) as [p s'] eqn:E. destruct (to_unsigned_ok _ _ _ _ _ E) as (A & B & A' & D & F & G & H & I).
    rewrite size_bound in H, I by lia. exists (vec (mm s') p (Z.to_nat (ar s 2))).
    split; [apply return_vec_ok'; assumption|]. split; [apply vec_length|]. split; [exact G|]. split; [exact H|]. exact (I HA).
Qed.

Theorem to_signed_call : forall s, (0 <= ar s 2)%Z ->
  exists r, returns s (ieee_to_signed s) r /\ length r = Z.to_nat (ar s 2) /\ clean r /\
    uval r = (ar s 1 mod 2 ^ ar s 2)%Z /\
    warns (ieee_to_signed s) =
      if (ar s 2 <? 1)%Z || ((- 2 ^ (ar s 2 - 1) <=? ar s 1)%Z && (ar s 1 <? 2 ^ (ar s 2 - 1))%Z) then warns s else S (warns s).
Proof.
  intros s HS. unfold ieee_to_signed. destruct (Z.ltb_spec (ar s 2) 1) as [C|C].
  - exists []. assert (E : ar s 2 = 0%Z) by lia. rewrite E. split; [apply return_null_ok, step_refl|].
    split; [reflexivity|]. split; [constructor|]. split; [rewrite Z.pow_0_r, Z.mod_1_r; reflexivity|reflexivity].
  - set (n := Z.to_nat (ar s 2)). assert (En : ar s 2 = Z.of_nat n) by lia. rewrite En in *. clearbody n. set (arg := ar s 1). cbv zeta.
    destruct (up8 n) as (k & Ek & Hk). rewrite Ek.
    destruct (tlab_alloc s (8 * k) 8) as [res s1] eqn:EA. destruct (alloc_ok _ _ _ _ EA) as (P & A & B & M).
    replace (8 * k / 8) with k by (rewrite Nat.mul_comm, Nat.div_mul; lia).
    destruct (to_bits_loop k (mm s1) res arg 0) as [[m a] last] eqn:EL. destruct (to_bits_ok _ _ _ _ _ _ _ _ EL) as (O & Ea & El & V).
    set (top := m (res + 8 * k - n)). set (sp := spill_mask n (8 * k)).
    match goal with |- context [if ?c then ieee_warn (set_mm s1 m) else set_mm s1 m] => set (w := c) end.
    assert (Z1 : clean (vec m (res + 8 * k - n) n) /\ uval (vec m (res + 8 * k - n) n) = (arg mod 2 ^ Z.of_nat n)%Z).
    { apply zbits_val. intros i Hi. replace (res + 8 * k - n + i) with (res + (8 * k - n + i)) by lia. rewrite V by lia. f_equal. f_equal. lia. }
    assert (MQ : vec (mm (if w then ieee_warn (set_mm s1 m) else set_mm s1 m)) (res + 8 * k - n) n = vec m (res + 8 * k - n) n) by (destruct w; reflexivity).
    exists (vec m (res + 8 * k - n) n). split.
    { rewrite <- MQ. apply return_vec_ok'.
      - destruct w; exact (st_nx _ _ P).
      - intros x Hx. transitivity (m x); [destruct w; reflexivity|]. rewrite O by lia. rewrite M. reflexivity.
      - destruct w; cbn [ieee_warn set_mm nx]; lia. }
    split; [apply vec_length|]. split; [apply Z1|]. split; [apply Z1|].
    assert (W : w = negb ((- 2 ^ (Z.of_nat n - 1) <=? arg)%Z && (arg <? 2 ^ (Z.of_nat n - 1))%Z)).
    { destruct k as [|k']; [lia|].
      destruct (last_facts arg (S k') ltac:(lia)) as (Rv & Es). replace (S k' - 1) with k' in * by lia. rewrite <- Ea in Es.
      destruct (spill_ok n (S k') last ltac:(lia)) as (SP & SQ).
      { subst last. lia. }
      assert (ET : top = b01 (Z.testbit arg (Z.of_nat n - 1))).
      { unfold top. replace (res + 8 * S k' - n) with (res + (8 * S k' - n)) by lia. rewrite V by lia. f_equal. f_equal. lia. }
      assert (PN : (2 ^ Z.of_nat n = 2 * 2 ^ (Z.of_nat n - 1))%Z) by (rewrite <- Z.pow_succ_r by lia; f_equal; lia).
      assert (TB : Z.testbit arg (Z.of_nat n - 1) = Z.odd (arg / 2 ^ (Z.of_nat n - 1))) by (apply Z.testbit_odd || (rewrite Z.testbit_odd, Z.shiftr_div_pow2 by lia; reflexivity)).
      assert (P1 : (0 < 2 ^ (Z.of_nat n - 1))%Z) by (apply Z.pow_pos_nonneg; lia).
      (* what the last eight bits say *)
      pose proof (shift_bounds arg (8 * Z.of_nat k') 0 (2 ^ Z.of_nat (8 + n - 8 * S k')) ltac:(lia)) as SB.
      rewrite <- Z.pow_add_r, Es in SB by lia. replace (Z.of_nat (8 + n - 8 * S k') + 8 * Z.of_nat k')%Z with (Z.of_nat n) in SB by lia.
      pose proof (shift_bounds arg (8 * Z.of_nat k') (- 2 ^ Z.of_nat (8 + n - 8 * S k')) 0 ltac:(lia)) as SC.
      rewrite Z.mul_opp_l, <- Z.pow_add_r, Es in SC by lia. replace (Z.of_nat (8 + n - 8 * S k') + 8 * Z.of_nat k')%Z with (Z.of_nat n) in SC by lia.
      assert (PW : Z.of_N (2 ^ N.of_nat (8 + n - 8 * S k')) = (2 ^ Z.of_nat (8 + n - 8 * S k'))%Z) by (rewrite N2Z.inj_pow, nat_N_Z; reflexivity).
      assert (PL : (2 ^ Z.of_nat (8 + n - 8 * S k') <= 256)%Z) by (change 256%Z with (2 ^ 8)%Z; apply Z.pow_le_mono_r; lia).
      assert (T0 : (0 <= arg < 2 ^ Z.of_nat n)%Z -> Z.testbit arg (Z.of_nat n - 1) = negb (arg <? 2 ^ (Z.of_nat n - 1))%Z).
      { intros R. rewrite TB. destruct (Z.ltb_spec arg (2 ^ (Z.of_nat n - 1))).
        - rewrite Z.div_small by lia. reflexivity.
        - replace (arg / 2 ^ (Z.of_nat n - 1))%Z with 1%Z by (apply (Z.div_unique _ _ _ (arg - 2 ^ (Z.of_nat n - 1))); lia). reflexivity. }
      assert (T1 : (- 2 ^ Z.of_nat n <= arg < 0)%Z -> Z.testbit arg (Z.of_nat n - 1) = (- 2 ^ (Z.of_nat n - 1) <=? arg)%Z).
      { intros R. rewrite TB. destruct (Z.leb_spec (- 2 ^ (Z.of_nat n - 1)) arg).
        - replace (arg / 2 ^ (Z.of_nat n - 1))%Z with (-1)%Z by (apply (Z.div_unique _ _ _ (arg + 2 ^ (Z.of_nat n - 1))); lia). reflexivity.
        - replace (arg / 2 ^ (Z.of_nat n - 1))%Z with (-2)%Z by (apply (Z.div_unique _ _ _ (arg + 2 * 2 ^ (Z.of_nat n - 1))); lia). reflexivity. }
      unfold w. fold sp in SP, SQ. rewrite SP, SQ, ET. subst last.
      set (v := Z.land (Z.shiftr arg (8 * Z.of_nat k')) 255) in *.
      set (w2 := (2 ^ N.of_nat (8 + n - 8 * S k'))%N) in *. rewrite <- PW in *. clear TB SP SQ V Z1 MQ.
      destruct (Z.testbit arg (Z.of_nat n - 1)) eqn:TT;
        change (b01 true =? sl_1)%N with true; change (b01 true =? sl_0)%N with false;
        change (b01 false =? sl_1)%N with false; change (b01 false =? sl_0)%N with true;
        destruct (Z.eqb_spec a 0) as [A0|A0]; destruct (Z.eqb_spec a (-1)) as [A1|A1]; try lia; cbn [negb andb orb];
        destruct (Z.leb_spec (- 2 ^ (Z.of_nat n - 1)) arg), (Z.ltb_spec arg (2 ^ (Z.of_nat n - 1))); cbn [negb andb orb];
        destruct (N.ltb_spec (Z.to_N v) w2), (N.leb_spec 256 (Z.to_N v + w2)); cbn [negb andb orb]; try reflexivity; exfalso;
        clearbody v w2; first [lia | (rewrite T0 in TT by lia; discriminate) | idtac]. }
    rewrite W. destruct ((- 2 ^ (Z.of_nat n - 1) <=? arg)%Z && (arg <? 2 ^ (Z.of_nat n - 1))%Z); cbn; rewrite (st_warns _ _ P); reflexivity.
Qed.

(* ---- resizing and TO_01 ---- *)
Theorem resize_call : forall (g : bool) s, valid s 1 -> (0 <= ar s 4)%Z ->
  let s' := if g then ieee_resize_signed s else ieee_resize_unsigned s in
  returns s s' (rs g (Z.to_nat (ar s 4)) (operand s 1)) /\ warns s' = warns s.
Proof.
  intros g s V1 H0. destruct (valid_holds s 1 V1) as (H1 & F1 & L1). change (1 + 2) with 3 in *. cbv zeta.
  assert (E : (if g then ieee_resize_signed s else ieee_resize_unsigned s) =
    let '(p, s1) := (if g then resize_signed else resize_unsigned) s (ptr s 1) (ffi_array_length (ar s 3)) (Z.to_nat (ar s 4)) in
    return_vec s1 p (Z.to_nat (ar s 4))) by (destruct g; reflexivity).
  rewrite E. clear E. set (n := Z.to_nat (ar s 4)). destruct (Nat.eq_dec n 0) as [Z0|NZ].
  - rewrite Z0. assert (E : (if g then resize_signed else resize_unsigned) s (ptr s 1) (ffi_array_length (ar s 3)) 0 = (0, s)) by (destruct g; reflexivity).
    rewrite E. assert (R0 : rs g 0 (operand s 1) = []).
    { pose proof (rs_length g 0 (operand s 1)) as X. destruct (rs g 0 (operand s 1)); [reflexivity|discriminate]. }
    rewrite R0. split; [|reflexivity]. apply return_vec_ok; [apply step_refl|]. split; [lia|reflexivity].
  - destruct ((if g then resize_signed else resize_unsigned) s (ptr s 1) (ffi_array_length (ar s 3)) n) as [p s1] eqn:E.
    assert (N0 : 0 < n) by lia. destruct (rs_mem _ _ _ _ _ _ _ _ H1 N0 E) as (P & K). split; [apply return_vec_ok; assumption|]. exact (st_warns _ _ P).
Qed.

Theorem to_01_call : forall s, valid s 1 -> (0 <= ar s 4)%Z ->
  returns s (ieee_to_01 s) (to01 (Z.to_N (ar s 4)) (operand s 1)) /\
  warns (ieee_to_01 s) = if length (operand s 1) =? 0 then S (warns s) else warns s.
Proof.
  intros s V1 H0. destruct (valid_holds s 1 V1) as (H1 & F1 & L1). change (1 + 2) with 3 in *.
  unfold ieee_to_01. rewrite L1. destruct (Nat.eqb_spec (ffi_array_length (ar s 3)) 0) as [Z0|NZ].
  - split; [|reflexivity]. destruct (operand s 1); [|cbn in L1; lia]. cbn. unfold returns, untouched. cbn [ar mm nx return_null ieee_warn set_ar].
    unfold upd. cbn [Nat.eqb]. repeat split; auto; try lia; try (cbn; lia). congruence.
  - destruct (to_01 s (ptr s 1) (ffi_array_length (ar s 3)) (Z.to_N (ar s 4))) as [p s1] eqn:E.
    destruct (to_01_ok _ _ _ _ _ _ _ H1 F1 E) as (P & K). split; [apply return_vec_ok; assumption|]. exact (st_warns _ _ P).
Qed.

(* ---- UNSIGNED plus NATURAL ---- *)
Theorem plus_natural_ok : forall s, valid s 1 -> (0 <= ar s 4)%Z ->
  exists r, returns s (ieee_plus_unsigned_natural s) r /\
    operator_result (length (operand s 1)) (uval (operand s 1) + ar s 4) (operand s 1) (operand s 1) r /\
    (operand s 1 <> [] -> warns (ieee_plus_unsigned_natural s) =
       if (ar s 4 <? 2 ^ Z.of_nat (length (operand s 1)))%Z then warns s else S (warns s)).
Proof.
  intros s V1 HR. destruct (valid_holds s 1 V1) as (H1 & F1 & L1). change (1 + 2) with 3 in *.
  set (L := operand s 1) in *. unfold operator_result. rewrite L1. unfold ieee_plus_unsigned_natural.
  set (n := ffi_array_length (ar s 3)) in *. cbv zeta.
  destruct (to_unsigned s (ar s 4) n) as [res s1] eqn:E. destruct (to_unsigned_ok _ _ _ _ _ E) as (A & B & Aa & D & F & G & H & W). specialize (W HR).
  rewrite orb_diag. destruct (Nat.eqb_spec n 0) as [Z0|NZ].
  - exists []. split; [|split; [reflexivity|]].
    + unfold returns, untouched. unfold return_null, set_ar, upd. cbn [ar mm nx Nat.eqb]. repeat split; auto; try lia; try (cbn; lia). congruence.
    + intros NE. destruct L; [congruence|cbn in L1; lia].
  - assert (H1' : holds s1 (ptr s 1) n L).
    { destruct H1 as (X & Y). split; [lia|]. rewrite <- Y. apply vec_ext. intros i Hi. apply F. lia. }
    destruct (to_01 s1 (ptr s 1) n sl_X) as [lp s2] eqn:E2. destruct (to_01_ok _ _ _ _ _ _ _ H1' F1 E2) as (P2 & K2).
    rewrite (head_x _ _ _ _ K2 ltac:(lia)). rewrite existsb_app, orb_diag.
    assert (W2 : warns s2 = if (ar s 4 <? 2 ^ Z.of_nat n)%Z then warns s else S (warns s)) by (rewrite (st_warns _ _ P2); exact W).
    assert (N2 : nx s <= nx s2) by (pose proof (st_nx _ _ P2); lia).
    assert (M2 : forall a, a < nx s -> mm s2 a = mm s a) by (intros a Ha; rewrite (st_mm _ _ P2) by lia; apply F; exact Ha).
    pose proof K2 as (KB & KV).
    destruct (existsb meta L) eqn:ML.
    { cbn [orb]. exists (repeat the_X n). split; [|split; [reflexivity|intros _; exact W2]].
      rewrite to01_meta, L1 in KV by exact ML. change the_X with sl_X. rewrite <- KV. apply return_vec_ok'; assumption. }
    rewrite to01_known in KV by exact ML.
    assert (CL : clean (vec (mm s2) lp n)) by (rewrite KV; apply map01_clean).
    assert (UL : uval (vec (mm s2) lp n) = uval L) by (rewrite KV; apply map01_val).
    cbn [orb]. destruct (Z.eqb_spec (ar s 4) 0) as [R0|R0].
    + exists (vec (mm s2) lp n). split; [apply return_vec_ok'; assumption|]. split; [|intros _; exact W2].
      split; [apply vec_length|]. split; [exact CL|]. rewrite UL, R0, Z.add_0_r, Z.mod_small; [reflexivity|]. rewrite <- L1. apply uval_range.
    + assert (VR : vec (mm s2) res n = vec (mm s1) res n) by (apply vec_ext; intros i Hi; apply (st_mm _ _ P2); lia).
      assert (AP : apart lp res n).
      { unfold to_01 in E2. destruct (all_01 (mm s1) (ptr s 1) n).
        - injection E2 as <- <-. left. destruct H1. lia.
        - right. unfold to_01_slow in E2. destruct (tlab_alloc s1 n 8) as [q t] eqn:ET. destruct (alloc_ok _ _ _ _ ET) as (_ & X & _).
          destruct (to_01_loop (mm t) (ptr s 1) q 0 n false). injection E2 as <- _. lia. }
      destruct (add_ok (mm s2) lp res n 0 res ltac:(lia) (or_intror AP) (or_introl eq_refl) CL ltac:(rewrite VR; exact G)) as (O & C & U).
      set (m := packed_add (mm s2) lp res n 0 res) in *. exists (vec m res n).
      split; [|split; [|intros _; exact W2]].
      * change m with (mm (set_mm s2 m)) at 2. apply return_vec_ok'.
        -- exact N2.
        -- intros a Ha. cbn. rewrite O by lia. apply M2. exact Ha.
        -- pose proof (st_nx _ _ P2). cbn. lia.
      * split; [apply vec_length|]. split; [exact C|]. rewrite U, VR, UL, H. change (Z.of_N 0) with 0%Z. rewrite Z.add_0_r.
        apply Zplus_mod_idemp_r.
Qed.
