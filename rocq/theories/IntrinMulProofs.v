(* Multiplication. *)
From Coq Require Import List ZArith NArith Arith Bool Lia.
From Verif Require Import Base IntrinModel IntrinSpec IntrinAddProofs IntrinProofs IntrinOpProofs.
Import ListNotations.

(* Equal modulo [M]. *)
Definition cong (M a b : Z) : Prop := exists k, (a = b + k * M)%Z.
Lemma cong_mod : forall M a, (0 < M)%Z -> cong M (a mod M) a.
Proof. intros M a H. exists (- (a / M))%Z. pose proof (Z.div_mod a M ltac:(lia)). lia. Qed.
Lemma cong_eq : forall M a b, cong M a b -> (a mod M = b mod M)%Z.
Proof. intros M a b (k & ->). apply Z_mod_plus_full. Qed.
Lemma cong_trans : forall M a b c, cong M a b -> cong M b c -> cong M a c.
Proof. intros M a b c (k & ->) (j & ->). exists (k + j)%Z. ring. Qed.
Lemma cong_sym : forall M a b, cong M a b -> cong M b a.
Proof. intros M a b (k & ->). exists (- k)%Z. ring. Qed.
Lemma cong_mul : forall M a b c, cong M a b -> cong M (a * c) (b * c).
Proof. intros M a b c (k & ->). exists (k * c)%Z. ring. Qed.
Lemma cong_add : forall M a b c d, cong M a b -> cong M c d -> cong M (a + c) (b + d).
Proof. intros M a b c d (k & ->) (j & ->). exists (k + j)%Z. ring. Qed.
Lemma cong_sub : forall M a b c d, cong M a b -> cong M c d -> cong M (a - c) (b - d).
Proof. intros M a b c d (k & ->) (j & ->). exists (k - j)%Z. ring. Qed.

Lemma uval_skipn : forall l k, k <= length l -> cong (2 ^ Z.of_nat (length l - k)) (uval (skipn k l)) (uval l).
Proof.
  intros l k H. apply cong_sym. exists (uval (firstn k l)). rewrite <- (firstn_skipn k l) at 1. rewrite uval_app, skipn_length. ring.
Qed.

(* The delayed shift of the addend. *)
Lemma shift_ok : forall m p size k, k <= size -> clean (vec m p size) ->
  let m' := memset (memmove m p (p + k) (size - k)) (p + size - k) sl_0 k in
  outside m m' p size /\ clean (vec m' p size) /\
  cong (2 ^ Z.of_nat size) (uval (vec m' p size)) (uval (vec m p size) * 2 ^ Z.of_nat k)%Z.
Proof.
  intros m p size k H C m'.
  assert (E : vec m' p size = skipn k (vec m p size) ++ repeat 2%N k).
  { rewrite vec_skipn by exact H. replace (vec m' p size) with (vec m' p ((size - k) + k)) by (f_equal; lia). rewrite vec_app. f_equal.
    - apply vec_ext. intros i Hi. unfold m'. rewrite memset_off by lia. rewrite memmove_at by lia. f_equal. lia.
    - apply vec_repeat. intros i Hi. unfold m'. apply memset_at. lia. }
  split; [|split].
  - intros a Ha. unfold m'. rewrite memset_off by lia. apply memmove_off. lia.
  - rewrite E. apply Forall_app. split.
    + rewrite <- (firstn_skipn k) in C. apply Forall_app in C. apply C.
    + apply Forall_forall. intros x Hx. apply repeat_spec in Hx. subst x. right. reflexivity.
  - rewrite E, uval_app, uval_zeros, repeat_length, Z.add_0_r.
    destruct (uval_skipn (vec m p size) k ltac:(rewrite vec_length; exact H)) as (q & ->). exists q. rewrite vec_length.
    replace (Z.of_nat size) with (Z.of_nat (size - k) + Z.of_nat k)%Z by lia. rewrite Z.pow_add_r by lia. ring.
Qed.

(* The value of the elements seen so far: those from [n] on, and all of them at the end. *)
Definition seen (g : bool) (l : list N) (n : nat) : Z :=
  if g && (n =? 0) then sval l else uval (skipn n l).

Lemma seen_step : forall g l i, i < length l ->
  seen g l i = (seen g l (S i) + (if high (nth i l 0%N) then (if g && Nat.eqb i 0 then -1 else 1) else 0) * 2 ^ Z.of_nat (length l - S i))%Z.
Proof.
  intros g l i H. unfold seen at 2. replace (S i =? 0) with false by reflexivity. rewrite andb_false_r.
  assert (E : skipn i l = nth i l 0%N :: skipn (S i) l).
  { clear g. revert l H. induction i as [|i IH]; intros [|b l] H; cbn in *; try lia; [reflexivity|]. rewrite IH by lia. reflexivity. }
  unfold seen. destruct (g && (i =? 0)) eqn:G.
  - apply andb_true_iff in G. destruct G as (_ & G). apply Nat.eqb_eq in G. subst i. clear E.
    destruct l as [|b l]; [cbn in H; lia|]. cbn [sval nth skipn length Nat.sub]. rewrite Nat.sub_0_r.
    unfold weight. destruct (high b); ring.
  - rewrite E. cbn [uval]. rewrite skipn_length. unfold weight. destruct (high (nth i l 0%N)); ring.
Qed.

Record mul_inv (g : bool) (m0 : nat -> N) (lp ln adval size res : nat) (A0 : Z) (n shift : nat) (m : nat -> N) : Prop := {
  mi_n : shift + n <= ln;
  mi_out : forall a, ~ (adval <= a < adval + size) -> ~ (res <= a < res + size) -> m a = m0 a;
  mi_adval : clean (vec m adval size);
  mi_res : clean (vec m res size);
  mi_add : cong (2 ^ Z.of_nat size) (uval (vec m adval size) * 2 ^ Z.of_nat shift) (A0 * 2 ^ Z.of_nat (ln - n))%Z
           \/ n = 0;
  mi_val : cong (2 ^ Z.of_nat size) (uval (vec m res size)) (A0 * seen g (vec m0 lp ln) n)%Z
}.

Lemma mul_loop_ok : forall g n m0 lp ln adval size res A0 shift m,
  mul_inv g m0 lp ln adval size res A0 n shift m ->
  clean (vec m0 lp ln) -> ln <= size -> apart adval res size ->
  lp + ln <= adval \/ adval + size <= lp -> lp + ln <= res \/ res + size <= lp ->
  exists m', mul_loop g n shift m lp adval size res = Ok m' /\ exists k, mul_inv g m0 lp ln adval size res A0 0 k m'.
Proof.
  intros g. induction n as [|i IH]; intros m0 lp ln adval size res A0 shift m I CL LS AP AA AR; cbn [mul_loop].
  - exists m. split; [reflexivity|]. exists shift. exact I.
  - pose proof I as I0. destruct I as [Hn O CA CR HA HV]. destruct HA as [HA|]; [|discriminate].
    assert (Eb : m (lp + i) = m0 (lp + i)) by (apply O; lia). rewrite Eb.
    assert (Enth : nth i (vec m0 lp ln) 0%N = m0 (lp + i)) by (apply vec_nth; lia).
    pose proof (seen_step g (vec m0 lp ln) i ltac:(rewrite vec_length; lia)) as SS. rewrite Enth, vec_length in SS.
    pose proof (pow_pos size) as PP.
    destruct (N.eqb_spec (m0 (lp + i)) sl_1) as [E1|E1].
    + rewrite E1 in SS. change (high sl_1) with true in SS. cbn iota in SS.
      destruct (shift_ok m adval size shift ltac:(lia) CA) as (O1 & C1 & U1).
      set (m1 := memset (memmove m adval (adval + shift) (size - shift)) (adval + size - shift) sl_0 shift) in *.
      assert (R1 : vec m1 res size = vec m res size) by (apply vec_ext; intros j Hj; apply O1; destruct AP; lia).
      assert (A1 : cong (2 ^ Z.of_nat size) (uval (vec m1 adval size)) (A0 * 2 ^ Z.of_nat (ln - S i))%Z)
        by (eapply cong_trans; [exact U1|exact HA]).
      cbv zeta. destruct (g && (i =? 0)) eqn:G.
      * destruct (invert_ok size m1 adval 0 adval) as (m2 & E2 & O2 & V2).
        { intros j Hj. apply (clean_at _ _ _ C1). lia. }
        { left. reflexivity. }
        rewrite E2. cbn [bind]. rewrite Nat.add_0_r in O2. destruct (inverted _ _ _ _ _ C1 V2) as (C2 & U2).
        assert (R2 : vec m2 res size = vec m res size).
        { rewrite <- R1. apply vec_ext. intros j Hj. apply O2. destruct AP; lia. }
        destruct (add_ok m2 res adval size 1 res ltac:(lia) (or_introl eq_refl) (or_intror AP) ltac:(rewrite R2; exact CR) C2) as (O3 & C3 & U3).
        set (m3 := packed_add m2 res adval size 1 res) in *.
        apply andb_true_iff in G. destruct G as (-> & G). apply Nat.eqb_eq in G. subst i.
        apply (IH m0 lp ln adval size res A0 1 m3); try assumption. split.
        -- lia.
        -- intros a Ha Hr. rewrite O3 by exact Hr. rewrite O2 by exact Ha. rewrite O1 by exact Ha. apply O; assumption.
        -- replace (vec m3 adval size) with (vec m2 adval size) by (apply vec_ext; intros j Hj; symmetry; apply O3; destruct AP; lia). exact C2.
        -- exact C3.
        -- right. reflexivity.
        -- rewrite U3, R2, U2. eapply cong_trans; [apply cong_mod; exact PP|]. rewrite SS.
           destruct HV as (kv & HV). destruct A1 as (ka & A1). rewrite HV, A1. exists (kv - ka + 1)%Z. change (Z.of_N 1) with 1%Z. ring.
      * destruct (add_ok m1 res adval size 0 res ltac:(lia) (or_introl eq_refl) (or_intror AP) ltac:(rewrite R1; exact CR) C1) as (O3 & C3 & U3).
        set (m3 := packed_add m1 res adval size 0 res) in *.
        assert (R3 : vec m3 adval size = vec m1 adval size) by (apply vec_ext; intros j Hj; apply O3; destruct AP; lia).
        apply (IH m0 lp ln adval size res A0 1 m3); try assumption. split.
        -- lia.
        -- intros a Ha Hr. rewrite O3 by exact Hr. rewrite O1 by exact Ha. apply O; assumption.
        -- rewrite R3. exact C1.
        -- exact C3.
        -- left. rewrite R3. replace (ln - i) with (S (ln - S i)) by lia. rewrite (pow_S (ln - S i)). destruct A1 as (ka & ->).
           exists (2 * ka)%Z. change (2 ^ Z.of_nat 1)%Z with 2%Z. ring.
        -- rewrite U3, R1. eapply cong_trans; [apply cong_mod; exact PP|]. rewrite SS.
           destruct HV as (kv & HV). destruct A1 as (ka & A1). rewrite HV, A1. exists (kv + ka)%Z. change (Z.of_N 0) with 0%Z. ring.
    + assert (HL : high (m0 (lp + i)) = false).
      { destruct (clean_at _ _ _ CL i ltac:(lia)) as [X|X]; [contradiction|]. rewrite X. reflexivity. }
      rewrite HL, Z.mul_0_l, Z.add_0_r in SS.
      apply (IH m0 lp ln adval size res A0 (S shift) m); try assumption. split; try assumption.
      * lia.
      * left. replace (ln - i) with (S (ln - S i)) by lia. rewrite !pow_S. destruct HA as (ka & HA). exists (2 * ka)%Z.
        transitivity (2 * (uval (vec m adval size) * 2 ^ Z.of_nat shift))%Z; [ring|]. rewrite HA. ring.
      * rewrite SS. exact HV.
Qed.

Lemma seen_0 : forall g l, seen g l 0 = num g l.
Proof. intros [] l; reflexivity. Qed.
Lemma seen_all : forall g l, l <> [] -> seen g l (length l) = 0%Z.
Proof.
  intros g l NE. unfold seen. destruct l as [|b l]; [congruence|]. cbn [length Nat.eqb]. rewrite andb_false_r, skipn_all2 by (cbn; lia). reflexivity.
Qed.

Theorem mul_ok : forall g s, valid s 1 -> valid s 4 ->
  exists s' r, ieee_mul g s = Ok s' /\ returns s s' r /\ warns s' = warns s /\
    operator_result (length (operand s 1) + length (operand s 4)) (num g (operand s 1) * num g (operand s 4))
      (operand s 1) (operand s 4) r.
Proof.
  intros g s V1 V4. destruct (valid_holds s 1 V1) as (H1 & F1 & L1). destruct (valid_holds s 4 V4) as (H4 & F4 & L4).
  set (L := operand s 1) in *. set (R := operand s 4) in *. unfold operator_result. rewrite L1, L4.
  change (1 + 2) with 3 in *. change (4 + 2) with 6 in *.
  unfold ieee_mul. set (ln := ffi_array_length (ar s 3)) in *. set (rn := ffi_array_length (ar s 6)) in *.
  destruct ((ln =? 0) || (rn =? 0)) eqn:NZ.
  { exists (return_null s), []. split; [reflexivity|]. split; [apply return_null_ok, step_refl|]. split; reflexivity. }
  apply orb_false_iff in NZ. destruct NZ as (NL & NR).
  assert (NEL : L <> []) by (apply length_nil; rewrite L1; exact NL).
  assert (NER : R <> []) by (apply length_nil; rewrite L4; exact NR).
  apply Nat.eqb_neq in NL, NR. set (n := ln + rn). cbv zeta.
  destruct (tlab_alloc s n 8) as [res s0] eqn:E0. destruct (fresh _ _ _ _ E0) as (P0 & M0 & B0 & Fr).
  assert (NF : nx s <= res) by (destruct (alloc_ok _ _ _ _ E0) as (_ & A & _); exact A).
  assert (A0 : ptr s0 1 = ptr s 1) by (unfold ptr; rewrite (st_ar _ _ P0); reflexivity). rewrite A0.
  destruct (to_01 s0 (ptr s 1) ln sl_X) as [p1 s1] eqn:E1.
  destruct (to_01_ok _ _ _ _ _ _ _ (holds_step _ _ _ _ _ P0 H1) F1 E1) as (P1 & K1).
  pose proof (step_trans _ _ _ P0 P1) as P01.
  assert (A1 : ptr s1 4 = ptr s 4) by (unfold ptr; rewrite (st_ar _ _ P01); reflexivity). rewrite A1.
  destruct (to_01 s1 (ptr s 4) rn sl_X) as [p2 s2] eqn:E2.
  destruct (to_01_ok _ _ _ _ _ _ _ (holds_step _ _ _ _ _ P01 H4) F4 E2) as (P2 & K2).
  apply (holds_step _ _ _ _ _ P2) in K1.
  rewrite (head_x _ _ _ _ K1 ltac:(lia)), (head_x _ _ _ _ K2 ltac:(lia)).
  rewrite existsb_app.
  pose proof (step_trans _ _ _ P01 P2) as P. pose proof (step_trans _ _ _ P1 P2) as P12.
  (* whatever memory results, if only the result and memory not in use was changed *)
  assert (Fin : forall s9 m, ar s9 = ar s -> warns s9 = warns s -> (forall a, a < nx s -> m a = mm s a) ->
    returns s (return_vec (tlab_restore (set_mm s9 m) (nx s0)) res n) (vec m res n) /\
    warns (return_vec (tlab_restore (set_mm s9 m) (nx s0)) res n) = warns s).
  { intros s9 m Ea Ew Hm. split; [|exact Ew]. apply return_vec_ok; [|split; [exact B0|reflexivity]].
    split; [exact Ea|exact Ew|exact (st_nx _ _ P0)|exact Hm]. }
  assert (NP : forall a, a < nx s -> mm s2 a = mm s a) by (exact (st_mm _ _ P)).
  destruct (existsb meta L || existsb meta R) eqn:MM.
  { cbn [bind]. eexists. eexists. split; [reflexivity|].
    destruct (Fin s2 (memset (mm s2) res sl_X n) (st_ar _ _ P) (st_warns _ _ P)) as (Q1 & Q2).
    { intros a Ha. rewrite memset_off by lia. apply NP. exact Ha. }
    split; [exact Q1|]. split; [exact Q2|]. apply vec_repeat. intros i Hi. apply memset_at. lia. }
  apply orb_false_iff in MM. destruct MM as (ML & MR). rewrite to01_known in K1, K2 by assumption.
  set (s3 := set_mm s2 (memset (mm s2) res sl_0 n)).
  (* the operands have stayed *)
  assert (Out : forall q k l, holds s2 q k l -> q + k <= nx s \/ nx s0 <= q -> holds s3 q k l).
  { intros q k l (Hq & Hv) D. split; [exact Hq|]. rewrite <- Hv. apply vec_ext. intros i Hi. cbn. apply memset_off. lia. }
  assert (D1 : p1 + ln <= nx s \/ nx s0 <= p1).
  { unfold to_01 in E1. destruct (all_01 (mm s0) (ptr s 1) ln).
    - injection E1 as <- <-. left. apply H1.
    - right. unfold to_01_slow in E1. destruct (tlab_alloc s0 ln 8) as [q t] eqn:ET. destruct (alloc_ok _ _ _ _ ET) as (_ & X & _).
      destruct (to_01_loop (mm t) (ptr s 1) q 0 ln false). injection E1 as <- _. exact X. }
  assert (D2 : p2 + rn <= nx s \/ nx s0 <= p2).
  { unfold to_01 in E2. destruct (all_01 (mm s1) (ptr s 4) rn).
    - injection E2 as <- <-. left. apply H4.
    - right. unfold to_01_slow in E2. destruct (tlab_alloc s1 rn 8) as [q t] eqn:ET. destruct (alloc_ok _ _ _ _ ET) as (_ & X & _).
      destruct (to_01_loop (mm t) (ptr s 4) q 0 rn false). injection E2 as <- _. pose proof (st_nx _ _ P1). lia. }
  pose proof (Out _ _ _ K1 D1) as K1'. pose proof (Out _ _ _ K2 D2) as K2'.
  destruct ((if g then resize_signed else resize_unsigned) s3 p2 rn n) as [adval s4] eqn:E4.
  assert (N0 : 0 < n) by lia.
  destruct (rs_mem _ _ _ _ _ _ _ _ K2' N0 E4) as (P4 & K4).
  assert (FA : nx s2 <= adval).
  { unfold n in E4. destruct g; [unfold resize_signed in E4|unfold resize_unsigned in E4].
    - destruct (Nat.ltb_spec (ln + rn) 1); [lia|]. destruct (Nat.eqb_spec rn (ln + rn)); [lia|]. destruct (Nat.eqb_spec rn 0); [lia|].
      destruct (tlab_alloc s3 (ln + rn) 8) as [q t] eqn:ET. destruct (alloc_ok _ _ _ _ ET) as (_ & X & _). injection E4 as <- _. exact X.
    - destruct (Nat.ltb_spec (ln + rn) 1); [lia|]. destruct (Nat.leb_spec (ln + rn) rn); [lia|].
      destruct (tlab_alloc s3 (ln + rn) 8) as [q t] eqn:ET. destruct (alloc_ok _ _ _ _ ET) as (_ & X & _). injection E4 as <- _. exact X. }
  pose proof (st_nx _ _ P12) as N12.
  pose proof (holds_step _ _ _ _ _ P4 K1') as (B1 & V1').
  destruct K4 as (B4 & V4'). set (R' := map (fun b => bit01 (high b)) R) in *.
  assert (CR' : clean R') by apply map01_clean.
  assert (NER' : R' <> []) by (unfold R'; destruct R; [congruence|discriminate]).
  assert (LR' : length R' = rn) by (unfold R'; rewrite map_length; exact L4).
  assert (CA : clean (rs g n R')).
  { destruct g; cbn [rs].
    - destruct R' as [|b R'']; [congruence|]. cbn in LR'. rewrite resize_s_grow by lia. inversion CR' as [|? ? Hb Cb]; subst.
      apply Forall_app. split; [|exact Cb]. apply Forall_forall. intros x Hx. apply repeat_spec in Hx. subst x. exact Hb.
    - rewrite resize_u_grow by lia. apply Forall_app. split; [|exact CR']. apply Forall_forall. intros x Hx. apply repeat_spec in Hx. subst x. right. reflexivity. }
  assert (NM : num g R' = num g R).
  { destruct g; cbn [num]; [|apply map01_val]. unfold R'. destruct R as [|b R0]; [congruence|]. cbn [map sval].
    rewrite map01_val, map_length. f_equal. f_equal. f_equal. unfold weight. destruct (high b); reflexivity. }
  destruct (rs_val g n R' ltac:(lia) NER') as (kr & ER).
  assert (CL : clean (vec (mm s4) p1 ln)) by (rewrite V1'; apply map01_clean).
  assert (VRes : vec (mm s4) res n = repeat 2%N n).
  { apply vec_repeat. intros i Hi. rewrite (st_mm _ _ P4) by (cbn; lia). cbn. apply memset_at. lia. }
  assert (Ls : seen g (vec (mm s4) p1 ln) ln = 0%Z).
  { rewrite <- (vec_length (mm s4) p1 ln) at 2. apply seen_all. rewrite V1'. destruct L; [congruence|discriminate]. }
  destruct (mul_loop_ok g ln (mm s4) p1 ln adval n res (uval (vec (mm s4) adval n)) 0 (mm s4)) as (m' & EM & k & I).
  { split.
    - lia.
    - reflexivity.
    - rewrite V4'. exact CA.
    - rewrite VRes. apply Forall_forall. intros x Hx. apply repeat_spec in Hx. subst x. right. reflexivity.
    - left. rewrite Nat.sub_diag. exists 0%Z. ring.
    - rewrite Ls, VRes, uval_zeros. exists 0%Z. ring. }
  { exact CL. } { lia. } { right. lia. } { destruct K1. lia. } { lia. }
  rewrite EM. cbn [bind]. eexists. eexists. split; [reflexivity|].
  destruct I as [_ O _ CRes _ HV].
  pose proof (step_trans _ _ _ P (Build_step s2 s2 eq_refl eq_refl (le_n _) (fun a _ => eq_refl))) as _.
  destruct (Fin s4 m') as (Q1 & Q2).
  { rewrite (st_ar _ _ P4). exact (st_ar _ _ P). }
  { rewrite (st_warns _ _ P4). exact (st_warns _ _ P). }
  { intros a Ha. pose proof (st_nx _ _ P). rewrite O by lia. rewrite (st_mm _ _ P4) by (cbn; lia). cbn. rewrite memset_off by lia. apply NP. exact Ha. }
  split; [exact Q1|]. split; [exact Q2|]. split; [apply vec_length|]. split; [exact CRes|].
  rewrite seen_0 in HV. apply cong_eq in HV. rewrite Z.mod_small in HV.
  - rewrite HV. apply cong_eq. rewrite V4', ER, NM.
    assert (NLm : num g (vec (mm s4) p1 ln) = num g L).
    { rewrite V1'. destruct g; cbn [num]; [|apply map01_val]. destruct L as [|b L0]; [congruence|]. cbn [map sval].
      rewrite map01_val, map_length. f_equal. f_equal. f_equal. unfold weight. destruct (high b); reflexivity. }
    rewrite NLm. exists (kr * num g L)%Z. ring.
  - rewrite <- (vec_length m' res n) at 3. apply uval_range.
Qed.
