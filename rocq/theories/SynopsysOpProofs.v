(* The operators of the Synopsys packages, continued. *)
From Coq Require Import List ZArith NArith Arith Bool Lia.
From Verif Require Import Base IntrinModel IntrinSpec IntrinAddProofs IntrinProofs IntrinOpProofs IntrinMulProofs IntrinConvProofs IntrinLogicModel IntrinLogicProofs SynopsysModel SynopsysSpec SynopsysProofs.
Import ListNotations.

Lemma clean_cv : forall n l, existsb meta l = false -> clean (cv false n l).
Proof.
  intros n l M. unfold cv. rewrite M. apply Forall_app. split; [|apply map01_clean].
  apply Forall_forall. intros b Hb. apply repeat_spec in Hb. subst b. right. reflexivity.
Qed.

Theorem syn_addsub_ok : forall g minus s, (minus = true -> g = false) -> valid s 1 -> valid s 4 ->
  operand s 1 <> [] -> operand s 4 <> [] ->
  exists s' r, synopsys_addsub g minus s = Ok (Done s') /\ returns s s' r /\ warns s' = warned (operand s 1) (operand s 4) (warns s) /\
    operator_result (Nat.max (length (operand s 1)) (length (operand s 4)))
      (if minus then num g (operand s 1) - num g (operand s 4) else num g (operand s 1) + num g (operand s 4))%Z
      (operand s 1) (operand s 4) r.
Proof.
  intros g minus s HG V1 V4 NEL NER. destruct (valid_holds s 1 V1) as (H1 & F1 & L1). destruct (valid_holds s 4 V4) as (H4 & F4 & L4).
  set (L := operand s 1) in *. set (R := operand s 4) in *. unfold operator_result.
  assert (ZL : (length L =? 0) = false) by (destruct L; [congruence|reflexivity]).
  assert (ZR : (length R =? 0) = false) by (destruct R; [congruence|reflexivity]).
  rewrite ZL, ZR. cbn [orb]. rewrite L1, L4 in *. apply Nat.eqb_neq in ZL, ZR.
  change (1 + 2) with 3 in *. change (4 + 2) with 6 in *.
  unfold synopsys_addsub. set (ln := ffi_array_length (ar s 3)) in *. set (rn := ffi_array_length (ar s 6)) in *.
  set (n := Nat.max ln rn). assert (N0 : 0 < n) by lia. cbv zeta.
  destruct (tlab_alloc s n 8) as [res s0] eqn:E0. destruct (alloc_ok _ _ _ _ E0) as (P0 & A0 & B0 & M0).
  destruct (Nat.eqb_spec n 0) as [E|_]; [lia|].
  destruct (conv g s0 (ptr s 1) ln n) as [lp s1] eqn:E1. destruct (conv g s1 (ptr s 4) rn n) as [rp s2] eqn:E2.
  destruct (conv_two g s0 _ ln n L _ rn n R _ _ _ _ (holds_step _ _ _ _ _ P0 H1) F1 ltac:(lia) (holds_step _ _ _ _ _ P0 H4) F4 ltac:(lia) E1 E2)
    as (CL & CR & DL & DR & Ea & Nx & Mm & Ws).
  rewrite (holds_hd _ _ _ _ CL N0), (holds_hd _ _ _ _ CR N0), !cv_head by (assumption || lia). rewrite existsb_app.
  (* the operands are where they were or in memory allocated after the result *)
  assert (PL : ln = n /\ lp = ptr s 1 \/ nx s0 <= lp).
  { unfold conv in E1. destruct ((ln =? n) && all_01 (mm s0) (ptr s 1) ln) eqn:Q.
    - apply andb_true_iff in Q. destruct Q as (Q & _). apply Nat.eqb_eq in Q. injection E1 as <- _. left. tauto.
    - destruct (tlab_alloc s0 (Nat.max ln n) 8) as [q t] eqn:EA. destruct (alloc_ok _ _ _ _ EA) as (_ & A & _).
      destruct (make_binary (mm t) (ptr s 1) (q + (n - ln)) 0 ln ln) as [m w]. cbv zeta in E1.
      destruct (N.eqb (m (q + (n - ln))) sl_X); injection E1 as <- _; right; lia. }
  assert (N01 : nx s0 <= nx s1).
  { assert (K1 : 0 < ln <= n) by lia. destruct (conv_ok _ _ _ _ _ _ _ _ (holds_step _ _ _ _ _ P0 H1) F1 K1 E1) as (X & _). apply st_nx in X. destruct (existsb meta L); exact X. }
  assert (PR : rn = n /\ rp = ptr s 4 \/ nx s0 <= rp).
  { unfold conv in E2. destruct ((rn =? n) && all_01 (mm s1) (ptr s 4) rn) eqn:Q.
    - apply andb_true_iff in Q. destruct Q as (Q & _). apply Nat.eqb_eq in Q. injection E2 as <- _. left. tauto.
    - destruct (tlab_alloc s1 (Nat.max rn n) 8) as [q t] eqn:EA. destruct (alloc_ok _ _ _ _ EA) as (_ & A & _).
      destruct (make_binary (mm t) (ptr s 4) (q + (n - rn)) 0 rn rn) as [m w]. cbv zeta in E2.
      destruct (N.eqb (m (q + (n - rn))) sl_X); injection E2 as <- _; right; lia. }
  assert (AL : apart lp res n) by (destruct H1 as (X & _); unfold apart; destruct PL as [(<- & ->)|]; lia).
  assert (AR : apart rp res n) by (destruct H4 as (X & _); unfold apart; destruct PR as [(<- & ->)|]; lia).
  assert (Old : forall a, a < nx s -> mm s2 a = mm s a).
  { intros a Ha. pose proof (st_nx _ _ P0). rewrite Mm by lia. rewrite M0. reflexivity. }
  assert (W : warns s2 = warned L R (warns s)) by (rewrite Ws, (st_warns _ _ P0); reflexivity).
  assert (Fin : forall m, outside (mm s2) m res n ->
    returns s (return_vec (set_mm s2 m) res n) (vec m res n) /\ warns (return_vec (set_mm s2 m) res n) = warned L R (warns s)).
  { intros m O. split; [|exact W]. apply (return_vec_ok' s (set_mm s2 m) res n); cbn [set_mm mm nx].
    - pose proof (st_nx _ _ P0). lia.
    - intros a Ha. rewrite O by lia. apply Old. exact Ha.
    - lia. }
  destruct (existsb meta L || existsb meta R) eqn:MM.
  { destruct (Fin (memset (mm s2) res sl_X n)) as (Q1 & Q2); [intros a Ha; apply memset_off; exact Ha|].
    eexists. eexists. split; [reflexivity|]. split; [exact Q1|]. split; [exact Q2|]. apply vec_repeat. intros i Hi. apply memset_at. lia. }
  apply orb_false_iff in MM. destruct MM as (ML & MR). destruct CL as (BL & VL). destruct CR as (BR & VR).
  assert (KL : known (vec (mm s2) lp n)) by (rewrite VL; apply known_cv; assumption).
  assert (KR : known (vec (mm s2) rp n)) by (rewrite VR; apply known_cv; assumption).
  destruct (cv_val g n L ltac:(lia) NEL ML) as (kl & EL). destruct (cv_val g n R ltac:(lia) NER MR) as (kr & ER).
  destruct minus.
  - rewrite (HG eq_refl) in *. assert (CR : clean (vec (mm s2) rp n)) by (rewrite VR; apply clean_cv; exact MR).
    destruct (invert_ok n (mm s2) rp 0 res) as (m & Em & Om & Vm).
    { intros j Hj. apply (clean_at _ _ _ CR). lia. }
    { right. exact AR. }
    rewrite Em. cbn [bind]. rewrite Nat.add_0_r in Om. destruct (inverted _ _ _ _ _ CR Vm) as (Ci & Ui).
    assert (VL' : vec m lp n = vec (mm s2) lp n) by (apply vec_ext; intros i Hi; apply Om; destruct AL; lia).
    destruct (add_known m lp res n 1 res ltac:(lia) (or_intror AL) (or_introl eq_refl) ltac:(rewrite VL'; exact KL) (clean_known _ Ci)) as (O & C & U).
    destruct (Fin (packed_add m lp res n 1 res)) as (Q1 & Q2); [intros a Ha; rewrite O by exact Ha; apply Om; exact Ha|].
    eexists. eexists. split; [reflexivity|]. split; [exact Q1|]. split; [exact Q2|]. split; [apply vec_length|]. split; [exact C|].
    rewrite U, VL', Ui, VL, VR, EL, ER. change (Z.of_N 1) with 1%Z. cbn [num].
    rewrite <- (Z_mod_plus_full (uval L - uval R) (kl - kr + 1)). f_equal. ring.
  - destruct (add_known (mm s2) lp rp n 0 res ltac:(lia) (or_intror AL) (or_intror AR) KL KR) as (O & C & U).
    destruct (Fin (packed_add (mm s2) lp rp n 0 res) O) as (Q1 & Q2).
    eexists. eexists. split; [reflexivity|]. split; [exact Q1|]. split; [exact Q2|]. split; [apply vec_length|]. split; [exact C|].
    rewrite U, VL, VR, EL, ER. change (Z.of_N 0) with 0%Z. rewrite <- (Z_mod_plus_full (num g L + num g R) (kl + kr)). f_equal. ring.
Qed.

(* ---- "*" ---- *)

Theorem syn_mul_ok : forall g s, valid s 1 -> valid s 4 -> operand s 1 <> [] -> operand s 4 <> [] ->
  exists s' r, synopsys_mul g s = Ok (Done s') /\ returns s s' r /\ warns s' = warned (operand s 1) (operand s 4) (warns s) /\
    operator_result (length (operand s 1) + length (operand s 4)) (num g (operand s 1) * num g (operand s 4)) (operand s 1) (operand s 4) r.
Proof.
  intros g s V1 V4 NEL NER. destruct (valid_holds s 1 V1) as (H1 & F1 & L1). destruct (valid_holds s 4 V4) as (H4 & F4 & L4).
  set (L := operand s 1) in *. set (R := operand s 4) in *. unfold operator_result.
  assert (ZL : (length L =? 0) = false) by (destruct L; [congruence|reflexivity]).
  assert (ZR : (length R =? 0) = false) by (destruct R; [congruence|reflexivity]).
  rewrite ZL, ZR. cbn [orb]. rewrite L1, L4 in *.
  change (1 + 2) with 3 in *. change (4 + 2) with 6 in *.
  unfold synopsys_mul. set (ln := ffi_array_length (ar s 3)) in *. set (rn := ffi_array_length (ar s 6)) in *.
  rewrite ZL, ZR. cbn [orb]. apply Nat.eqb_neq in ZL, ZR. cbv zeta.
  destruct (conv g s (ptr s 1) ln ln) as [lp s1] eqn:E1. destruct (conv g s1 (ptr s 4) rn rn) as [rp s2] eqn:E2.
  destruct (conv_two g s _ ln ln L _ rn rn R _ _ _ _ H1 F1 ltac:(lia) H4 F4 ltac:(lia) E1 E2) as (CL & CR & _ & _ & Ea & Nx & Mm & Ws).
  set (n := ln + rn). destruct (tlab_alloc s2 n 8) as [pa s3] eqn:E3. destruct (alloc_ok _ _ _ _ E3) as (P3 & A3 & B3 & M3).
  rewrite M3. rewrite (holds_hd _ _ _ _ CL ltac:(lia)), (holds_hd _ _ _ _ CR ltac:(lia)), !cv_head by (assumption || lia). rewrite existsb_app.
  assert (W3 : warns s3 = warned L R (warns s)) by (rewrite (st_warns _ _ P3); exact Ws).
  assert (Fin : forall s9 m, nx s9 = nx s3 -> warns s9 = warns s3 -> (forall a, a < nx s -> m a = mm s a) -> mm s9 = m ->
    returns s (return_vec s9 pa n) (vec m pa n) /\ warns (return_vec s9 pa n) = warned L R (warns s)).
  { intros s9 m En Ew Hm <-. split; [|cbn; rewrite Ew; exact W3]. apply return_vec_ok'; [pose proof (st_nx _ _ P3); lia|exact Hm|lia]. }
  destruct (existsb meta L || existsb meta R) eqn:MM.
  { destruct (Fin (set_mm s3 (memset (mm s2) pa sl_X n)) (memset (mm s2) pa sl_X n) eq_refl eq_refl) as (Q1 & Q2); [|reflexivity|].
    { intros a Ha. rewrite memset_off by lia. apply Mm. exact Ha. }
    eexists. eexists. split; [reflexivity|]. split; [exact Q1|]. split; [exact Q2|]. apply vec_repeat. intros i Hi. apply memset_at. lia. }
  apply orb_false_iff in MM. destruct MM as (ML & MR).
  destruct (tlab_alloc s3 n 8) as [ba s4] eqn:E4. destruct (alloc_ok _ _ _ _ E4) as (P4 & A4 & B4 & M4). rewrite M4, M3.
  destruct CL as (BL & VL). destruct CR as (BR & VR).
  assert (EL : cv g ln L = map (fun b => bit01 (high b)) L) by (unfold cv; rewrite ML, L1, Nat.sub_diag; reflexivity).
  assert (ER : cv g rn R = map (fun b => bit01 (high b)) R) by (unfold cv; rewrite MR, L4, Nat.sub_diag; reflexivity).
  rewrite EL in VL. rewrite ER in VR. set (R' := map (fun b => bit01 (high b)) R) in *.
  assert (CR' : clean R') by apply map01_clean.
  assert (NER' : R' <> []) by (unfold R'; destruct R; [congruence|discriminate]).
  assert (LR' : length R' = rn) by (unfold R'; rewrite map_length; exact L4).
  set (m1 := memset (mm s2) pa sl_0 n). set (x := if g then m1 rp else sl_0).
  set (m2 := memmove (memset m1 ba x (n - rn)) (ba + n - rn) rp rn).
  assert (Ex : x = if g then hd 2%N R' else 2%N).
  { unfold x. destruct g; [|reflexivity]. unfold m1. rewrite memset_off by lia. destruct rn as [|rn']; [lia|]. rewrite vec_S in VR. rewrite <- VR. reflexivity. }
  assert (VA : vec m2 ba n = rs g n R').
  { replace (vec m2 ba n) with (vec m2 ba ((n - rn) + rn)) by (f_equal; lia). rewrite vec_app.
    assert (X1 : vec m2 ba (n - rn) = repeat x (n - rn)).
    { apply vec_repeat. intros i Hi. unfold m2. rewrite memmove_off by lia. apply memset_at. lia. }
    assert (X2 : vec m2 (ba + (n - rn)) rn = R').
    { rewrite <- VR. apply vec_ext. intros i Hi. unfold m2. rewrite memmove_at by lia. rewrite memset_off by lia. unfold m1. rewrite memset_off by lia. f_equal. lia. }
    rewrite X1, X2, Ex. destruct g; cbn [rs].
    - destruct R' as [|b R'']; [congruence|]. cbn [length hd] in *. rewrite resize_s_grow by lia.
      replace (n - length R'') with (n - rn + 1) by lia. rewrite repeat_app, <- app_assoc. reflexivity.
    - rewrite resize_u_grow by lia. rewrite LR'. reflexivity. }
  assert (CA : clean (rs g n R')).
  { destruct g; cbn [rs].
    - destruct R' as [|b R'']; [congruence|]. cbn in LR'. rewrite resize_s_grow by lia. inversion CR' as [|? ? Hb Cb]; subst.
      apply Forall_app. split; [|exact Cb]. apply Forall_forall. intros y Hy. apply repeat_spec in Hy. subst y. exact Hb.
    - rewrite resize_u_grow by lia. apply Forall_app. split; [|exact CR']. apply Forall_forall. intros y Hy. apply repeat_spec in Hy. subst y. right. reflexivity. }
  assert (NM : forall l, num g (map (fun b => bit01 (high b)) l) = num g l).
  { intros l. destruct g; cbn [num]; [|apply map01_val]. destruct l as [|b l0]; [reflexivity|]. cbn [map sval].
    rewrite map01_val, map_length. f_equal. f_equal. f_equal. unfold weight. destruct (high b); reflexivity. }
  destruct (rs_val g n R' ltac:(lia) NER') as (kr & EK).
  assert (VL2 : vec m2 lp ln = map (fun b => bit01 (high b)) L).
  { rewrite <- VL. apply vec_ext. intros i Hi. unfold m2. rewrite memmove_off by lia. rewrite memset_off by lia. unfold m1. apply memset_off. lia. }
  assert (VRes : vec m2 pa n = repeat 2%N n).
  { apply vec_repeat. intros i Hi. unfold m2. rewrite memmove_off by lia. rewrite memset_off by lia. unfold m1. apply memset_at. lia. }
  assert (Ls : seen g (vec m2 lp ln) ln = 0%Z).
  { rewrite <- (vec_length m2 lp ln) at 2. apply seen_all. rewrite VL2. destruct L; [congruence|discriminate]. }
  destruct (mul_loop_ok g ln m2 lp ln ba n pa (uval (vec m2 ba n)) 0 m2) as (m' & EM & k & I).
  { split.
    - lia.
    - reflexivity.
    - rewrite VA. exact CA.
    - rewrite VRes. apply Forall_forall. intros y Hy. apply repeat_spec in Hy. subst y. right. reflexivity.
    - left. rewrite Nat.sub_diag. exists 0%Z. ring.
    - rewrite Ls, VRes, uval_zeros. exists 0%Z. ring. }
  { rewrite VL2. apply map01_clean. } { lia. } { right. lia. } { lia. } { lia. }
  rewrite EM. cbn [bind]. destruct I as [_ O _ CRes _ HV].
  destruct (Fin (tlab_restore (set_mm s4 m') (nx s3)) m' eq_refl) as (Q1 & Q2).
  { cbn. rewrite (st_warns _ _ P4). reflexivity. }
  { intros a Ha. rewrite O by lia. unfold m2. rewrite memmove_off by lia. rewrite memset_off by lia. unfold m1. rewrite memset_off by lia. apply Mm. exact Ha. }
  { reflexivity. }
  eexists. eexists. split; [reflexivity|]. split; [exact Q1|]. split; [exact Q2|]. split; [apply vec_length|]. split; [exact CRes|].
  rewrite seen_0 in HV. apply cong_eq in HV. rewrite Z.mod_small in HV.
  - rewrite HV. apply cong_eq. rewrite VA, EK, VL2, NM. unfold R'. rewrite NM. exists (kr * num g L)%Z. ring.
  - rewrite <- (vec_length m' pa n) at 3. apply uval_range.
Qed.

(* ---- "=" ---- *)

Lemma uval_inj : forall l r, clean l -> clean r -> length l = length r -> uval l = uval r -> l = r.
Proof.
  induction l as [|a l IH]; intros [|b r] Cl Cr Len E; try discriminate; [reflexivity|].
  inversion Cl as [|? ? Ha Cl']; inversion Cr as [|? ? Hb Cr']; subst. cbn [length uval] in *. injection Len as Len.
  pose proof (uval_range l) as Rl. pose proof (uval_range r) as Rr. rewrite Len in Rl, E.
  assert (D : a = b).
  { destruct Ha as [->| ->], Hb as [->| ->]; try reflexivity; exfalso; cbn [weight bit01 high] in E; cbn in E; lia. }
  subst b. f_equal. apply IH; try assumption. lia.
Qed.

Definition in_range (g : bool) (n : nat) (v : Z) : Prop := if g then (- 2 ^ (Z.of_nat n - 1) <= v < 2 ^ (Z.of_nat n - 1))%Z else (0 <= v < 2 ^ Z.of_nat n)%Z.
Lemma num_range : forall g l n, l <> [] -> length l <= n -> in_range g n (num g l).
Proof.
  intros g l n NE H. destruct l as [|b l]; [congruence|]. cbn [length] in H. destruct g; cbn [in_range num].
  - cbn [sval]. pose proof (uval_range l). pose proof (weight_01 b).
    assert (2 ^ Z.of_nat (length l) <= 2 ^ (Z.of_nat n - 1))%Z by (apply Z.pow_le_mono_r; lia). nia.
  - pose proof (uval_range (b :: l)). cbn [length] in *.
    assert (2 ^ Z.of_nat (S (length l)) <= 2 ^ Z.of_nat n)%Z by (apply Z.pow_le_mono_r; lia). lia.
Qed.
Lemma range_cong : forall g n a b, 0 < n -> in_range g n a -> in_range g n b -> cong (2 ^ Z.of_nat n) a b -> a = b.
Proof.
  intros g n a b N0 Ra Rb (k & E). set (M := (2 ^ Z.of_nat n)%Z) in *.
  assert (PM : (M = 2 * 2 ^ (Z.of_nat n - 1))%Z) by (unfold M; rewrite <- Z.pow_succ_r by lia; f_equal; lia).
  assert (k = 0)%Z; [|subst k; lia]. unfold in_range in *. fold M in Ra, Rb. set (h := (2 ^ (Z.of_nat n - 1))%Z) in *. clearbody h M.
  destruct g; (destruct (Z.lt_trichotomy k 0) as [K|[K|K]]; [|exact K|]); nia.
Qed.

(* Clean conversions are equal when the numbers are. *)
Lemma cv_eq : forall g n L R, L <> [] -> R <> [] -> length L <= n -> length R <= n -> existsb meta L = false -> existsb meta R = false ->
  clean (cv g n L) -> clean (cv g n R) -> cv g n L = cv g n R <-> num g L = num g R.
Proof.
  intros g n L R NL NR HL HR ML MR CL CR. destruct (cv_val g n L HL NL ML) as (kl & EL). destruct (cv_val g n R HR NR MR) as (kr & ER).
  assert (N0 : 0 < n) by (destruct L; [congruence|cbn in HL; lia]). split; intros E.
  - apply (range_cong g n); [exact N0|apply num_range; assumption|apply num_range; assumption|]. rewrite E, ER in EL. exists (kr - kl)%Z. lia.
  - apply uval_inj; try assumption; [rewrite !cv_length by assumption; reflexivity|].
    pose proof (uval_range (cv g n L)) as RL. pose proof (uval_range (cv g n R)) as RR. rewrite cv_length in RL, RR by assumption.
    apply (range_cong false n); [exact N0|exact RL|exact RR|]. exists (kl - kr)%Z. rewrite EL, ER, E. ring.
Qed.

Lemma cv_strong : forall n l, (length l < n -> hd 2%N l = 2%N \/ hd 2%N l = 3%N) -> existsb meta l = false -> clean (cv true n l).
Proof.
  intros n l H M. unfold cv. rewrite M. apply Forall_app. split; [|apply map01_clean].
  apply Forall_forall. intros b Hb. destruct (n - length l) eqn:D; [destruct Hb|]. apply repeat_spec in Hb. subst b.
  destruct (H ltac:(lia)) as [->| ->]; [right|left]; reflexivity.
Qed.

Theorem syn_eql_ok : forall g s, valid s 1 -> valid s 4 -> operand s 1 <> [] -> operand s 4 <> [] ->
  (g = true -> strong_sign (operand s 1) (operand s 4)) ->
  exists s', synopsys_eql g s = Done s' /\ nx s' = nx s /\ (forall a, a < nx s -> mm s' a = mm s a) /\
    ar s' 0 = Z.b2z (syn_equal g (operand s 1) (operand s 4)) /\ warns s' = warned (operand s 1) (operand s 4) (warns s).
Proof.
  intros g s V1 V4 NEL NER SS. destruct (valid_holds s 1 V1) as (H1 & F1 & L1). destruct (valid_holds s 4 V4) as (H4 & F4 & L4).
  set (L := operand s 1) in *. set (R := operand s 4) in *.
  assert (ZL : length L <> 0) by (destruct L; [congruence|discriminate]).
  assert (ZR : length R <> 0) by (destruct R; [congruence|discriminate]).
  rewrite L1 in ZL. rewrite L4 in ZR. change (1 + 2) with 3 in *. change (4 + 2) with 6 in *.
  unfold synopsys_eql. set (ln := ffi_array_length (ar s 3)) in *. set (rn := ffi_array_length (ar s 6)) in *.
  set (n := Nat.max ln rn). assert (N0 : 0 < n) by lia. cbv zeta. destruct (Nat.eqb_spec n 0) as [E|_]; [lia|].
  destruct (conv g s (ptr s 1) ln n) as [lp s1] eqn:E1. destruct (conv g s1 (ptr s 4) rn n) as [rp s2] eqn:E2.
  destruct (conv_two g s _ ln n L _ rn n R _ _ _ _ H1 F1 ltac:(lia) H4 F4 ltac:(lia) E1 E2) as ((_ & VL) & (_ & VR) & _ & _ & Ea & Nx & Mm & Ws).
  eexists. split; [reflexivity|]. split; [reflexivity|]. split; [exact Mm|]. split; [|exact Ws].
  cbn [tlab_restore set_ar ar]. rewrite upd_same. f_equal.
  assert (Main : memcmp_zero (mm s2) lp rp n = true <-> syn_equal g L R = true).
  { rewrite memcmp_ok, VL, VR. unfold syn_equal.
    assert (CL : existsb meta L = false -> clean (cv g n L)).
    { intros M. destruct g; [|apply clean_cv; exact M]. apply cv_strong; [|exact M]. intros Hn. apply (proj1 (SS eq_refl)). lia. }
    assert (CR : existsb meta R = false -> clean (cv g n R)).
    { intros M. destruct g; [|apply clean_cv; exact M]. apply cv_strong; [|exact M]. intros Hn. apply (proj2 (SS eq_refl)). lia. }
    assert (HX : forall l, existsb meta l = true -> cv g n l = repeat the_X n) by (intros l M; unfold cv; rewrite M; reflexivity).
    assert (NX : forall l, clean l -> repeat the_X n <> l).
    { intros l C E. destruct n; [lia|]. destruct l as [|b l]; [discriminate|]. injection E as E _. inversion C as [|? ? Hb _]; subst. destruct Hb; discriminate. }
    destruct (existsb meta L) eqn:ML, (existsb meta R) eqn:MR.
    - rewrite !HX by assumption. tauto.
    - rewrite (HX L) by assumption. split; [|discriminate]. intros E. elim (NX _ (CR eq_refl) E).
    - rewrite (HX R) by assumption. split; [|discriminate]. intros E. symmetry in E. elim (NX _ (CL eq_refl) E).
    - rewrite Z.eqb_eq. apply cv_eq; try assumption; [lia|lia|apply CL; reflexivity|apply CR; reflexivity]. }
  destruct (memcmp_zero (mm s2) lp rp n), (syn_equal g L R); try reflexivity; [symmetry; apply Main; reflexivity|apply Main; reflexivity].
Qed.
