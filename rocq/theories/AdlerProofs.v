From Coq Require Import List NArith Arith Bool Lia ZifyNat ZifyN ZifyBool.
From Verif Require Import Base AdlerModel AdlerSpec.
Import ListNotations.
Local Open Scope N_scope.

Notation bytes := (Forall is_byte).

Definition nlen (l : list N) : N := N.of_nat (length l).

(* The exact second sum, starting from s1 and s2. *)
Fixpoint E2 (s1 s2 : N) (l : list N) : N :=
  match l with [] => s2 | b :: l' => E2 (s1 + b) (s2 + (s1 + b)) l' end.

Lemma E2_lin : forall l s1 s2, E2 s1 s2 l = s2 + nlen l * s1 + E2 0 0 l.
Proof.
  unfold nlen. induction l as [|b l IH]; intros s1 s2; cbn [E2 length]; [lia|].
  rewrite IH, (IH (0 + b) (0 + (0 + b))). lia.
Qed.

Lemma total_app a b : total (a ++ b) = total a + total b.
Proof. induction a as [|x a IH]; cbn [app total]; [lia|]. rewrite IH. lia. Qed.

Lemma E2_app : forall a b s1 s2, E2 s1 s2 (a ++ b) = E2 (s1 + total a) (E2 s1 s2 a) b.
Proof.
  induction a as [|x a IH]; intros b s1 s2; cbn [app E2 total].
  - f_equal; lia.
  - rewrite IH. f_equal; lia.
Qed.

Lemma nlen_app a b : nlen (a ++ b) = nlen a + nlen b.
Proof. unfold nlen. rewrite app_length. lia. Qed.

Lemma total_bound : forall l, bytes l -> total l <= 255 * nlen l.
Proof.
  unfold nlen. induction l as [|b l IH]; intros B; cbn [total length]; [lia|].
  pose proof (Forall_inv B) as Hb. unfold is_byte in Hb. specialize (IH (Forall_inv_tail B)). lia.
Qed.

Lemma E2_bound : forall l, bytes l -> 2 * E2 0 0 l <= 255 * nlen l * (nlen l + 1).
Proof.
  unfold nlen. induction l as [|b l IH]; intros B; cbn [E2 length]; [lia|].
  rewrite E2_lin. unfold nlen. pose proof (Forall_inv B) as Hb. unfold is_byte in Hb.
  specialize (IH (Forall_inv_tail B)). set (n := N.of_nat (length l)) in *.
  replace (N.of_nat (S (length l))) with (n + 1) by lia. nia.
Qed.

Lemma E2_bound_s : forall l s1 s2, bytes l -> E2 s1 s2 l <= s2 + nlen l * (s1 + 255 * nlen l).
Proof.
  intros l s1 s2 B. rewrite E2_lin. pose proof (E2_bound l B).
  assert (nlen l * (nlen l + 1) <= 2 * (nlen l * nlen l)).
  { destruct (N.eq_dec (nlen l) 0) as [->|]; [lia|]. nia. }
  nia.
Qed.

Lemma bytes_loop_exact m : forall l s1 s2, bytes l ->
  s1 + 255 * nlen l < m -> E2 s1 s2 l < m -> bytes_loop m l s1 s2 = (s1 + total l, E2 s1 s2 l).
Proof.
  induction l as [|b l IH]; intros s1 s2 B H1 H2; cbn [bytes_loop E2 total] in *.
  - f_equal. lia.
  - pose proof (Forall_inv B) as Hb. unfold is_byte in Hb. unfold nlen in *. cbn [length] in H1.
    rewrite E2_lin in H2. unfold nlen in H2.
    rewrite (N.mod_small (s1 + b)) by lia. rewrite (N.mod_small (s2 + (s1 + b))) by lia.
    rewrite IH; [f_equal; lia|exact (Forall_inv_tail B)|lia|rewrite E2_lin; unfold nlen; lia].
Qed.

(* ---- congruence modulo the prime ---- *)

Lemma modM_add a b : ((a mod MOD) + b) mod MOD = (a + b) mod MOD.
Proof. apply N.add_mod_idemp_l. discriminate. Qed.

Lemma E2_cong l s1 s1' s2 s2' : s1 mod MOD = s1' mod MOD -> s2 mod MOD = s2' mod MOD ->
  E2 s1 s2 l mod MOD = E2 s1' s2' l mod MOD.
Proof.
  intros H1 H2. rewrite (E2_lin l s1), (E2_lin l s1').
  assert (M : MOD <> 0) by discriminate.
  rewrite (N.add_mod (s2 + _)), (N.add_mod (s2' + _)) by exact M. f_equal. f_equal.
  rewrite (N.add_mod s2), (N.add_mod s2') by exact M. rewrite H2. f_equal. f_equal.
  rewrite (N.mul_mod _ s1), (N.mul_mod _ s1') by exact M. now rewrite H1.
Qed.

Definition good (st : N * N) : Prop := fst st < MOD /\ snd st < MOD.

(* What one update must do. *)
Definition steps (st : N * N) (l : list N) : N * N :=
  ((fst st + total l) mod MOD, E2 (fst st) (snd st) l mod MOD).

Lemma steps_good st l : good (steps st l).
Proof. unfold good, steps. cbn [fst snd]. split; apply N.mod_lt; discriminate. Qed.

Lemma steps_app st a b : steps (steps st a) b = steps st (a ++ b).
Proof.
  unfold steps. cbn [fst snd]. f_equal.
  - rewrite modM_add, total_app. f_equal. lia.
  - rewrite E2_app. apply E2_cong; apply N.mod_mod; discriminate.
Qed.

Lemma steps_nil st : good st -> steps st [] = st.
Proof.
  intros [G1 G2]. unfold steps. cbn [total E2]. rewrite N.add_0_r, !N.mod_small by assumption. now destruct st.
Qed.

Lemma reduce1_mod s : s < 2 * MOD -> reduce1 s = s mod MOD.
Proof.
  intros H. unfold reduce1. destruct (N.leb_spec MOD s) as [L|L].
  - replace s with (s - MOD + 1 * MOD) at 2 by lia. rewrite N.mod_add by discriminate.
    symmetry. apply N.mod_small. lia.
  - symmetry. now apply N.mod_small.
Qed.

(* ---- scalar ---- *)

Lemma bytes_firstn k l : bytes l -> bytes (firstn k l).
Proof. intros B. rewrite <- (firstn_skipn k l) in B. now apply Forall_app in B. Qed.
Lemma bytes_skipn k l : bytes l -> bytes (skipn k l).
Proof. intros B. rewrite <- (firstn_skipn k l) in B. now apply Forall_app in B. Qed.

Lemma blocks_ok m : P32 <= m -> forall blocks l s1 s2,
  bytes l -> length l = (8 * blocks)%nat -> s1 < MOD ->
  s2 < MOD + (4095 - (N.of_nat blocks + 4095) mod 4096) * 540488 ->
  exists s1' s2', blocks_loop m blocks l s1 s2 = (s1', s2') /\ s1' < MOD /\ s2' < MOD /\
    s1' = (s1 + total l) mod MOD /\ s2' = E2 s1 s2 l mod MOD.
Proof.
  intros Hm. unfold P32 in Hm. induction blocks as [|rest IH]; intros l s1 s2 B L H1 H2.
  - destruct l; [|discriminate]. exists s1, s2. cbn [blocks_loop total E2].
    change ((N.of_nat 0 + 4095) mod 4096) with 4095 in H2. unfold MOD in H2.
    assert (H3 : s2 < MOD) by (unfold MOD; lia).
    rewrite N.add_0_r, !N.mod_small by assumption. auto.
  - cbn [blocks_loop].
    set (hd := firstn 8 l). set (tl := skipn 8 l).
    assert (El : l = hd ++ tl) by (symmetry; apply firstn_skipn).
    assert (Lh : nlen hd = 8) by (unfold nlen, hd; rewrite firstn_length; lia).
    assert (Lt : length tl = (8 * rest)%nat) by (unfold tl; rewrite skipn_length; lia).
    pose proof (bytes_firstn 8 l B) as Bh. fold hd in Bh.
    pose proof (bytes_skipn 8 l B) as Bt. fold tl in Bt.
    pose proof (total_bound hd Bh) as Th. pose proof (E2_bound_s hd s1 s2 Bh) as Eh. rewrite Lh in *.
    unfold MOD in *. clear L B.
    set (r := N.of_nat rest). replace (N.of_nat (S rest)) with (r + 1) in H2 by lia.
    replace (r + 1 + 4095) with (r + 1 * 4096) in H2 by lia. rewrite N.mod_add in H2 by discriminate.
    pose proof (N.mod_lt r 4096 ltac:(discriminate)) as Hr. set (q := r mod 4096) in *.
    rewrite bytes_loop_exact; [|exact Bh|rewrite Lh; lia|lia].
    rewrite reduce1_mod by (unfold MOD; lia).
    assert (E : (8 * r) mod 32768 = 8 * q).
    { subst q. change 32768 with (8 * 4096). apply N.mul_mod_distr_l; discriminate. }
    rewrite E. clear E. fold MOD.
    set (a := (s1 + total hd) mod MOD). set (e := E2 s1 s2 hd) in *.
    set (s2n := if 8 * q =? 0 then e mod MOD else e).
    assert (Ha : a < MOD) by (apply N.mod_lt; discriminate).
    assert (Hs : s2n < MOD + (4095 - (r + 4095) mod 4096) * 540488).
    { subst s2n. destruct (N.eqb_spec (8 * q) 0) as [Z|Z].
      - assert (e mod MOD < MOD) by (apply N.mod_lt; discriminate). lia.
      - assert (Q : (r + 4095) mod 4096 = q - 1).
        { replace (r + 4095) with ((r - 1) + 1 * 4096).
          - rewrite N.mod_add by discriminate. subst q.
            pose proof (N.div_mod r 4096 ltac:(discriminate)) as D.
            symmetry. apply (N.mod_unique _ _ (r / 4096)); lia.
          - destruct (N.eq_dec r 0) as [R0|R0]; [|lia]. exfalso. apply Z. subst q. rewrite R0. reflexivity. }
        rewrite Q. unfold MOD. lia. }
    destruct (IH tl a s2n Bt Lt Ha Hs) as (s1' & s2' & R & R1 & R2 & R3 & R4).
    exists s1', s2'. split; [exact R|]. split; [exact R1|]. split; [exact R2|].
    rewrite El, total_app, E2_app. split.
    + rewrite R3. unfold a. rewrite modM_add. f_equal. lia.
    + rewrite R4. apply E2_cong.
      * unfold a. apply N.mod_mod. discriminate.
      * subst s2n e. destruct (_ =? _); [apply N.mod_mod; discriminate|reflexivity].
Qed.

Lemma scalar_ok m st l : P32 <= m -> good st -> bytes l -> adler32_update m st l = Ok (steps st l).
Proof.
  intros Hm [G1 G2] B. destruct st as [s1 s2]. cbn [fst snd] in G1, G2. unfold adler32_update.
  set (k := (length l mod 8)%nat). assert (Hk : (k < 8)%nat) by (apply Nat.mod_upper_bound; lia).
  assert (Hlen : length l = (8 * (length l / 8) + k)%nat) by (apply Nat.div_mod; lia).
  set (hd := firstn k l). set (tl := skipn k l).
  assert (El : l = hd ++ tl) by (symmetry; apply firstn_skipn).
  assert (Lh : nlen hd = N.of_nat k) by (unfold nlen, hd; rewrite firstn_length; lia).
  assert (Lt : length tl = (8 * (length l / 8))%nat) by (unfold tl; rewrite skipn_length; lia).
  assert (Bh : bytes hd) by now apply bytes_firstn. assert (Bt : bytes tl) by now apply bytes_skipn.
  set (pre := if Nat.eqb k 0 then (s1, s2) else _).
  assert (P : pre = steps (s1, s2) hd).
  { subst pre. destruct (Nat.eqb_spec k 0) as [K|K].
    - assert (hd = []) as -> by (unfold hd; rewrite K; reflexivity). symmetry. now apply steps_nil.
    - pose proof (total_bound hd Bh) as Th. pose proof (E2_bound_s hd s1 s2 Bh) as Eh. rewrite Lh in *.
      unfold MOD, P32 in *.
      rewrite bytes_loop_exact; [|exact Bh|rewrite Lh; lia|nia].
      rewrite reduce1_mod by (unfold MOD; lia). reflexivity. }
  rewrite P. destruct (steps_good (s1, s2) hd) as [S1 S2].
  destruct (steps (s1, s2) hd) as [a b] eqn:E. cbn [fst snd] in S1, S2.
  destruct (blocks_ok m Hm (length l / 8) tl a b Bt Lt S1) as (s1' & s2' & R & R1 & R2 & R3 & R4).
  { unfold MOD in *. lia. }
  rewrite R. replace (s1' <? MOD) with true by (symmetry; now apply N.ltb_lt).
  replace (s2' <? MOD) with true by (symmetry; now apply N.ltb_lt). cbn [andb]. f_equal.
  rewrite El, <- steps_app, E. unfold steps. cbn [fst snd]. congruence.
Qed.

(* ---- AVX2 ---- *)

Lemma lsum_total l : lsum l = total l.
Proof. induction l as [|x l IH]; cbn; [reflexivity|]. unfold lsum in IH. now rewrite IH. Qed.

Lemma vadd_exact : forall a b, length a = length b -> total a + total b < P32 ->
  total (vadd a b) = total a + total b /\ length (vadd a b) = length a.
Proof.
  induction a as [|x a IH]; intros [|y b] L H; try discriminate; cbn [vadd total length] in *; [lia|].
  destruct (IH b) as [I1 I2]; [lia|lia|]. rewrite I1, I2, N.mod_small by lia. split; lia.
Qed.

Lemma vshl5_exact : forall a, 32 * total a < P32 -> total (vshl5 a) = 32 * total a /\ length (vshl5 a) = length a.
Proof.
  unfold vshl5. induction a as [|x a IH]; intros H; cbn [map total length] in *; [lia|].
  destruct IH as [I1 I2]; [lia|]. rewrite I1, I2, N.mod_small by lia. split; lia.
Qed.

Fixpoint dot (a c : list N) : N :=
  match a, c with x :: a', d :: c' => x * d + dot a' c' | _, _ => 0 end.

Lemma maddubs_exact : forall n a c, length a = (2 * n)%nat -> length c = (2 * n)%nat ->
  bytes a -> Forall (fun x => x <= 32) c -> total (maddubs a c) = dot a c /\ length (maddubs a c) = n.
Proof.
  induction n as [|n IH]; intros a c La Lc Ba Bc.
  - destruct a; [|discriminate]. destruct c; [|discriminate]. cbn. auto.
  - destruct a as [|x [|y a]]; cbn in La; try lia. destruct c as [|d [|e c]]; cbn in Lc; try lia.
    pose proof (Forall_inv Ba). pose proof (Forall_inv (Forall_inv_tail Ba)).
    pose proof (Forall_inv Bc). pose proof (Forall_inv (Forall_inv_tail Bc)). unfold is_byte in *.
    destruct (IH a c) as [I1 I2]; [lia|lia|exact (Forall_inv_tail (Forall_inv_tail Ba))|exact (Forall_inv_tail (Forall_inv_tail Bc))|].
    cbn [maddubs total dot length]. rewrite I1, I2. rewrite N.min_r by nia. split; lia.
Qed.

Lemma madd1_exact : forall n a, length a = (2 * n)%nat -> total a < P32 ->
  total (madd1 a) = total a /\ length (madd1 a) = n.
Proof.
  induction n as [|n IH]; intros a L H.
  - destruct a; [|discriminate]. cbn. auto.
  - destruct a as [|x [|y a]]; cbn in L; try lia. cbn [madd1 total length] in *.
    destruct (IH a) as [I1 I2]; [lia|lia|]. rewrite I1, I2, N.mod_small by lia. split; lia.
Qed.

Lemma sad_exact a : length a = 32%nat -> total (sad a) = total a /\ length (sad a) = 8%nat.
Proof.
  intros L. unfold sad. cbn [map concat app total length]. rewrite !lsum_total. split; [|reflexivity].
  pose proof (firstn_skipn 8 a) as E0.
  pose proof (firstn_skipn 8 (skipn 8 a)) as E1.
  pose proof (firstn_skipn 8 (skipn 16 a)) as E2.
  pose proof (firstn_skipn 8 (skipn 24 a)) as E3.
  assert (SS : forall n (l : list N), skipn 8 (skipn n l) = skipn (n + 8)%nat l).
  { induction n as [|n IH]; intros l; [reflexivity|]. destruct l; [reflexivity|]. cbn [skipn Nat.add]. apply IH. }
  rewrite SS in E1, E2, E3. cbn [Nat.add] in *.
  assert (Z : skipn 32 a = []) by (apply skipn_all2; lia). rewrite Z, app_nil_r in E3.
  assert (T : total a = total (firstn 8 a ++ firstn 8 (skipn 8 a) ++ firstn 8 (skipn 16 a) ++ firstn 8 (skipn 24 a))).
  { rewrite E3, E2, E1, E0. reflexivity. }
  rewrite T, !total_app. change (8 * 0)%nat with 0%nat. change (8 * 1)%nat with 8%nat. change (8 * 2)%nat with 16%nat.
  change (8 * 3)%nat with 24%nat. change (skipn 0 a) with a. 
  rewrite (lsum_total (firstn 8 (skipn 8 a))), (lsum_total (firstn 8 (skipn 16 a))), (lsum_total (firstn 8 (skipn 24 a))). lia.
Qed.

Lemma reduce_exact v : length v = 8%nat -> total v < P32 -> reduce_add v = total v.
Proof.
  intros L H. destruct v as [|a [|b [|c [|d [|e [|f [|g [|h [|? ?]]]]]]]]]; try discriminate.
  cbn [total] in *. unfold reduce_add. cbn [nth Nat.add].
  rewrite (N.mod_small (c + g)), (N.mod_small (a + e)), (N.mod_small (d + h)), (N.mod_small (b + f)) by lia.
  rewrite (N.mod_small (c + g + (a + e))), (N.mod_small (d + h + (b + f))) by lia.
  rewrite N.mod_small by lia. lia.
Qed.

(* The weights n, n-1, ... 1. *)
Fixpoint down (n : nat) : list N := match n with O => [] | S n' => N.of_nat n :: down n' end.

Lemma E2_dot : forall l, E2 0 0 l = dot l (down (length l)).
Proof.
  induction l as [|b l IH]; cbn [E2 length down dot]; [reflexivity|].
  rewrite E2_lin, IH. unfold nlen. lia.
Qed.

Lemma coeff_down : coeff = down 32.
Proof. vm_compute. reflexivity. Qed.

Lemma simd_ok : forall n data sv s2v done,
  bytes data -> bytes done -> length data = (32 * n)%nat ->
  (length done + length data <= N.to_nat 5536)%nat ->
  length sv = 8%nat -> length s2v = 8%nat ->
  total sv = total done -> total s2v = E2 0 0 done ->
  exists a b, simd_loop n data sv s2v = (a, b) /\ length a = 8%nat /\ length b = 8%nat /\
    total a = total (done ++ data) /\ total b = E2 0 0 (done ++ data).
Proof.
  induction n as [|n IH]; intros data sv s2v done Bd Bn L Lim L1 L2 T1 T2; cbn [simd_loop].
  - destruct data; [|discriminate]. rewrite app_nil_r. exists sv, s2v. auto.
  - set (c := firstn 32 data). set (tl := skipn 32 data).
    assert (Ed : data = c ++ tl) by (symmetry; apply firstn_skipn).
    assert (Lc : length c = 32%nat) by (unfold c; rewrite firstn_length; lia).
    assert (Lt : length tl = (32 * n)%nat) by (unfold tl; rewrite skipn_length; lia).
    assert (Bc : bytes c) by now apply bytes_firstn. assert (Bt : bytes tl) by now apply bytes_skipn.
    assert (Bdc : bytes (done ++ c)) by now apply Forall_app.
    pose proof (E2_bound _ Bdc) as EB. pose proof (total_bound _ Bdc) as TB.
    assert (Nl : nlen (done ++ c) <= 5536) by (unfold nlen; rewrite app_length; lia).
    assert (EB' : E2 0 0 (done ++ c) < P32 /\ total (done ++ c) < P32) by (unfold P32; nia).
    destruct EB' as [EB1 TB1]. clear EB TB Nl.
    rewrite E2_app, E2_lin, N.add_0_l in EB1. unfold nlen in EB1. rewrite Lc in EB1.
    rewrite total_app in TB1.
    destruct (maddubs_exact 16 c coeff Lc eq_refl Bc) as [M1 M2].
    { rewrite coeff_down. repeat constructor; discriminate. }
    rewrite coeff_down in M1 at 2. rewrite <- Lc, <- E2_dot in M1.
    destruct (madd1_exact 8 _ M2) as [N1 N2]; [unfold P32 in *; lia|]. rewrite M1 in N1.
    destruct (vadd_exact s2v (madd1 (maddubs c coeff))) as [V1 V2]; [congruence|unfold P32 in *; lia|].
    destruct (vshl5_exact sv) as [W1 W2]; [unfold P32 in *; lia|].
    destruct (vadd_exact (vadd s2v (madd1 (maddubs c coeff))) (vshl5 sv)) as [X1 X2]; [congruence|unfold P32 in *; lia|].
    destruct (sad_exact c Lc) as [S1 S2].
    destruct (vadd_exact sv (sad c)) as [Y1 Y2]; [congruence|unfold P32 in *; lia|].
    destruct (IH tl (vadd sv (sad c)) (vadd (vadd s2v (madd1 (maddubs c coeff))) (vshl5 sv)) (done ++ c))
      as (a & b & R & R1 & R2 & R3 & R4).
    + exact Bt.
    + exact Bdc.
    + exact Lt.
    + rewrite app_length. rewrite Ed, app_length in Lim. lia.
    + congruence.
    + congruence.
    + rewrite Y1, S1, total_app. lia.
    + rewrite X1, V1, W1, N1, T1, T2. rewrite E2_app, (E2_lin c (0 + total done)), N.add_0_l. unfold nlen. rewrite Lc. lia.
    + exists a, b. rewrite <- app_assoc, <- Ed in R3, R4. auto.
Qed.

Lemma simd_chunks_ok : forall fuel data s1 s2, bytes data -> s1 < MOD -> s2 < MOD -> (length data < fuel)%nat ->
  exists used rest s1' s2', simd_chunks fuel data s1 s2 = (rest, s1', s2') /\ data = used ++ rest /\
    (s1', s2') = steps (s1, s2) used /\ (length rest < 32)%nat.
Proof.
  induction fuel as [|fuel IH]; intros data s1 s2 B H1 H2 F; [lia|]. cbn [simd_chunks].
  destruct (Nat.leb_spec 32 (length data)) as [L|L].
  2:{ exists [], data, s1, s2. split; [reflexivity|]. split; [reflexivity|]. split; [|exact L].
      symmetry. apply steps_nil. split; assumption. }
  set (cl := Nat.min (length data - length data mod 32) CHUNK_SIMD).
  assert (C1 : (cl mod 32 = 0 /\ 32 <= cl <= length data /\ cl <= N.to_nat 5536)%nat).
  { subst cl. replace CHUNK_SIMD with (N.to_nat 5536) by reflexivity.
    pose proof (Nat.div_mod (length data) 32 ltac:(lia)) as D.
    pose proof (Nat.mod_upper_bound (length data) 32 ltac:(lia)).
    assert (E : (length data - length data mod 32 = 32 * (length data / 32))%nat) by lia. rewrite E.
    destruct (Nat.min_spec (32 * (length data / 32)) (N.to_nat 5536)) as [[M ->]|[M ->]].
    - rewrite Nat.mul_comm, Nat.mod_mul by lia. lia.
    - split; [reflexivity|]. lia. }
  destruct C1 as (C1 & C2 & C3). clearbody cl.
  set (c := firstn cl data). set (tl := skipn cl data).
  assert (Ed : data = c ++ tl) by (symmetry; apply firstn_skipn).
  assert (Lc : length c = cl) by (unfold c; rewrite firstn_length; lia).
  assert (Bc : bytes c) by now apply bytes_firstn. assert (Bt : bytes tl) by now apply bytes_skipn.
  assert (SL : forall n d sv s2v, (32 * n <= length d)%nat ->
            simd_loop n d sv s2v = simd_loop n (firstn (32 * n) d) sv s2v).
  { induction n as [|n IHn]; intros d sv s2v Ln; [reflexivity|]. cbn [simd_loop].
    replace (firstn 32 (firstn (32 * S n) d)) with (firstn 32 d) by (rewrite firstn_firstn; f_equal; lia).
    rewrite IHn by (rewrite skipn_length; lia).
    replace (skipn 32 (firstn (32 * S n) d)) with (firstn (32 * n) (skipn 32 d)).
    - reflexivity.
    - rewrite skipn_firstn_comm. f_equal. lia. }
  assert (Dv : cl = (32 * (cl / 32))%nat) by (pose proof (Nat.div_mod cl 32 ltac:(lia)); lia).
  rewrite SL by lia. rewrite <- Dv. fold c.
  destruct (simd_ok (cl / 32) c zero_v zero_v []) as (a & b & R & R1 & R2 & R3 & R4).
  { exact Bc. } { constructor. } { lia. } { cbn. lia. } { reflexivity. } { reflexivity. } { reflexivity. } { reflexivity. }
  cbn [app] in R3, R4. rewrite R.
  pose proof (E2_bound c Bc) as EB. pose proof (total_bound c Bc) as TB. unfold nlen in EB, TB. rewrite Lc in EB, TB.
  assert (NC : N.of_nat cl <= 5536) by lia. unfold MOD in H1, H2.
  assert (Big : s2 + s1 * N.of_nat cl + E2 0 0 c < P32).
  { unfold P32. assert (2 * E2 0 0 c <= 255 * 5536 * 5537) by nia.
    assert (s1 * N.of_nat cl <= 65520 * 5536) by nia. lia. }
  assert (Tot : total c < P32) by (unfold P32; lia).
  rewrite !reduce_exact by (try assumption; rewrite ?R3, ?R4; lia). rewrite R3, R4.
  rewrite (N.mod_small (s2 + s1 * N.of_nat cl)) by lia.
  rewrite (N.mod_small (s2 + s1 * N.of_nat cl + E2 0 0 c)) by lia.
  rewrite (N.mod_small (s1 + total c)) by (unfold P32; lia).
  destruct (steps_good (s1, s2) c) as [G1 G2]. unfold steps in G1, G2. cbn [fst snd] in G1, G2.
  rewrite E2_lin in G2. unfold nlen in G2. rewrite Lc in G2.
  replace (s2 + N.of_nat cl * s1 + E2 0 0 c) with (s2 + s1 * N.of_nat cl + E2 0 0 c) in G2 by lia.
  destruct (IH tl ((s1 + total c) mod MOD) ((s2 + s1 * N.of_nat cl + E2 0 0 c) mod MOD))
    as (used & rest & s1' & s2' & Q1 & Q2 & Q3 & Q4).
  { exact Bt. } { exact G1. } { exact G2. } { unfold tl. rewrite skipn_length. lia. }
  exists (c ++ used), rest, s1', s2'. split; [exact Q1|].
  split. { rewrite Ed, Q2 at 1. now rewrite app_assoc. }
  split; [|exact Q4]. rewrite Q3, <- steps_app. f_equal. unfold steps. cbn [fst snd]. f_equal.
  rewrite (E2_lin c s1 s2). unfold nlen. rewrite Lc. f_equal. lia.
Qed.

Lemma tail_ok data s1 s2 fuel : bytes data -> s1 < MOD -> s2 < MOD -> (length data < 32)%nat -> (length data < fuel)%nat ->
  tail_chunks fuel data s1 s2 = steps (s1, s2) data.
Proof.
  intros B H1 H2 L F. destruct fuel as [|fuel]; [lia|]. cbn [tail_chunks].
  destruct data as [|x d]; [symmetry; apply steps_nil; split; assumption|].
  set (data := x :: d) in *. unfold CHUNK.
  rewrite Nat.min_l by lia. rewrite firstn_all, skipn_all.
  pose proof (total_bound data B) as TB. pose proof (E2_bound_s data s1 s2 B) as EB.
  assert (NL : nlen data < 32) by (unfold nlen; lia). unfold MOD in H1, H2.
  rewrite bytes_loop_exact; [|exact B|unfold P32; lia|unfold P32; nia].
  destruct fuel; reflexivity.
Qed.

Lemma avx2_ok st l : good st -> bytes l -> adler32_update_avx2 st l = steps st l.
Proof.
  intros [G1 G2] B. destruct st as [s1 s2]. cbn [fst snd] in *. unfold adler32_update_avx2.
  rewrite !N.mod_small by (unfold MOD, P32 in *; lia).
  destruct (simd_chunks_ok (S (length l)) l s1 s2 B G1 G2) as (used & rest & a & b & R & R1 & R2 & R3); [lia|].
  rewrite R. destruct (steps_good (s1, s2) used) as [S1 S2]. rewrite <- R2 in S1, S2. cbn [fst snd] in S1, S2.
  assert (Br : bytes rest) by (rewrite R1 in B; now apply Forall_app in B).
  rewrite tail_ok; [|exact Br|exact S1|exact S2|exact R3|lia].
  rewrite R2, steps_app, <- R1. reflexivity.
Qed.

Lemma update_ok i st l : good st -> bytes l -> update i st l = Ok (steps st l).
Proof.
  intros G B. destruct i; cbn [update].
  - apply scalar_ok; auto. apply N.le_refl.
  - apply scalar_ok; auto. unfold P32. lia.
  - now rewrite avx2_ok.
Qed.

Lemma updates_ok i : forall chunks st, good st -> Forall bytes chunks ->
  updates i st chunks = Ok (steps st (concat chunks)).
Proof.
  induction chunks as [|c cs IH]; intros st G B; cbn [updates concat].
  - now rewrite steps_nil.
  - rewrite update_ok; [|exact G|exact (Forall_inv B)]. cbn [bind].
    rewrite IH; [|apply steps_good|exact (Forall_inv_tail B)]. now rewrite steps_app.
Qed.

(* ---- the specification ---- *)

Lemma sumB_E2 : forall l s, total (map (fun k => s + total (firstn k l)) (seq 1 (length l))) = E2 s 0 l.
Proof.
  induction l as [|b l IH]; intros s; [reflexivity|].
  cbn [length seq map total firstn E2]. rewrite E2_lin, <- seq_shift, map_map.
  assert (M : map (fun k => s + total (firstn (S k) (b :: l))) (seq 1 (length l)) =
              map (fun k => (s + b) + total (firstn k l)) (seq 1 (length l))).
  { apply map_ext. intros k. cbn [firstn total]. lia. }
  rewrite M, IH, (E2_lin l (s + b) 0). destruct l; cbn [firstn total]; lia.
Qed.

Lemma steps_spec l : steps adler_init l = (sumA l, sumB l).
Proof. unfold steps, adler_init, sumA, sumB. cbn [fst snd]. now rewrite sumB_E2. Qed.

Lemma finish_spec a b : a < MOD -> b < MOD -> checksum_finish (a, b) = a * 65536 + b.
Proof.
  unfold MOD, checksum_finish, P32. intros A B. cbn [fst snd]. rewrite N.shiftl_mul_pow2.
  change (2 ^ 16) with 65536.
  assert (D : N.land (a * 65536) b = 0).
  { apply N.bits_inj. intros k. rewrite N.land_spec, N.bits_0. change 65536 with (2 ^ 16).
    destruct (N.ltb_spec k 16) as [L|L].
    - rewrite N.mul_pow2_bits_low by exact L. reflexivity.
    - rewrite <- (N.mod_small b (2 ^ 16)) by (change (2 ^ 16) with 65536; lia).
      rewrite N.mod_pow2_bits_high by exact L. apply andb_false_r. }
  rewrite <- N.lxor_lor by exact D. rewrite <- N.add_nocarry_lxor by exact D. apply N.mod_small. lia.
Qed.
