(* The operators. *)
From Coq Require Import List ZArith NArith Arith Bool Lia.
From Verif Require Import Base IntrinModel IntrinSpec IntrinAddProofs IntrinProofs.
Import ListNotations.

Lemma length_ok : forall d, (- 2 ^ 63 <= d < 2 ^ 63)%Z -> ffi_array_length d = size_of d.
Proof.
  intros d H. unfold ffi_array_length, size_of. f_equal. destruct (Z.ltb_spec d 0) as [C|C].
  - assert (E : Z.shiftr d 63 = (-1)%Z).
    { rewrite Z.shiftr_div_pow2 by lia. symmetry. apply (Z.div_unique_pos d (2 ^ 63) (-1) (d + 2 ^ 63)); lia. }
    rewrite E. apply Z.lxor_m1_r.
  - assert (E : Z.shiftr d 63 = 0%Z) by (rewrite Z.shiftr_div_pow2 by lia; apply Z.div_small; lia).
    rewrite E. apply Z.lxor_0_r.
Qed.
Lemma size_lnot : forall n, size_of (Z.lnot (Z.of_nat n)) = n.
Proof.
  intros n. unfold size_of. pose proof (Z.lnot_involutive (Z.of_nat n)) as E. unfold Z.lnot in *.
  destruct (Z.ltb_spec (Z.pred (- Z.of_nat n)) 0); lia.
Qed.

Lemma valid_holds : forall s i, valid s i ->
  holds s (ptr s i) (ffi_array_length (ar s (i + 2))) (operand s i) /\ Forall std_ulogic (operand s i) /\
  length (operand s i) = ffi_array_length (ar s (i + 2)).
Proof.
  intros s i (P & B & F). rewrite length_ok by lia. split; [split; [exact P|reflexivity]|]. split; [exact F|].
  unfold operand. apply vec_length.
Qed.

Lemma return_vec_ok : forall s s1 p n l, step s s1 -> holds s1 p n l -> returns s (return_vec s1 p n) l.
Proof.
  intros s s1 p n l [_ _ N1 M1] H. pose proof (holds_length _ _ _ _ H) as Ll. destruct H as (P & V).
  unfold returns, return_vec, untouched, set_ar, upd. cbn [ar mm nx Nat.eqb]. rewrite Nat2Z.id, size_lnot, Ll.
  repeat split; auto. unfold Z.lnot. lia.
Qed.
Lemma return_null_ok : forall s s1, step s s1 -> returns s (return_null s1) [].
Proof.
  intros s s1 [_ _ N1 M1]. unfold returns, return_null, untouched, set_ar, upd. cbn [ar mm nx Nat.eqb].
  split; [split; assumption|]. split; [cbn; lia|]. split; [reflexivity|]. split; [reflexivity|]. split; [lia|congruence].
Qed.

(* ---- resizing, signed or not ---- *)
Definition rs (signed : bool) : nat -> list N -> list N := if signed then resize_s else resize_u.
Lemma rs_length : forall g n l, length (rs g n l) = n.
Proof. intros [] n l; [apply resize_s_length|apply resize_u_length]. Qed.
Lemma rs_meta : forall g n l, length l <= n -> l <> [] -> existsb meta (rs g n l) = existsb meta l.
Proof. intros [] n l H NE; [apply resize_s_meta|apply resize_u_meta]; assumption. Qed.
Lemma rs_std : forall g n l, Forall std_ulogic l -> Forall std_ulogic (rs g n l).
Proof. intros [] n l H; [apply std_resize_s|apply std_resize_u]; assumption. Qed.
Lemma rs_val : forall g n l, length l <= n -> l <> [] -> exists k, uval (rs g n l) = (num g l + k * 2 ^ Z.of_nat n)%Z.
Proof.
  intros [] n l H NE; cbn [rs num]; [apply resize_s_val; assumption|].
  exists 0%Z. rewrite resize_u_val by exact H. ring.
Qed.
Lemma rs_mem : forall (g : bool) s p n k l q s', holds s p n l -> 0 < k ->
  (if g then resize_signed else resize_unsigned) s p n k = (q, s') -> step s s' /\ holds s' q k (rs g k l).
Proof. intros [] s p n k l q s' H K E; [exact (resize_signed_ok _ _ _ _ _ _ _ H K E)|exact (resize_unsigned_ok _ _ _ _ _ _ _ H K E)]. Qed.

Lemma head_x : forall s p n l, holds s p n (to01 sl_X l) -> 0 < n -> (mm s p =? sl_X)%N = existsb meta l.
Proof.
  intros s p n l H K. pose proof (holds_length _ _ _ _ H) as Ll. rewrite to01_length in Ll. destruct H as (_ & V).
  destruct n as [|n]; [lia|]. rewrite vec_S in V. unfold to01 in V. destruct (existsb meta l).
  - rewrite Ll in V. injection V as V _. rewrite V. reflexivity.
  - destruct l as [|b l]; [discriminate|]. injection V as V _. rewrite V. destruct (high b); reflexivity.
Qed.
Lemma to01_known : forall x l, existsb meta l = false -> to01 x l = map (fun b => bit01 (high b)) l.
Proof. intros x l H. unfold to01. rewrite H. reflexivity. Qed.
Lemma to01_meta : forall x l, existsb meta l = true -> to01 x l = repeat x (length l).
Proof. intros x l H. unfold to01. rewrite H. reflexivity. Qed.

Lemma fresh : forall s n p s', tlab_alloc s n 8 = (p, s') ->
  step s s' /\ mm s' = mm s /\ p + n <= nx s' /\ forall q k l, holds s q k l -> q + k <= p.
Proof.
  intros s n p s' E. destruct (alloc_ok _ _ _ _ E) as (P & A & B & C). repeat split; try assumption; try apply P.
  intros q k l [H _]. lia.
Qed.

Lemma length_nil : forall (l : list N), (length l =? 0) = false -> l <> [].
Proof. intros [|b l] H; [discriminate|congruence]. Qed.

Theorem addsub_ok : forall g minus s, valid s 1 -> valid s 4 ->
  exists s' r, ieee_addsub g minus s = Ok s' /\ returns s s' r /\ warns s' = warns s /\
    operator_result (Nat.max (length (operand s 1)) (length (operand s 4)))
      (if minus then num g (operand s 1) - num g (operand s 4) else num g (operand s 1) + num g (operand s 4))%Z
      (operand s 1) (operand s 4) r.
Proof.
  intros g minus s V1 V4. destruct (valid_holds s 1 V1) as (H1 & F1 & L1). destruct (valid_holds s 4 V4) as (H4 & F4 & L4).
  set (L := operand s 1) in *. set (R := operand s 4) in *. unfold operator_result. rewrite L1, L4.
  change (1 + 2) with 3 in *. change (4 + 2) with 6 in *.
  unfold ieee_addsub. set (ln := ffi_array_length (ar s 3)) in *. set (rn := ffi_array_length (ar s 6)) in *.
  destruct ((ln =? 0) || (rn =? 0)) eqn:NZ.
  { exists (return_null s), []. split; [reflexivity|]. split; [apply return_null_ok, step_refl|]. split; reflexivity. }
  apply orb_false_iff in NZ. destruct NZ as (NL & NR).
  assert (NEL : L <> []) by (apply length_nil; rewrite L1; exact NL).
  assert (NER : R <> []) by (apply length_nil; rewrite L4; exact NR).
  apply Nat.eqb_neq in NL, NR. set (n := Nat.max ln rn). assert (N0 : 0 < n) by lia. cbv zeta.
  destruct ((if g then resize_signed else resize_unsigned) s (ptr s 1) ln n) as [p1 s1] eqn:E1.
  destruct (rs_mem _ _ _ _ _ _ _ _ H1 N0 E1) as (P1 & K1).
  assert (A1 : ptr s1 4 = ptr s 4) by (unfold ptr; rewrite (st_ar _ _ P1); reflexivity). rewrite A1.
  destruct ((if g then resize_signed else resize_unsigned) s1 (ptr s 4) rn n) as [p2 s2] eqn:E2.
  destruct (rs_mem _ _ _ _ _ _ _ _ (holds_step _ _ _ _ _ P1 H4) N0 E2) as (P2 & K2).
  apply (holds_step _ _ _ _ _ P2) in K1.
  destruct (to_01 s2 p1 n sl_X) as [p3 s3] eqn:E3.
  destruct (to_01_ok _ _ _ _ _ _ _ K1 (rs_std _ _ _ F1) E3) as (P3 & K3).
  apply (holds_step _ _ _ _ _ P3) in K2.
  destruct (to_01 s3 p2 n sl_X) as [p4 s4] eqn:E4.
  destruct (to_01_ok _ _ _ _ _ _ _ K2 (rs_std _ _ _ F4) E4) as (P4 & K4).
  apply (holds_step _ _ _ _ _ P4) in K3.
  rewrite (head_x _ _ _ _ K3 N0), (head_x _ _ _ _ K4 N0).
  rewrite !rs_meta by (assumption || lia). rewrite existsb_app.
  assert (P : step s s4) by (eapply step_trans; [exact P1|]; eapply step_trans; [exact P2|]; eapply step_trans; eassumption).
  destruct (existsb meta L) eqn:ML.
  { exists (return_vec s4 p3 n), (repeat the_X n). split; [reflexivity|]. split; [|split; [exact (st_warns _ _ P)|reflexivity]].
    apply return_vec_ok; [exact P|]. rewrite to01_meta, rs_length in K3 by (rewrite rs_meta by (assumption || lia); exact ML). exact K3. }
  destruct (existsb meta R) eqn:MR.
  { exists (return_vec s4 p4 n), (repeat the_X n). split; [reflexivity|]. split; [|split; [exact (st_warns _ _ P)|reflexivity]].
    apply return_vec_ok; [exact P|]. rewrite to01_meta, rs_length in K4 by (rewrite rs_meta by (assumption || lia); exact MR). exact K4. }
  cbn [orb].
  rewrite to01_known in K3, K4 by (rewrite rs_meta by (assumption || lia); assumption).
  destruct (tlab_alloc s4 n 8) as [res s5] eqn:E5. destruct (fresh _ _ _ _ E5) as (P5 & M5 & B5 & Fr).
  assert (AL : apart p3 res n) by (left; exact (Fr _ _ _ K3)). assert (AR : apart p4 res n) by (left; exact (Fr _ _ _ K4)).
  assert (NF : nx s4 <= res) by (destruct (alloc_ok _ _ _ _ E5) as (_ & A & _); exact A).
  destruct (holds_step _ _ _ _ _ P5 K3) as (_ & VL). destruct (holds_step _ _ _ _ _ P5 K4) as (_ & VR).
  assert (CL : clean (vec (mm s5) p3 n)) by (rewrite VL; apply map01_clean).
  assert (CR : clean (vec (mm s5) p4 n)) by (rewrite VR; apply map01_clean).
  assert (UL : uval (vec (mm s5) p3 n) = uval (rs g n L)) by (rewrite VL; apply map01_val).
  assert (UR : uval (vec (mm s5) p4 n) = uval (rs g n R)) by (rewrite VR; apply map01_val).
  destruct (rs_val g n L ltac:(lia) NEL) as (kl & EL). destruct (rs_val g n R ltac:(lia) NER) as (kr & ER).
  assert (Fin : forall m v, outside (mm s5) m res n -> clean (vec m res n) -> uval (vec m res n) = v ->
    returns s (return_vec (set_mm s5 m) res n) (vec m res n) /\ warns (return_vec (set_mm s5 m) res n) = warns s /\
    length (vec m res n) = n /\ clean (vec m res n) /\ uval (vec m res n) = v).
  { intros m v O C U. split; [|split; [|split; [apply vec_length|split; assumption]]].
    - apply return_vec_ok; [|split; [exact B5|reflexivity]]. apply set_mm_step; [eapply step_trans; eassumption|].
      intros a Ha. rewrite O by (pose proof (st_nx _ _ P); lia). rewrite M5. apply (st_mm _ _ P). exact Ha.
    - cbn. rewrite (st_warns _ _ P5). exact (st_warns _ _ P). }
  destruct minus.
  - destruct (invert_ok n (mm s5) p4 0 res) as (m & Em & Om & Vm).
    { intros j Hj. apply (clean_at _ _ _ CR). lia. }
    { right. exact AR. }
    rewrite Em. cbn [bind]. rewrite Nat.add_0_r in Om. destruct (inverted _ _ _ _ _ CR Vm) as (Ci & Ui).
    assert (VL' : vec m p3 n = vec (mm s5) p3 n) by (apply vec_ext; intros i Hi; apply Om; destruct AL; lia).
    destruct (add_ok m p3 res n 1 res ltac:(lia) (or_intror AL) (or_introl eq_refl) ltac:(rewrite VL'; exact CL) Ci) as (O & C & U).
    eexists. eexists. split; [reflexivity|]. apply Fin.
    + intros a Ha. rewrite O by exact Ha. apply Om. exact Ha.
    + exact C.
    + rewrite U, VL', Ui, UL, UR, EL, ER. change (Z.of_N 1) with 1%Z.
      rewrite <- (Z_mod_plus_full (num g L - num g R) (kl - kr + 1)). f_equal. ring.
  - destruct (add_ok (mm s5) p3 p4 n 0 res ltac:(lia) (or_intror AL) (or_intror AR) CL CR) as (O & C & U).
    eexists. eexists. split; [reflexivity|]. apply Fin.
    + exact O.
    + exact C.
    + rewrite U, UL, UR, EL, ER. change (Z.of_N 0) with 0%Z.
      rewrite <- (Z_mod_plus_full (num g L + num g R) (kl + kr)). f_equal. ring.
Qed.
