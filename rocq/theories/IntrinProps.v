(* C54 to C57: the native operators of IEEE.NUMERIC_STD. *)
From Coq Require Import List ZArith NArith Arith Bool Lia.
From Verif Require Import Base IntrinModel IntrinSpec IntrinAddProofs IntrinProofs IntrinOpProofs IntrinMulProofs IntrinConvProofs.
Import ListNotations.

(* C54: "+" and "-" of two UNSIGNED or two SIGNED. *)
Theorem C54_plus : forall signed s, valid s 1 -> valid s 4 ->
  exists s' r, ieee_addsub signed false s = Ok s' /\ returns s s' r /\ warns s' = warns s /\
    operator_result (Nat.max (length (operand s 1)) (length (operand s 4)))
      (num signed (operand s 1) + num signed (operand s 4)) (operand s 1) (operand s 4) r.
Proof. intros g s. exact (addsub_ok g false s). Qed.

Theorem C54_minus : forall signed s, valid s 1 -> valid s 4 ->
  exists s' r, ieee_addsub signed true s = Ok s' /\ returns s s' r /\ warns s' = warns s /\
    operator_result (Nat.max (length (operand s 1)) (length (operand s 4)))
      (num signed (operand s 1) - num signed (operand s 4)) (operand s 1) (operand s 4) r.
Proof. intros g s. exact (addsub_ok g true s). Qed.

(* C54: "+" of an UNSIGNED and a NATURAL, in both orders. *)
Theorem C54_plus_natural : forall s, valid s 1 -> (0 <= ar s 4)%Z ->
  exists r, returns s (ieee_plus_unsigned_natural s) r /\
    operator_result (length (operand s 1)) (uval (operand s 1) + ar s 4) (operand s 1) (operand s 1) r /\
    (operand s 1 <> [] -> warns (ieee_plus_unsigned_natural s) =
       if (ar s 4 <? 2 ^ Z.of_nat (length (operand s 1)))%Z then warns s else S (warns s)).
Proof. exact plus_natural_ok. Qed.

Theorem C54_natural_plus : forall s, valid s 2 -> (0 <= ar s 1)%Z ->
  exists r, returns s (ieee_plus_natural_unsigned s) r /\
    operator_result (length (operand s 2)) (ar s 1 + uval (operand s 2)) (operand s 2) (operand s 2) r /\
    (operand s 2 <> [] -> warns (ieee_plus_natural_unsigned s) =
       if (ar s 1 <? 2 ^ Z.of_nat (length (operand s 2)))%Z then warns s else S (warns s)).
Proof.
  intros s V H. rewrite Z.add_comm.
  exact (plus_natural_ok (commute_vector_scalar s) V H).
Qed.

(* With a null vector the warning is spurious: TO_UNSIGNED (R, 0) returns before it. *)
Definition null_plus : st := St (upd (upd (upd (upd (fun _ => 0%Z) 1 8%Z) 2 0%Z) 3 (-1)%Z) 4 5%Z) (fun _ => 0%N) 16 0.
Theorem C54_null_warning_refuted : exists s, valid s 1 /\ operand s 1 = [] /\ ar s 4 = 5%Z /\
  warns (ieee_to_unsigned (St (upd (upd (ar s) 1 5%Z) 2 0%Z) (mm s) (nx s) (warns s))) = warns s /\
  warns (ieee_plus_unsigned_natural s) = S (warns s).
Proof.
  exists null_plus. split; [|repeat split; vm_compute; reflexivity].
  split; [vm_compute; lia|]. split; [vm_compute; split; congruence|constructor].
Qed.

(* C55: "*" of two UNSIGNED or two SIGNED is exact. *)
Lemma sval_range : forall l, l <> [] -> (- 2 ^ (Z.of_nat (length l) - 1) <= sval l < 2 ^ (Z.of_nat (length l) - 1))%Z.
Proof.
  intros [|b l] NE; [congruence|]. cbn [sval length]. replace (Z.of_nat (S (length l)) - 1)%Z with (Z.of_nat (length l)) by lia.
  pose proof (uval_range l). pose proof (weight_01 b). nia.
Qed.
Lemma prod_range : forall (g : bool) L R, L <> [] -> R <> [] -> let n := length L + length R in
  if g then (- 2 ^ (Z.of_nat n - 1) <= num g L * num g R < 2 ^ (Z.of_nat n - 1))%Z
  else (0 <= num g L * num g R < 2 ^ Z.of_nat n)%Z.
Proof.
  intros g L R NL NR n. destruct g; cbn [num].
  - pose proof (sval_range L NL). pose proof (sval_range R NR).
    assert (E : (2 ^ (Z.of_nat n - 1) = 2 * (2 ^ (Z.of_nat (length L) - 1) * 2 ^ (Z.of_nat (length R) - 1)))%Z).
    { assert (1 <= length L) by (destruct L; [congruence|cbn; lia]). assert (1 <= length R) by (destruct R; [congruence|cbn; lia]).
      rewrite <- Z.pow_add_r, <- Z.pow_succ_r by lia. f_equal. unfold n. lia. }
    rewrite E. set (a := sval L) in *. set (b := sval R) in *. set (A := (2 ^ (Z.of_nat (length L) - 1))%Z) in *. set (B := (2 ^ (Z.of_nat (length R) - 1))%Z) in *.
    assert (0 < A)%Z by lia. assert (0 < B)%Z by lia. nia.
  - pose proof (uval_range L). pose proof (uval_range R). unfold n. rewrite Nat2Z.inj_add, Z.pow_add_r by lia. nia.
Qed.
Lemma only_one : forall M h a b k, (M = 2 * h)%Z -> (- h <= a < h)%Z -> (- h <= b < h)%Z -> (a = b + M * k)%Z -> a = b.
Proof.
  intros M h a b k -> A B E. assert (k = 0)%Z; [|subst k; lia].
  destruct (Z.lt_trichotomy k 0) as [K|[K|K]]; [|exact K|]; nia.
Qed.
Theorem C55_times : forall signed s, valid s 1 -> valid s 4 ->
  exists s' r, ieee_mul signed s = Ok s' /\ returns s s' r /\ warns s' = warns s /\
    if (length (operand s 1) =? 0) || (length (operand s 4) =? 0) then r = []
    else length r = length (operand s 1) + length (operand s 4) /\
      if existsb meta (operand s 1 ++ operand s 4) then r = repeat the_X (length r)
      else clean r /\ num signed r = (num signed (operand s 1) * num signed (operand s 4))%Z.
Proof.
  intros g s V1 V4. destruct (mul_ok g s V1 V4) as (s' & r & E & Rt & W & O). exists s', r. split; [exact E|]. split; [exact Rt|]. split; [exact W|].
  unfold operator_result in O. destruct ((length (operand s 1) =? 0) || (length (operand s 4) =? 0)) eqn:Z0; [exact O|].
  apply orb_false_iff in Z0. destruct Z0 as (Z1 & Z4). apply length_nil in Z1, Z4.
  destruct (existsb meta (operand s 1 ++ operand s 4)).
  - subst r. rewrite repeat_length. split; reflexivity.
  - destruct O as (Lr & C & U). split; [exact Lr|]. split; [exact C|].
    pose proof (prod_range g _ _ Z1 Z4) as PR. cbv zeta in PR. rewrite <- Lr in *.
    set (v := (num g (operand s 1) * num g (operand s 4))%Z) in *. clearbody v. destruct g; cbn [num].
    + assert (NE : r <> []).
      { intros ->. destruct (operand s 1); [congruence|]. cbn in Lr. lia. }
      pose proof (sval_range r NE) as SR. destruct (uval_sval r) as (k & EK). pose proof (pow_pos (length r)) as PP.
      assert (PS : (2 ^ Z.of_nat (length r) = 2 * 2 ^ (Z.of_nat (length r) - 1))%Z).
      { rewrite <- Z.pow_succ_r by (destruct r; [congruence|cbn; lia]). f_equal. lia. }
      pose proof (Z.div_mod v (2 ^ Z.of_nat (length r)) ltac:(lia)) as DM. rewrite <- U, EK in DM.
      symmetry. apply (only_one _ _ v (sval r) (v / 2 ^ Z.of_nat (length r) + k) PS PR SR).
      rewrite DM at 1. ring.
    + rewrite U. apply Z.mod_small. exact PR.
Qed.

(* C56: the ordering operators on UNSIGNED. *)
Theorem C56_compare : forall o s, valid s 1 -> valid s 4 ->
  let s' := ieee_compare_unsigned o s in
  nx s' = nx s /\ (forall a, a < nx s -> mm s' a = mm s a) /\
  if (length (operand s 1) =? 0) || (length (operand s 4) =? 0) || existsb meta (operand s 1 ++ operand s 4)
  then ar s' 0 = 0%Z /\ warns s' = S (warns s)
  else ar s' 0 = Z.b2z (relation o (uval (operand s 1)) (uval (operand s 4))) /\ warns s' = warns s.
Proof. exact cmp_ok. Qed.

(* C57: TO_UNSIGNED, TO_SIGNED, RESIZE and TO_01. *)
Theorem C57_to_unsigned : forall s, (0 <= ar s 1)%Z -> (0 <= ar s 2)%Z ->
  exists r, returns s (ieee_to_unsigned s) r /\ length r = Z.to_nat (ar s 2) /\ clean r /\
    uval r = (ar s 1 mod 2 ^ ar s 2)%Z /\
    warns (ieee_to_unsigned s) = if (ar s 2 <? 1)%Z || (ar s 1 <? 2 ^ ar s 2)%Z then warns s else S (warns s).
Proof. exact to_unsigned_call. Qed.

Theorem C57_to_signed : forall s, (0 <= ar s 2)%Z ->
  exists r, returns s (ieee_to_signed s) r /\ length r = Z.to_nat (ar s 2) /\ clean r /\
    uval r = (ar s 1 mod 2 ^ ar s 2)%Z /\
    warns (ieee_to_signed s) =
      if (ar s 2 <? 1)%Z || ((- 2 ^ (ar s 2 - 1) <=? ar s 1)%Z && (ar s 1 <? 2 ^ (ar s 2 - 1))%Z) then warns s else S (warns s).
Proof. exact to_signed_call. Qed.

(* So an integer in range survives the round trip. *)
Theorem C57_signed_exact : forall s, (1 <= ar s 2)%Z -> (- 2 ^ (ar s 2 - 1) <= ar s 1 < 2 ^ (ar s 2 - 1))%Z ->
  exists r, returns s (ieee_to_signed s) r /\ sval r = ar s 1 /\ warns (ieee_to_signed s) = warns s.
Proof.
  intros s H R. destruct (to_signed_call s ltac:(lia)) as (r & Rt & Lr & C & U & W). exists r. split; [exact Rt|]. split.
  - assert (NE : r <> []) by (intros ->; cbn in Lr; lia).
    pose proof (sval_range r NE) as SR. destruct (uval_sval r) as (k & EK). rewrite Lr, Z2Nat.id in * by lia.
    assert (PS : (2 ^ ar s 2 = 2 * 2 ^ (ar s 2 - 1))%Z) by (rewrite <- Z.pow_succ_r by lia; f_equal; lia).
    assert (PP : (0 < 2 ^ (ar s 2 - 1))%Z) by (apply Z.pow_pos_nonneg; lia).
    pose proof (Z.div_mod (ar s 1) (2 ^ ar s 2) ltac:(lia)) as DM. rewrite <- U, EK in DM.
    symmetry. apply (only_one _ _ (ar s 1) (sval r) (ar s 1 / 2 ^ ar s 2 + k) PS R SR).
    rewrite DM at 1. ring.
  - rewrite W. destruct R as (R1 & R2). apply Z.leb_le in R1. apply Z.ltb_lt in R2. rewrite R1, R2, orb_true_r. reflexivity.
Qed.

Theorem C57_resize_unsigned : forall s, valid s 1 -> (0 <= ar s 4)%Z ->
  returns s (ieee_resize_unsigned s) (resize_u (Z.to_nat (ar s 4)) (operand s 1)) /\ warns (ieee_resize_unsigned s) = warns s.
Proof. exact (resize_call false). Qed.
Theorem C57_resize_signed : forall s, valid s 1 -> (0 <= ar s 4)%Z ->
  returns s (ieee_resize_signed s) (resize_s (Z.to_nat (ar s 4)) (operand s 1)) /\ warns (ieee_resize_signed s) = warns s.
Proof. exact (resize_call true). Qed.
(* Growing keeps the number. *)
Theorem C57_resize_value : forall n l, l <> [] -> length l <= n ->
  uval (resize_u n l) = uval l /\ sval (resize_s n l) = sval l.
Proof.
  intros n l NE H. split; [apply resize_u_val; exact H|].
  destruct l as [|b l]; [congruence|]. cbn [length] in H. destruct n as [|n]; [lia|]. cbn [resize_s sval].
  replace (length l - n) with 0 by lia. cbn [skipn]. rewrite uval_app, app_length, repeat_length.
  replace (n - length l + length l) with n by lia.
  assert (P : (2 ^ Z.of_nat n = 2 ^ Z.of_nat (n - length l) * 2 ^ Z.of_nat (length l))%Z) by (rewrite <- Z.pow_add_r by lia; f_equal; lia).
  rewrite P. destruct (high b) eqn:Hb.
  - rewrite uval_ones by (unfold weight; rewrite Hb; reflexivity). unfold weight. rewrite Hb. ring.
  - assert (E : uval (repeat b (n - length l)) = 0%Z).
    { generalize (n - length l). intros k. induction k as [|k IH]; [reflexivity|]. cbn [repeat uval]. rewrite IH. unfold weight. rewrite Hb. reflexivity. }
    rewrite E. unfold weight. rewrite Hb. ring.
Qed.

Theorem C57_to_01 : forall s, valid s 1 -> (0 <= ar s 4)%Z ->
  returns s (ieee_to_01 s) (to01 (Z.to_N (ar s 4)) (operand s 1)) /\
  warns (ieee_to_01 s) = if length (operand s 1) =? 0 then S (warns s) else warns s.
Proof. exact to_01_call. Qed.

(* ---- cases ---- *)

(* Two vectors in memory: at 8 "1H01011L01" (10 elements), at 24 "L11" (3 elements). *)
Definition two (a b : list N) : st :=
  St (upd (upd (upd (upd (fun _ => 0%Z) 1 8%Z) 3 (Z.of_nat (length a))) 4 24%Z) 6 (Z.lnot (Z.of_nat (length b))))
     (fun x => if 24 <=? x then nth (x - 24) b 0%N else if 8 <=? x then nth (x - 8) a 0%N else 0%N) 40 0.
Definition da : list N := [3; 7; 2; 3; 2; 3; 3; 6; 2; 3]%N.
Definition db : list N := [6; 3; 3]%N.
Definition dx : list N := [3; 4; 3]%N.
Example demo_valid : valid (two da db) 1 /\ valid (two da db) 4 /\ operand (two da db) 1 = da /\ operand (two da db) 4 = db /\
  valid (two da dx) 4 /\ uval da = 857%Z /\ sval da = (-167)%Z /\ uval db = 3%Z.
Proof.
  assert (F : forall l, forallb (fun b => b <? 9)%N l = true -> Forall std_ulogic l).
  { intros l H. apply Forall_forall. intros x Hx. rewrite forallb_forall in H. apply H in Hx. apply N.ltb_lt in Hx. exact Hx. }
  split; [|split; [|split; [reflexivity|split; [reflexivity|split; [|repeat split; vm_compute; reflexivity]]]]];
    (split; [vm_compute; lia|]; split; [vm_compute; split; congruence|]; apply F; vm_compute; reflexivity).
Qed.
Definition answer (r : res st) : list N := match r with Ok s => operand (St (upd (upd (fun _ => 0%Z) 0 (ar s 0)) 2 (ar s 2)) (mm s) (nx s) (warns s)) 0 | Fault => [] end.
Example demo_plus : uval (answer (ieee_addsub false false (two da db))) = 860%Z /\
  uval (answer (ieee_addsub true true (two db da))) = 170%Z /\ answer (ieee_addsub false true (two da dx)) = repeat 1%N 10.
Proof. repeat split; vm_compute; reflexivity. Qed.
Example demo_times : uval (answer (ieee_mul false (two da db))) = 2571%Z /\ sval (answer (ieee_mul true (two da db))) = (-501)%Z.
Proof. repeat split; vm_compute; reflexivity. Qed.
Example demo_compare : ar (ieee_compare_unsigned Less (two db da)) 0 = 1%Z /\ ar (ieee_compare_unsigned Geq (two db da)) 0 = 0%Z /\
  warns (ieee_compare_unsigned Leq (two da dx)) = 1.
Proof. repeat split; vm_compute; reflexivity. Qed.
Definition ints (a n : Z) : st := St (upd (upd (fun _ => 0%Z) 1 a) 2 n) (fun _ => 0%N) 24 0.
Example demo_convert : uval (answer (Ok (ieee_to_unsigned (ints 1000 10)))) = 1000%Z /\ warns (ieee_to_unsigned (ints 1024 10)) = 1 /\
  sval (answer (Ok (ieee_to_signed (ints (-512) 10)))) = (-512)%Z /\ warns (ieee_to_signed (ints (-512) 10)) = 0 /\ warns (ieee_to_signed (ints (-513) 10)) = 1.
Proof. repeat split; vm_compute; reflexivity. Qed.

Print Assumptions C54_plus.
Print Assumptions C54_minus.
Print Assumptions C54_plus_natural.
Print Assumptions C54_natural_plus.
Print Assumptions C54_null_warning_refuted.
Print Assumptions C55_times.
Print Assumptions C56_compare.
Print Assumptions C57_to_unsigned.
Print Assumptions C57_to_signed.
Print Assumptions C57_signed_exact.
Print Assumptions C57_resize_unsigned.
Print Assumptions C57_resize_signed.
Print Assumptions C57_resize_value.
Print Assumptions C57_to_01.
