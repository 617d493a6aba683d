(* C59: the native operators of the Synopsys packages. *)
From Coq Require Import List ZArith NArith Arith Bool Lia.
From Verif Require Import Base IntrinModel IntrinSpec IntrinProofs IntrinOpProofs IntrinProps IntrinLogicModel SynopsysModel SynopsysSpec SynopsysProofs SynopsysOpProofs.
Import ListNotations.

(* C59: "+" of UNSIGNED and of SIGNED, "-" of UNSIGNED. *)
Theorem C59_plus : forall signed s, valid s 1 -> valid s 4 -> operand s 1 <> [] -> operand s 4 <> [] ->
  exists s' r, synopsys_addsub signed false s = Ok (Done s') /\ returns s s' r /\
    warns s' = warned (operand s 1) (operand s 4) (warns s) /\
    operator_result (Nat.max (length (operand s 1)) (length (operand s 4)))
      (num signed (operand s 1) + num signed (operand s 4)) (operand s 1) (operand s 4) r.
Proof. intros g s. apply (syn_addsub_ok g false s). discriminate. Qed.
Theorem C59_minus : forall s, valid s 1 -> valid s 4 -> operand s 1 <> [] -> operand s 4 <> [] ->
  exists s' r, synopsys_addsub false true s = Ok (Done s') /\ returns s s' r /\
    warns s' = warned (operand s 1) (operand s 4) (warns s) /\
    operator_result (Nat.max (length (operand s 1)) (length (operand s 4)))
      (uval (operand s 1) - uval (operand s 4)) (operand s 1) (operand s 4) r.
Proof. intros s. apply (syn_addsub_ok false true s). reflexivity. Qed.

(* C59: "+" of an UNSIGNED and a single STD_ULOGIC, in both orders. *)
Lemma fresh_one : forall s b p s1, tlab_alloc s 1 8 = (p, s1) -> let s2 := set_mm s1 (put (mm s1) p b) in
  nx s <= p /\ p + 1 <= nx s2 /\ nx s <= nx s2 /\ (forall a, a < nx s -> mm s2 a = mm s a) /\ mm s2 p = b /\ ar s2 = ar s /\ warns s2 = warns s.
Proof.
  intros s b p s1 E. destruct (alloc_ok _ _ _ _ E) as (P & A & B & M). cbn. repeat split; try lia.
  - intros a Ha. rewrite put_off by lia. rewrite M. reflexivity.
  - apply put_at.
  - exact (st_ar _ _ P).
  - exact (st_warns _ _ P).
Qed.
(* What an operator returns does not depend on an argument put in fresh memory before. *)
Lemma returns_before : forall s s1 s' r, nx s <= nx s1 -> (forall a, a < nx s -> mm s1 a = mm s a) -> returns s1 s' r -> returns s s' r.
Proof.
  intros s s1 s' r N M ((N' & M') & Rest). split; [|exact Rest]. split; [lia|]. intros a Ha. rewrite M' by lia. apply M. exact Ha.
Qed.
Lemma valid_before : forall s s1 i, valid s i -> nx s <= nx s1 -> (forall a, a < nx s -> mm s1 a = mm s a) -> forall j,
  ar s1 j = ar s i -> ar s1 (j + 2) = ar s (i + 2) -> valid s1 j /\ operand s1 j = operand s i.
Proof.
  intros s s1 i (P & B & F) N M j E1 E2.
  assert (EO : operand s1 j = operand s i).
  { unfold operand. rewrite E1, E2. apply vec_ext. intros k Hk. apply M. lia. }
  split; [|exact EO]. split; [rewrite E1, E2; lia|]. rewrite EO, E2. split; assumption.
Qed.
Theorem C59_plus_logic : forall s, valid s 1 -> operand s 1 <> [] -> (0 <= ar s 4 < 9)%Z ->
  exists s' r, plus_unsigned_logic s = Ok (Done s') /\ returns s s' r /\
    warns s' = warned (operand s 1) [Z.to_N (ar s 4)] (warns s) /\
    operator_result (length (operand s 1)) (uval (operand s 1) + weight (Z.to_N (ar s 4))) (operand s 1) [Z.to_N (ar s 4)] r.
Proof.
  intros s V NE HB. unfold plus_unsigned_logic. destruct (tlab_alloc s 1 8) as [p s1] eqn:E.
  rewrite Z.mod_small by lia. set (b := Z.to_N (ar s 4)). destruct (fresh_one s b p s1 E) as (P1 & P2 & P3 & P4 & P5 & P6 & P7).
  set (s2 := set_mm s1 (put (mm s1) p b)) in *. set (s3 := set_ar (set_ar (set_ar s2 4 (Z.of_nat p)) 5 0%Z) 6 1%Z).
  destruct (valid_before s s3 1 V P3 P4 1) as (V1 & O1).
  { unfold s3, set_ar, upd. cbn [ar Nat.eqb]. rewrite P6. reflexivity. } { unfold s3, set_ar, upd. cbn [ar Nat.eqb Nat.add]. rewrite P6. reflexivity. }
  assert (O4 : operand s3 4 = [b]).
  { unfold operand, s3, set_ar, upd. cbn [ar mm Nat.eqb Nat.add]. rewrite Nat2Z.id. change (size_of 1) with 1. unfold vec. cbn. rewrite Nat.add_0_r, put_at. reflexivity. }
  assert (V4 : valid s3 4).
  { split; [|split].
    - unfold s3, set_ar, upd. cbn [ar nx Nat.eqb Nat.add]. rewrite Nat2Z.id. change (size_of 1) with 1. exact P2.
    - unfold s3, set_ar, upd. cbn [ar Nat.eqb Nat.add]. lia.
    - rewrite O4. constructor; [unfold std_ulogic, b; lia|constructor]. }
  destruct (C59_plus false s3 V1 V4) as (s' & r & Es & Rt & W & O); [rewrite O1; exact NE|rewrite O4; discriminate|].
  exists s', r. rewrite O1, O4 in *. split; [exact Es|]. split; [exact (returns_before s s3 s' r P3 P4 Rt)|]. split; [rewrite W; cbn; rewrite <- P7; reflexivity|].
  cbn [length num] in O. replace (Nat.max (length (operand s 1)) 1) with (length (operand s 1)) in O by (destruct (operand s 1); [congruence|cbn; lia]).
  replace (uval (operand s 1) + weight b)%Z with (uval (operand s 1) + uval [b])%Z by (cbn [uval length]; change (2 ^ Z.of_nat 0)%Z with 1%Z; lia). exact O.
Qed.
Theorem C59_logic_plus : forall s, valid s 2 -> operand s 2 <> [] -> (0 <= ar s 1 < 9)%Z ->
  exists s' r, plus_logic_unsigned s = Ok (Done s') /\ returns s s' r /\
    warns s' = warned [Z.to_N (ar s 1)] (operand s 2) (warns s) /\
    operator_result (length (operand s 2)) (weight (Z.to_N (ar s 1)) + uval (operand s 2)) [Z.to_N (ar s 1)] (operand s 2) r.
Proof.
  intros s V NE HB. unfold plus_logic_unsigned. destruct (tlab_alloc s 1 8) as [p s1] eqn:E.
  rewrite Z.mod_small by lia. set (b := Z.to_N (ar s 1)). destruct (fresh_one s b p s1 E) as (P1 & P2 & P3 & P4 & P5 & P6 & P7).
  set (s2 := set_mm s1 (put (mm s1) p b)) in *. cbv zeta.
  match goal with |- context [synopsys_addsub false false ?t] => set (s3 := t) end.
  assert (A3 : ar s3 1 = Z.of_nat p /\ ar s3 3 = 1%Z /\ ar s3 4 = ar s 2 /\ ar s3 6 = ar s 4).
  { unfold s3, set_ar, upd. cbn [ar Nat.eqb]. rewrite P6. repeat split. }
  destruct A3 as (A1 & A3 & A4 & A6).
  destruct (valid_before s s3 2 V P3 P4 4 A4 A6) as (V4 & O4).
  assert (O1 : operand s3 1 = [b]).
  { unfold operand. cbn [Nat.add]. rewrite A1, A3, Nat2Z.id. change (size_of 1) with 1. unfold vec. cbn. rewrite Nat.add_0_r, put_at. reflexivity. }
  assert (V1 : valid s3 1).
  { split; [|split].
    - cbn [Nat.add]. rewrite A1, A3, Nat2Z.id. change (size_of 1) with 1. exact P2.
    - cbn [Nat.add]. rewrite A3. lia.
    - rewrite O1. constructor; [unfold std_ulogic, b; lia|constructor]. }
  destruct (C59_plus false s3 V1 V4) as (s' & r & Es & Rt & W & O); [rewrite O1; discriminate|rewrite O4; exact NE|].
  exists s', r. rewrite O1, O4 in *. split; [exact Es|]. split; [exact (returns_before s s3 s' r P3 P4 Rt)|]. split; [rewrite W; cbn; rewrite <- P7; reflexivity|].
  cbn [length num] in O. replace (Nat.max 1 (length (operand s 2))) with (length (operand s 2)) in O by (destruct (operand s 2); [congruence|cbn; lia]).
  replace (weight b + uval (operand s 2))%Z with (uval [b] + uval (operand s 2))%Z by (cbn [uval length]; change (2 ^ Z.of_nat 0)%Z with 1%Z; lia). exact O.
Qed.

(* C59: "*" of UNSIGNED and of SIGNED is exact. *)
Theorem C59_times : forall signed s, valid s 1 -> valid s 4 -> operand s 1 <> [] -> operand s 4 <> [] ->
  exists s' r, synopsys_mul signed s = Ok (Done s') /\ returns s s' r /\
    warns s' = warned (operand s 1) (operand s 4) (warns s) /\
    length r = length (operand s 1) + length (operand s 4) /\
    if existsb meta (operand s 1 ++ operand s 4) then r = repeat the_X (length r)
    else clean r /\ num signed r = (num signed (operand s 1) * num signed (operand s 4))%Z.
Proof.
  intros g s V1 V4 NL NR. destruct (syn_mul_ok g s V1 V4 NL NR) as (s' & r & E & Rt & W & O). exists s', r. split; [exact E|]. split; [exact Rt|]. split; [exact W|].
  unfold operator_result in O.
  assert (ZL : (length (operand s 1) =? 0) = false) by (destruct (operand s 1); [congruence|reflexivity]).
  assert (ZR : (length (operand s 4) =? 0) = false) by (destruct (operand s 4); [congruence|reflexivity]).
  rewrite ZL, ZR in O. cbn [orb] in O. apply Nat.eqb_neq in ZL, ZR.
  destruct (existsb meta (operand s 1 ++ operand s 4)).
  - subst r. rewrite repeat_length. split; reflexivity.
  - destruct O as (Lr & C & U). split; [exact Lr|]. split; [exact C|].
    assert (NE : r <> []) by (intros ->; cbn in Lr; lia).
    apply (range_cong g (length r)); [lia|apply num_range; [exact NE|lia]| |].
    + rewrite Lr. pose proof (prod_range g _ _ NL NR) as PR. cbv zeta in PR. destruct g; exact PR.
    + rewrite <- Lr in U. set (v := (num g (operand s 1) * num g (operand s 4))%Z) in *.
      pose proof (pow_pos (length r)). pose proof (Z.div_mod v (2 ^ Z.of_nat (length r)) ltac:(lia)) as DM. rewrite <- U in DM.
      destruct g; cbn [num].
      * destruct (uval_sval r) as (k & EK). exists (- (v / 2 ^ Z.of_nat (length r)) - k)%Z. lia.
      * exists (- (v / 2 ^ Z.of_nat (length r)))%Z. lia.
Qed.

(* C59: "=" of UNSIGNED, and of SIGNED when no weak sign is extended. *)
Theorem C59_equal_unsigned : forall s, valid s 1 -> valid s 4 -> operand s 1 <> [] -> operand s 4 <> [] ->
  exists s', synopsys_eql false s = Done s' /\ nx s' = nx s /\ (forall a, a < nx s -> mm s' a = mm s a) /\
    ar s' 0 = Z.b2z (syn_equal false (operand s 1) (operand s 4)) /\ warns s' = warned (operand s 1) (operand s 4) (warns s).
Proof. intros s V1 V4 N1 N4. apply (syn_eql_ok false s V1 V4 N1 N4). discriminate. Qed.
Theorem C59_equal_signed_partial : forall s, valid s 1 -> valid s 4 -> operand s 1 <> [] -> operand s 4 <> [] ->
  strong_sign (operand s 1) (operand s 4) ->
  exists s', synopsys_eql true s = Done s' /\ nx s' = nx s /\ (forall a, a < nx s -> mm s' a = mm s a) /\
    ar s' 0 = Z.b2z (syn_equal true (operand s 1) (operand s 4)) /\ warns s' = warned (operand s 1) (operand s 4) (warns s).
Proof. intros s V1 V4 N1 N4 SS. apply (syn_eql_ok true s V1 V4 N1 N4). intros _. exact SS. Qed.

(* Two null operands are left to the interpreter. *)
Theorem C59_both_null : forall signed minus s, valid s 1 -> valid s 4 -> operand s 1 = [] -> operand s 4 = [] ->
  synopsys_addsub signed minus s = Ok Failure /\ synopsys_mul signed s = Ok Failure /\ synopsys_eql signed s = Failure.
Proof.
  intros g minus s V1 V4 E1 E4. destruct (valid_holds s 1 V1) as (_ & _ & L1). destruct (valid_holds s 4 V4) as (_ & _ & L4).
  rewrite E1 in L1. rewrite E4 in L4. cbn [length Nat.add] in L1, L4. unfold synopsys_addsub, synopsys_mul, synopsys_eql. cbn [Nat.add].
  rewrite <- L1, <- L4. repeat split.
Qed.

(* "*" leaves already one null operand to the package body. *)
Theorem C59_times_null : forall signed s, valid s 1 -> valid s 4 -> operand s 1 = [] \/ operand s 4 = [] ->
  synopsys_mul signed s = Ok Failure.
Proof.
  intros g s V1 V4 H. destruct (valid_holds s 1 V1) as (_ & _ & L1). destruct (valid_holds s 4 V4) as (_ & _ & L4).
  unfold synopsys_mul. cbn [Nat.add] in L1, L4. rewrite <- L1, <- L4.
  destruct H as [E|E]; rewrite E; cbn [length Nat.eqb]; [reflexivity|]. rewrite orb_true_r. reflexivity.
Qed.

(* SIGNED'("H1") = SIGNED'("111") is FALSE although both are -1: the sign is extended
   with 'H'. *)
Definition weak_sign : st := two [7; 3]%N [3; 3; 3]%N.
Lemma std_dec : forall l, forallb (fun b => b <? 9)%N l = true -> Forall std_ulogic l.
Proof. intros l H. apply Forall_forall. intros x Hx. rewrite forallb_forall in H. apply H in Hx. apply N.ltb_lt in Hx. exact Hx. Qed.
Theorem C59_equal_signed_refuted : exists s s', valid s 1 /\ valid s 4 /\ operand s 1 = [7; 3]%N /\ operand s 4 = [3; 3; 3]%N /\
  sval (operand s 1) = (-1)%Z /\ sval (operand s 4) = (-1)%Z /\ synopsys_eql true s = Done s' /\ ar s' 0 = 0%Z.
Proof.
  exists weak_sign. eexists. split; [|split; [|split; [reflexivity|split; [reflexivity|split; [reflexivity|split; [reflexivity|split; [reflexivity|vm_compute; reflexivity]]]]]]];
    (split; [vm_compute; lia|]; split; [vm_compute; split; congruence|]; apply std_dec; vm_compute; reflexivity).
Qed.

(* With one null operand the result depends on memory not in use: here the byte after
   the allocated vector. *)
Definition one_null (junk : N) : st :=
  let s := two [] [3; 3; 3; 3; 2; 2; 2; 2]%N in St (ar s) (fun a => if a =? 56 then junk else mm s a) (nx s) (warns s).
Theorem C59_null_refuted : exists s t s' t', valid s 1 /\ valid s 4 /\ operand s 1 = [] /\ operand s 4 <> [] /\
  ar t = ar s /\ nx t = nx s /\ warns t = warns s /\ (forall a, a < nx s -> mm t a = mm s a) /\
  synopsys_addsub false false s = Ok (Done s') /\ synopsys_addsub false false t = Ok (Done t') /\
  answer (Ok s') = [3; 3; 3; 3; 2; 2; 2; 2]%N /\ answer (Ok t') = repeat the_X 8.
Proof.
  exists (one_null 0), (one_null 1). eexists. eexists.
  split; [|split; [|split; [vm_compute; reflexivity|split; [vm_compute; discriminate|
    split; [reflexivity|split; [reflexivity|split; [reflexivity|split; [|split; [reflexivity|split; [reflexivity|split; vm_compute; reflexivity]]]]]]]]]].
  - split; [vm_compute; lia|]. split; [vm_compute; split; congruence|constructor].
  - split; [vm_compute; lia|]. split; [vm_compute; split; congruence|]. apply std_dec. vm_compute. reflexivity.
  - intros a Ha. cbn in *. destruct (Nat.eqb_spec a 56); [lia|reflexivity].
Qed.

(* ---- cases ---- *)
Definition got (r : res outcome) : list N := match r with Ok (Done s) => answer (Ok s) | _ => [] end.
Example demo_59 : valid (two da db) 1 /\ valid (two da db) 4 /\ operand (two da db) 1 = da /\ operand (two da db) 4 = db /\
  uval (got (synopsys_addsub false false (two da db))) = 860%Z /\ uval (got (synopsys_addsub false true (two da db))) = 854%Z /\
  sval (got (synopsys_addsub true false (two da db))) = (-164)%Z /\ got (synopsys_addsub true false (two da dx)) = repeat 1%N 10 /\
  uval (got (synopsys_mul false (two da db))) = 2571%Z /\ sval (got (synopsys_mul true (two da db))) = (-501)%Z.
Proof. destruct demo_valid as (A & B & C & D & _). repeat (split; [assumption|]). repeat split; vm_compute; reflexivity. Qed.
Definition said (r : outcome) : option (Z * nat) := match r with Done s => Some (ar s 0, warns s) | Failure => None end.
Example demo_59_eql : strong_sign [3; 7]%N [3; 3; 3]%N /\
  said (synopsys_eql true (two [3; 7]%N [3; 3; 3]%N)) = Some (1%Z, 0) /\
  said (synopsys_eql false (two [3; 7]%N [6; 3; 3]%N)) = Some (1%Z, 0) /\
  said (synopsys_eql false (two [3; 8]%N [0; 3; 3]%N)) = Some (1%Z, 2).
Proof. split; [split; cbn; lia|]. repeat split; vm_compute; reflexivity. Qed.

Print Assumptions C59_plus.
Print Assumptions C59_minus.
Print Assumptions C59_plus_logic.
Print Assumptions C59_logic_plus.
Print Assumptions C59_times.
Print Assumptions C59_equal_unsigned.
Print Assumptions C59_equal_signed_partial.
Print Assumptions C59_both_null.
Print Assumptions C59_times_null.
Print Assumptions C59_equal_signed_refuted.
Print Assumptions C59_null_refuted.
