(* C90: the operators of Verilog on four-state vectors. *)
From Coq Require Import List ZArith Bool Lia.
From Verif Require Import Base VlogSpec VlogModel VlogProofs.
Import ListNotations.
Local Open Scope Z_scope.

(* Exclusive or and negation follow their tables, also with x and z. *)
Theorem C90_xor_not : forall a b l,
  v_xor a b = s_xor a b /\ v_not a = s_not a /\ v_not_bits l = map s_not l.
Proof.
  intros. split; [apply xor_exact|split; [apply not_exact|]].
  unfold v_not_bits. apply map_ext. apply not_exact.
Qed.

(* And on vectors of any lengths: right for known bits, and x at worst otherwise. *)
Theorem C90_and_partial : forall l r,
  Forall2 vague (v_and_bits l r) (bitwise s_and l r) /\
  (all_known l = true -> all_known r = true -> v_and_bits l r = bitwise s_and l r).
Proof. intros. split; [apply and_bits_vague|apply and_bits_known]. Qed.
(* Or: of vectors of one length only *)
Theorem C90_or_partial : forall l r, length l = length r ->
  Forall2 vague (v_or_bits l r) (bitwise s_or l r) /\
  (all_known l = true -> all_known r = true -> v_or_bits l r = bitwise s_or l r).
Proof. intros. split; [apply or_bits_vague|apply or_bits_known]; auto. Qed.

(* x in a place the table decides *)
Theorem C90_x_decided_refuted :
  (exists l r, v_and_bits l r <> bitwise s_and l r) /\
  (exists l r, length l = length r /\ v_or_bits l r <> bitwise s_or l r).
Proof. split; [exists [L0], [LX]|exists [L1], [LX]]; vm_compute; [|split; [reflexivity|]]; discriminate. Qed.
(* The upper bits of the longer operand of an or are lost. *)
Theorem C90_or_short_refuted : exists l r,
  all_known l = true /\ all_known r = true /\
  number (v_or_bits l r) = 1 /\ number (bitwise s_or l r) = 3.
Proof. exists [L0; L1], [L1]. vm_compute. auto. Qed.

(* Logical negation and or: right for known bits, x otherwise *)
Theorem C90_logical_partial : forall l r,
  vague (v_log_not l) (s_log_not l) /\ vague (v_log_or l r) (s_log_or l r) /\
  (all_known l = true -> v_log_not l = s_log_not l) /\
  (all_known l = true -> all_known r = true -> v_log_or l r = s_log_or l r).
Proof.
  intros l r. rewrite log_not_is, log_or_is.
  assert (N : all_known l = true -> of_bool (negb (ones l)) = s_log_not l).
  { intros A. unfold s_log_not. rewrite truth_known by auto. destruct (ones l); reflexivity. }
  assert (O : all_known l = true -> all_known r = true -> of_bool (ones l || ones r) = s_log_or l r).
  { intros A B. unfold s_log_or. rewrite !truth_known by auto. destruct (ones l), (ones r); reflexivity. }
  split; [|split; [|split]].
  - destruct (all_known l); [right|left]; auto.
  - destruct (all_known l), (all_known r); [right|left|left|left]; auto.
  - intros A. rewrite A. auto.
  - intros A B. rewrite A, B. auto.
Qed.
(* A conjunction is never true. *)
Theorem C90_log_and_refuted :
  (forall l r, v_log_and l r <> L1) /\
  (exists l r, all_known l = true /\ all_known r = true /\ s_log_and l r = L1).
Proof.
  split.
  - intros l r. rewrite log_and_is. destruct (all_known l && all_known r); discriminate.
  - exists [L1], [L1]. vm_compute. auto.
Qed.

(* Reductions *)
Theorem C90_reduce_partial : forall l,
  (all_known l = true -> and_reduce l = s_and_reduce l /\ nand_reduce l = s_not (s_and_reduce l) /\
     or_reduce l = s_or_reduce l /\ nor_reduce l = s_not (s_or_reduce l)) /\
  (all_known l = false -> and_reduce l = LX /\ or_reduce l = LX) /\
  (length l <> 1%nat \/ all_known l = true ->
     xor_reduce l = s_xor_reduce l /\ xnor_reduce l = s_not (s_xor_reduce l)).
Proof.
  intros l. unfold nand_reduce, nor_reduce, xnor_reduce. rewrite !not_exact, and_reduce_is, or_reduce_is.
  split; [|split].
  - intros A. rewrite A, s_and_reduce_is, s_or_reduce_is by auto. auto.
  - intros A. rewrite A. auto.
  - intros H. assert (E : xor_reduce l = s_xor_reduce l).
    { destruct (Nat.eq_dec (length l) 1) as [N|N]; [|apply xor_reduce_is; auto].
      destruct H as [H|H]; [lia|]. destruct l as [|a [|b l]]; cbn in N; try lia.
      destruct a; cbn in H; (discriminate || reflexivity). }
    rewrite E. auto.
Qed.
(* The exclusive or of a single z is z. *)
Theorem C90_reduce_refuted :
  and_reduce [L0; LX] = LX /\ s_and_reduce [L0; LX] = L0 /\
  or_reduce [L1; LX] = LX /\ s_or_reduce [L1; LX] = L1 /\
  xor_reduce [LZ] = LZ /\ s_xor_reduce [LZ] = LX.
Proof. vm_compute. auto 6. Qed.

(* Resizing keeps the number modulo the new size. *)
Theorem C90_resize : forall l n,
  length (resize l n) = n /\ number (resize l n) = number l mod 2 ^ Z.of_nat n /\
  firstn (Nat.min n (length l)) (resize l n) = firstn n l.
Proof.
  intros. split; [apply resize_length|split; [apply number_resize|]].
  unfold resize. destruct (Nat.eqb_spec n (length l)) as [->|N]; [rewrite Nat.min_id; reflexivity|].
  destruct (Nat.ltb_spec n (length l)).
  - rewrite Nat.min_l by lia. rewrite firstn_firstn, Nat.min_id. reflexivity.
  - rewrite Nat.min_r by lia. rewrite firstn_app, Nat.sub_diag, firstn_all, firstn_O, app_nil_r.
    symmetry. apply firstn_all2. lia.
Qed.

(* Addition and negation of known vectors are those of the numbers they stand for, modulo the
   size of the result.  If there are unknown bits, every bit that is not x is right whatever
   those bits are; the standard makes the whole result x. *)
Theorem C90_add_partial : forall l r l' r',
  Forall2 settles l l' -> Forall2 settles r r' ->
  Forall2 vague (v_add l r) (s_add l' r') /\
  (all_known l = true -> all_known r = true -> v_add l r = s_add l r).
Proof.
  assert (E : forall l r, all_known l = true -> all_known r = true -> v_add l r = s_add l r).
  { intros l r A B. unfold v_add, s_add, wider. rewrite A, B. cbn [andb]. set (n := Nat.max (length l) (length r)).
    rewrite add_loop; rewrite ?resize_length, ?known_resize by (subst n; lia); auto.
    apply bits_mod. rewrite !number_resize. cbn [number]. rewrite Z.mul_0_r, !Z.add_0_r.
    symmetry. rewrite <- Z.add_mod by (apply Z.pow_nonzero; lia). reflexivity. }
  intros l r l' r' L R. destruct (settles_list _ _ L) as (LB & LK & LL), (settles_list _ _ R) as (RB & RK & RL).
  split; [|apply E]. rewrite <- E by auto. unfold v_add. rewrite LL, RL.
  apply add_mono; [apply below_resize; auto; lia|apply below_resize; auto; lia|right; reflexivity].
Qed.
Theorem C90_neg_partial : forall l l', Forall2 settles l l' ->
  Forall2 vague (v_neg l) (s_neg l') /\ (all_known l = true -> v_neg l = s_neg l).
Proof.
  assert (E : forall l, all_known l = true -> v_neg l = s_neg l).
  { intros l A. unfold v_neg, s_neg. rewrite A, neg_loop_is by auto. apply bits_mod. cbn [number].
    replace (2 ^ Z.of_nat (length l) - 1 - number l + (1 + 2 * 0)) with (- number l + 1 * 2 ^ Z.of_nat (length l)) by lia.
    apply Z.mod_add. apply Z.pow_nonzero; lia. }
  intros l l' L. destruct (settles_list _ _ L) as (LB & LK & LL). split; [|apply E].
  rewrite <- E by auto. apply neg_mono; auto. right; reflexivity.
Qed.
Theorem C90_add_x_refuted : exists l r, v_add l r = [L1; LX] /\ s_add l r = [LX; LX].
Proof. exists [L1; LX], [L0; L0]. vm_compute. auto. Qed.

(* Equality *)
Theorem C90_equal_partial : forall l r, vague (v_equal l r) (s_equal l r) /\
  (all_known l = true -> all_known r = true -> v_equal l r = of_bool (number l =? number r) /\ v_equal l r = s_equal l r).
Proof.
  intros. unfold v_equal, s_equal. rewrite equal_loop_is by reflexivity. split.
  - destruct (all_known l && all_known r); [right|left]; auto.
  - intros A B. rewrite A, B. cbn [andb]. split; [|reflexivity]. rewrite differ_number by auto.
    destruct (number l =? number r); reflexivity.
Qed.
Theorem C90_equal_x_refuted : exists l r, v_equal l r = LX /\ s_equal l r = L0.
Proof. exists [L0; LX], [L1; L0]. vm_compute. auto. Qed.
(* Case equality is exact. *)
Theorem C90_case_equal : forall l r, v_case_equal l r = s_case_equal l r.
Proof. exact case_equal_is. Qed.

(* The relations compare the numbers of known vectors, as long as each fits in the size of the
   other. *)
Theorem C90_less_partial : forall l r, all_known l = true -> all_known r = true ->
  number l < 2 ^ Z.of_nat (length r) -> number r < 2 ^ Z.of_nat (length l) ->
  v_less l r = s_less l r /\ v_greater l r = s_less r l /\
  v_less_equal l r = of_bool (number l <=? number r) /\ v_greater_equal l r = of_bool (number r <=? number l).
Proof.
  intros l r A B L R. unfold v_less_equal, v_greater_equal, s_less. rewrite A, B. cbn [andb].
  rewrite less_is, greater_is by auto.
  destruct (Z.leb_spec (2 ^ Z.of_nat (length r)) (number l)); [lia|].
  destruct (Z.leb_spec (2 ^ Z.of_nat (length l)) (number r)); [lia|].
  destruct (Z.ltb_spec (number l) (number r)), (Z.ltb_spec (number r) (number l)),
    (Z.leb_spec (number l) (number r)), (Z.leb_spec (number r) (number l)); cbn; auto; lia.
Qed.
Theorem C90_less_same_size : forall l r, length l = length r -> all_known l = true -> all_known r = true ->
  v_less l r = s_less l r /\ v_greater l r = s_less r l.
Proof.
  intros l r E A B. pose proof (number_nonneg l) as L. pose proof (number_nonneg r) as R.
  destruct (C90_less_partial l r A B) as (P & Q & _); [rewrite <- E; lia|rewrite E; lia|auto].
Qed.
(* If not, the answer is always the wrong one. *)
Theorem C90_less_sizes_refuted :
  (forall l r, all_known l = true -> all_known r = true ->
     2 ^ Z.of_nat (length r) <= number l \/ 2 ^ Z.of_nat (length l) <= number r ->
     v_less l r = s_not (s_less l r) /\ v_greater l r = s_not (s_less r l)) /\
  (exists l r, all_known l = true /\ all_known r = true /\ number l = 2 /\ number r = 1 /\
     v_less l r = L1 /\ v_greater l r = L0).
Proof.
  split.
  - intros l r A B H. pose proof (number_nonneg l) as L. pose proof (number_nonneg r) as R.
    unfold s_less. rewrite A, B. cbn [andb]. rewrite less_is, greater_is by auto.
    destruct (Z.leb_spec (2 ^ Z.of_nat (length r)) (number l)) as [P|P].
    + destruct (Z.ltb_spec (number l) (number r)); [lia|]. destruct (Z.ltb_spec (number r) (number l)); [auto|lia].
    + destruct H as [H|H]; [lia|]. destruct (Z.leb_spec (2 ^ Z.of_nat (length l)) (number r)); [|lia].
      destruct (Z.ltb_spec (number r) (number l)); [lia|]. destruct (Z.ltb_spec (number l) (number r)); [auto|lia].
  - exists [L0; L1], [L1]. vm_compute. auto 6.
Qed.
(* Comparisons with x are decided. *)
Theorem C90_less_x_refuted : exists l r, length l = length r /\ v_less l r = L0 /\ v_greater_equal l r = L1 /\ s_less l r = LX.
Proof. exists [LX], [L1]. vm_compute. auto. Qed.

(* Integers: two's complement one way, unsigned the other *)
Theorem C90_integer : forall z n l,
  to_logic z n = bits n z /\
  (number l < 2 ^ 63 -> to_integer l = Ok (number l)) /\
  (2 ^ 63 <= number l -> to_integer l = Fault).
Proof.
  intros. rewrite to_integer_is. split; [apply to_logic_is|].
  split; intros; destruct (Z.ltb_spec (number l) (2 ^ 63)); (reflexivity || lia).
Qed.
Theorem C90_round_trip : forall z n, (n <= 63)%nat -> to_integer (to_logic z n) = Ok (z mod 2 ^ Z.of_nat n).
Proof.
  intros z n N. rewrite to_integer_is, to_logic_is, number_bits.
  assert (P : 0 < 2 ^ Z.of_nat n) by (apply Z.pow_pos_nonneg; lia). pose proof (Z.mod_pos_bound z _ P).
  assert (2 ^ Z.of_nat n <= 2 ^ 63) by (apply Z.pow_le_mono_r; lia).
  destruct (Z.ltb_spec (z mod 2 ^ Z.of_nat n) (2 ^ 63)); [reflexivity|lia].
Qed.

(* Nets *)
Theorem C90_net : forall v s0 s1, 0 <= s0 < 8 -> 0 <= s1 < 8 ->
  decode_net (encode_net v s0 s1) = (v, s0, s1) /\ 0 <= encode_net v s0 s1 < 256 /\
  to_net_strength v (encode_net LX s0 s1) = encode_net v s0 s1.
Proof.
  intros v s0 s1 A B. split; [apply decode_encode; auto|]. unfold encode_net, to_net_strength.
  destruct v; cbn [pos]; lia.
Qed.
(* Drivers of one strength: right if none but the first is x and the first is not z. *)
Theorem C90_wire_partial : forall b l, b <> LZ -> ~ In LX l ->
  net_value (resolve_wire (map to_net (b :: l))) = s_wire (b :: l).
Proof.
  intros b l B X. unfold resolve_wire. cbn [map].
  replace (decode_net (to_net b)) with (b, St, St) by (destruct b; reflexivity).
  rewrite resolve_strong by auto. unfold net_value. rewrite decode_encode by (unfold St; lia).
  cbn [fst]. rewrite wired_is. reflexivity.
Qed.
(* A z in front hides all others; an x that is not in front is ignored. *)
Theorem C90_wire_refuted :
  (forall l, net_value (resolve_wire (map to_net (LZ :: l))) = LZ) /\
  net_value (resolve_wire (map to_net [L1; LZ])) = L1 /\ s_wire [LZ; L1] = L1 /\
  net_value (resolve_wire (map to_net [L1; LX])) = L1 /\ s_wire [L1; LX] = LX.
Proof.
  split; [|vm_compute; auto].
  intros l. unfold resolve_wire. cbn [map]. change (decode_net (to_net LZ)) with (LZ, St, St).
  assert (H : fold_left resolve_step (map to_net l) (LZ, St, St) = (LZ, St, St)).
  { induction l as [|b l IH]; [reflexivity|]. cbn [map fold_left].
    replace (resolve_step (LZ, St, St) (to_net b)) with (LZ, St, St) by (destruct b; reflexivity). exact IH. }
  rewrite H. reflexivity.
Qed.

(* Subtraction and inequality have no function to call. *)
Theorem C90_missing_refuted : forall l r,
  lower_binary BMinus l r = Fault /\ lower_binary BNeq l r = Fault /\
  (forall op, op <> BMinus -> op <> BNeq -> lower_binary op l r <> Fault).
Proof.
  intros. split; [reflexivity|split; [reflexivity|]]. intros [] A B; cbn; congruence.
Qed.

(* The operator of a Verilog expression, on known operands of one size.  Missing: unknown bits,
   operands of different sizes, and the three operators refuted here. *)
Theorem C90_binary_partial : forall op l r,
  op <> BMinus -> op <> BNeq -> op <> BLogAnd ->
  length l = length r -> all_known l = true -> all_known r = true ->
  lower_binary op l r = Ok (s_binary op l r).
Proof.
  intros op l r M N G E A B.
  destruct (C90_less_same_size l r E A B) as [P Q].
  destruct op; cbn [lower_binary s_binary]; try congruence; do 2 f_equal.
  - apply C90_and_partial; auto.
  - apply C90_or_partial; auto.
  - apply C90_logical_partial; auto.
  - apply C90_case_equal.
  - f_equal. apply C90_case_equal.
  - apply C90_equal_partial; auto.
  - assert (S0 : forall m, all_known m = true -> Forall2 settles m m).
    { intros m. induction m as [|b m IH]; intros K; constructor; apply all_known_cons in K; [split|apply IH]; tauto. }
    apply (C90_add_partial l r l r); auto.
  - unfold v_less_equal. rewrite not_exact. congruence.
  - unfold v_greater_equal. rewrite not_exact. congruence.
Qed.

(* The string of a vector begins with its last bit. *)
Theorem C90_to_string_refuted :
  (forall l, to_string l = rev (written l)) /\ (exists l, to_string l <> written l).
Proof.
  split; [|exists [L0; L1]; discriminate].
  intros l. unfold written. rewrite rev_involutive. unfold to_string, at_. apply nth_ext with (d := LX) (d' := LX).
  - rewrite map_length, seq_length. reflexivity.
  - intros n N. rewrite map_length, seq_length in N.
    rewrite (nth_indep _ LX (nth 0 l LX)) by (rewrite map_length, seq_length; auto).
    change (nth 0 l LX) with ((fun i => nth i l LX) 0%nat). rewrite map_nth, seq_nth by auto. reflexivity.
Qed.

(* The hypotheses are met. *)
Example C90_settles : Forall2 settles [L1; LX; LZ] [L1; L0; L1].
Proof. repeat constructor; discriminate. Qed.
Example C90_add_known : v_add [L1; L1; L0; L1] [L1; L1] = [L0; L1; L1; L1] /\ number [L1; L1; L0; L1] = 11.
Proof. vm_compute. auto. Qed.
Example C90_less_known : v_less [L1; L0; L0] [L0; L1] = L1 /\ v_greater [L1; L1] [L1; L0] = L1.
Proof. vm_compute. auto. Qed.
Example C90_wire_known : resolve_wire (map to_net [L1; LZ; L1]) = to_net L1 /\ s_wire [L1; LZ; L1] = L1.
Proof. vm_compute. auto. Qed.
Example C90_minus_one : to_logic (-1) 4 = [L1; L1; L1; L1] /\ to_integer (to_logic (-1) 4) = Ok 15.
Proof. vm_compute. auto. Qed.

Print Assumptions C90_xor_not.
Print Assumptions C90_and_partial.
Print Assumptions C90_or_partial.
Print Assumptions C90_x_decided_refuted.
Print Assumptions C90_or_short_refuted.
Print Assumptions C90_logical_partial.
Print Assumptions C90_log_and_refuted.
Print Assumptions C90_reduce_partial.
Print Assumptions C90_reduce_refuted.
Print Assumptions C90_resize.
Print Assumptions C90_add_partial.
Print Assumptions C90_neg_partial.
Print Assumptions C90_add_x_refuted.
Print Assumptions C90_equal_partial.
Print Assumptions C90_equal_x_refuted.
Print Assumptions C90_case_equal.
Print Assumptions C90_less_partial.
Print Assumptions C90_less_same_size.
Print Assumptions C90_less_sizes_refuted.
Print Assumptions C90_less_x_refuted.
Print Assumptions C90_integer.
Print Assumptions C90_round_trip.
Print Assumptions C90_net.
Print Assumptions C90_wire_partial.
Print Assumptions C90_wire_refuted.
Print Assumptions C90_missing_refuted.
Print Assumptions C90_to_string_refuted.
Print Assumptions C90_binary_partial.
