(* C91: ranges in generated code. *)
From Coq Require Import List ZArith Bool Lia.
From Verif Require Import Base RangeSpec RangeModel RangeProofs.
From Verif Require JitModel ArithModel.
Import ListNotations.
Local Open Scope Z_scope.

(* The ranges covered: all those of a type of 32 bits *)
Theorem C91_narrow : forall l r d, - 2 ^ 31 <= l < 2 ^ 31 -> - 2 ^ 31 <= r < 2 ^ 31 -> narrow (Range l r d).
Proof. intros. unfold narrow, word. cbn [r_left r_right]. lia. Qed.

(* The values of a range, in words: each value that belongs to it, once, from left to right. *)
Theorem C91_values : forall r,
  (forall i, In i (values r) <-> belongs r i) /\ NoDup (values r) /\ Z.of_nat (length (values r)) = size r /\
  (forall k, 0 <= k < size r -> nth (Z.to_nat k) (values r) 0 = match r_dir r with To => r_left r + k | Downto => r_left r - k end).
Proof.
  intros r. split; [apply values_in|]. split; [|split; [apply values_length|]].
  - unfold values. apply FinFun.Injective_map_NoDup; [|apply seq_NoDup].
    intros a b. unfold nth_value. destruct (r_dir r); lia.
  - intros k K. unfold values. rewrite (nth_indep _ 0 (nth_value r (Z.of_nat 0))) by (rewrite map_length, seq_length; lia).
    rewrite (map_nth (fun k => nth_value r (Z.of_nat k))), seq_nth by lia. unfold nth_value. rewrite Nat.add_0_l, Z2Nat.id by lia. reflexivity.
Qed.

(* The descriptor of an array gives back the bounds it was made of. *)
Theorem C91_bounds_partial : forall r, narrow r ->
  let d := op_wrap (r_left r) (r_right r) (code (r_dir r)) in
  uarray_left d = r_left r /\ uarray_dir d = code (r_dir r) /\ uarray_len d = size r /\
  (~ is_null r -> uarray_right d = r_right r).
Proof.
  intros r N. cbv zeta. split; [reflexivity|]. split; [apply desc_dir; auto|]. split; [apply desc_len; auto|].
  intros X. rewrite desc_right_is by auto. destruct (Z.eqb_spec (size r) 0) as [E|E]; [|reflexivity].
  exfalso. apply X, size_zero, E.
Qed.
(* But not the right bound of a null range: 1 to -5 becomes 1 to 0. *)
Theorem C91_null_right_refuted : exists r, narrow r /\
  uarray_right (op_wrap (r_left r) (r_right r) (code (r_dir r))) <> r_right r.
Proof. exists (Range 1 (-5) To). split; [apply C91_narrow; lia|]. vm_compute. discriminate. Qed.
(* And with bounds of 64 bits a null range may come out with two elements and the range of all
   values with none. *)
Theorem C91_wide_refuted :
  (exists r, word (r_left r) /\ word (r_right r) /\ is_null r /\
     uarray_len (op_wrap (r_left r) (r_right r) (code (r_dir r))) = 2) /\
  (exists r, word (r_left r) /\ word (r_right r) /\ size r = 2 ^ 64 /\
     op_range_length (r_left r) (r_right r) (code (r_dir r)) = 0).
Proof.
  split.
  - exists (Range (2 ^ 63 - 1) (- 2 ^ 63) To). unfold word. cbn [r_left r_right r_dir]. split; [lia|]. split; [lia|]. split; [|reflexivity].
    apply size_zero. reflexivity.
  - exists (Range (- 2 ^ 63) (2 ^ 63 - 1) To). unfold word. cbn [r_left r_right r_dir]. split; [lia|]. split; [lia|]. split; reflexivity.
Qed.

(* Whether a range is null, and its length, folded at compile time or not *)
Theorem C91_null : forall r kl kr kd,
  knows kl (r_left r) -> knows kr (r_right r) -> knows kd (code (r_dir r)) ->
  emit_range_null kl kr kd (r_left r) (r_right r) (code (r_dir r)) = true <-> is_null r.
Proof.
  intros r kl kr kd [L _] [R _] [_ D]. unfold emit_range_null.
  destruct (const kd) as [d|]; [|apply null_is]. rewrite (D d eq_refl). rewrite size_zero. unfold size, RANGE_TO, RANGE_DOWNTO.
  destruct (r_dir r); cbn [code Z.eqb Pos.eqb andb].
  - destruct (Z.ltb_spec (high kr) (low kl)); [split; auto; lia|].
    destruct (Z.leb_spec (high kl) (low kr)); [split; [discriminate|lia]|]. rewrite Z.ltb_lt. lia.
  - destruct (Z.ltb_spec (high kl) (low kr)); [split; auto; lia|].
    destruct (Z.leb_spec (high kr) (low kl)); [split; [discriminate|lia]|]. rewrite Z.ltb_lt. lia.
Qed.
Theorem C91_length_partial : forall r kl kr kd, narrow r ->
  knows kl (r_left r) -> knows kr (r_right r) -> knows kd (code (r_dir r)) ->
  emit_range_length kl kr kd (r_left r) (r_right r) (code (r_dir r)) = Ok (size r).
Proof.
  intros r kl kr kd N [_ L] [_ R] [_ D].
  assert (X : op_range_length (r_left r) (r_right r) (code (r_dir r)) = size r) by (apply wrap_clamped; auto).
  unfold emit_range_length. rewrite X.
  destruct (const kd) as [d|]; [|reflexivity]. destruct (const kl) as [l|]; [|reflexivity]. destruct (const kr) as [r'|]; [|reflexivity].
  rewrite (D d eq_refl), (L l eq_refl), (R r' eq_refl). destruct N as (A & B & C). unfold word in *.
  assert (C1 : forall z, - 2 ^ 63 <= z < 2 ^ 63 -> ArithModel.c_int64 z = Ok z).
  { intros z H. unfold ArithModel.c_int64, ArithModel.in_i64, ArithModel.I64_MIN, ArithModel.I64_MAX.
    destruct (Z.leb_spec (-9223372036854775808) z); [|lia]. destruct (Z.leb_spec z 9223372036854775807); [|lia]. reflexivity. }
  unfold size, RANGE_TO. destruct (r_dir r); cbn [code Z.eqb Pos.eqb].
  - rewrite (C1 (r_right r - r_left r)) by lia. cbn [bind]. destruct (Z.ltb_spec (r_right r - r_left r) 0); [f_equal; lia|].
    rewrite C1 by lia. f_equal. lia.
  - rewrite (C1 (r_left r - r_right r)) by lia. cbn [bind]. destruct (Z.ltb_spec (r_left r - r_right r) 0); [f_equal; lia|].
    rewrite C1 by lia. f_equal. lia.
Qed.
(* The length of all of a 64-bit type, folded: overflow in C *)
Theorem C91_length_refuted : exists l r, word l /\ word r /\
  emit_range_length (Reg l l (Some l)) (Reg r r (Some r)) (Reg 0 0 (Some 0)) l r 0 = Fault.
Proof. exists (- 2 ^ 63), (2 ^ 63 - 1). unfold word. split; [lia|]. split; [lia|]. reflexivity. Qed.

(* A check is passed if and only if the value belongs to the range, and one left out at compile
   time would have been passed. *)
Theorem C91_check : forall r v kv kl kr kd is_left is_right,
  knows kv v -> knows kl (r_left r) -> knows kr (r_right r) -> knows kd (code (r_dir r)) ->
  (is_left = true -> v = r_left r) -> (is_right = true -> v = r_right r) ->
  emit_check kv kl kr kd is_left is_right v (r_left r) (r_right r) (code (r_dir r)) = true <-> belongs r v.
Proof.
  intros r v kv kl kr kd il ir [V _] [_ L] [_ R] [_ D] EL ER. unfold emit_check.
  destruct (can_elide kv kl kr kd il ir) eqn:C; [|apply check_is]. split; [intros _|auto].
  unfold can_elide in C.
  destruct (const kd) as [d|]; [|discriminate]. destruct (const kl) as [l|]; [|discriminate]. destruct (const kr) as [r'|]; [|discriminate].
  rewrite (D d eq_refl), (L l eq_refl), (R r' eq_refl) in C. unfold belongs, RANGE_TO, RANGE_DOWNTO in *.
  destruct (r_dir r); cbn [code Z.eqb Pos.eqb andb orb] in C; rewrite ?orb_false_r in C.
  - apply orb_true_iff in C. destruct C as [C|C]; apply andb_true_iff in C; destruct C as [C1 C2].
    + apply Z.leb_le in C1, C2. lia.
    + apply negb_true_iff, Z.ltb_ge in C1. apply orb_true_iff in C2. destruct C2 as [E|E]; [rewrite (EL E)|rewrite (ER E)]; lia.
  - apply orb_true_iff in C. destruct C as [C|C]; apply andb_true_iff in C; destruct C as [C1 C2].
    + apply Z.leb_le in C1, C2. lia.
    + apply negb_true_iff, Z.ltb_ge in C1. apply orb_true_iff in C2. destruct C2 as [E|E]; [rewrite (EL E)|rewrite (ER E)]; lia.
Qed.

(* The element of an array, of any number of dimensions: an access is let through if and only if
   every index belongs to its range, and it then lands on the element's own place, within the
   array. *)
Theorem C91_element : forall bs rs is stride,
  Forall2 describes bs rs -> Forall narrow rs -> length is = length rs ->
  0 < stride -> total rs * stride < 2 ^ 63 ->
  (Forall2 belongs rs is ->
     array_ref bs is stride = Some (place_in rs is * stride) /\ 0 <= place_in rs is < total rs) /\
  (~ Forall2 belongs rs is -> array_ref bs is stride = None).
Proof.
  intros bs rs is stride D N L S0 T. destruct (ref_loop bs rs D N is true 0) as [A B]; auto; [lia|].
  unfold array_ref. split; intros F.
  - pose proof (place_in_bounds rs is F) as P. rewrite A by (auto; nia). split; [|auto].
    cbn [Z.mul Z.add]. unfold mul64. rewrite wrap_id; [reflexivity|]. unfold word. nia.
  - rewrite B by auto. reflexivity.
Qed.
(* The places are those of a bijection between the indices and the elements. *)
Theorem C91_places : forall rs,
  (forall is, Forall2 belongs rs is -> 0 <= place_in rs is < total rs) /\
  (forall is js, Forall2 belongs rs is -> Forall2 belongs rs js -> place_in rs is = place_in rs js -> is = js) /\
  (forall p, 0 <= p < total rs -> exists is, Forall2 belongs rs is /\ place_in rs is = p).
Proof. intros. split; [apply place_in_bounds|]. split; [apply place_in_inj|apply place_in_onto]. Qed.

(* A slice of the direction of the array: taken if and only if it is null or its bounds belong to
   the range of the array; its elements are those of the array with the same indices. *)
Theorem C91_slice_partial : forall b r s stride, describes b r -> narrow r -> r_dir s = r_dir r ->
  0 < stride -> size r * stride < 2 ^ 63 ->
  (array_slice b (r_left s) (r_right s) (code (r_dir s)) stride <> None <->
     is_null s \/ (belongs r (r_left s) /\ belongs r (r_right s))) /\
  (forall off d, array_slice b (r_left s) (r_right s) (code (r_dir s)) stride = Some (off, d) ->
     d = op_wrap (r_left s) (r_right s) (code (r_dir s)) /\
     forall i, belongs s i -> belongs r i /\ off + place s i * stride = place r i * stride).
Proof.
  intros b r s stride D N E S0 T. destruct (describes_ok b r D N) as (_ & _ & _ & CK).
  pose proof (null_is s) as NI. pose proof (CK (r_left s)) as CL. pose proof (CK (r_right s)) as CR.
  unfold array_slice. destruct (op_range_null (r_left s) (r_right s) (code (r_dir s))) eqn:Q; cbn [negb andb].
  - assert (Z : is_null s) by tauto. split; [split; [tauto|discriminate]|].
    intros off d H. injection H as <- <-. split; [reflexivity|]. intros i B. exfalso. exact (Z i B).
  - assert (NZ : ~ is_null s) by (intros X; apply NI in X; discriminate).
    destruct (op_check (r_left s) (array_left b) (array_right b) (array_dir b)) eqn:C1;
    destruct (op_check (r_right s) (array_left b) (array_right b) (array_dir b)) eqn:C2; cbn [negb andb].
    2-4: split; [split; [congruence|intros [X|[X Y]]; [tauto|exfalso; try (apply CL in X; discriminate); apply CR in Y; discriminate]]
                |discriminate].
    assert (BL : belongs r (r_left s)) by tauto. assert (BR : belongs r (r_right s)) by tauto.
    split; [split; [tauto|discriminate]|].
    intros off d H. injection H as <- <-. split; [reflexivity|]. intros i B.
    rewrite (off_is b r _ D N BL). pose proof (place_bounds r _ BL) as PB. unfold mul64. rewrite wrap_id by (unfold word; nia).
    clear - E BL BR B. unfold belongs, place in *. rewrite E in *. destruct (r_dir r); split; try lia; ring.
Qed.
(* A slice against a direction that is known only when the code runs passes the checks and lies
   outside the array: elements 3 downto 0 of an array 0 to 3. *)
Theorem C91_slice_direction_refuted : exists b r s off d, describes b r /\ narrow r /\ narrow s /\
  array_slice b (r_left s) (r_right s) (code (r_dir s)) 1 = Some (off, d) /\
  exists i, belongs s i /\ belongs r i /\ off + place s i >= size r.
Proof.
  set (r := Range 0 3 To). set (s := Range 3 0 Downto).
  exists (Meta (op_wrap 0 3 0)), r, s, 3, (op_wrap 3 0 1).
  split; [left; reflexivity|]. split; [apply C91_narrow; lia|]. split; [apply C91_narrow; lia|]. split; [reflexivity|].
  exists 0. vm_compute. repeat split; discriminate.
Qed.

(* A for loop runs its body for the values of the range, once each and in order, until it is left,
   whatever the width of the loop parameter and whether or not the body waits. *)
Theorem C91_loop : forall (S : Type) t wait_free r (body : S -> Z -> S * bool) st fuel,
  word (ArithModel.tlow t) -> word (ArithModel.thigh t) ->
  (forall i, belongs r i -> ArithModel.tlow t <= i <= ArithModel.thigh t) ->
  size r <= Z.of_nat fuel ->
  lower_for t wait_free (r_left r) (r_right r) (code (r_dir r)) body fuel st = Some (run body (values r) st).
Proof.
  intros S t wf r body st fuel TL TH I F. unfold lower_for.
  destruct (op_range_null (r_left r) (r_right r) (code (r_dir r))) eqn:Q.
  - apply null_is, size_zero in Q. unfold values. rewrite Q. reflexivity.
  - assert (NZ : size r <> 0) by (intros X; apply size_zero, null_is in X; congruence).
    pose proof (size_nonneg r) as SN.
    assert (BL : belongs r (r_left r)) by (unfold belongs, size in *; destruct (r_dir r); lia).
    assert (BR : belongs r (r_right r)) by (unfold belongs, size in *; destruct (r_dir r); lia).
    assert (T : sound_type t) by (split; auto).
    rewrite (hold_id t (r_left r)) by auto.
    replace (r_left r) with (nth_value r (Z.of_nat 0)) at 1 by (unfold nth_value; destruct (r_dir r); lia).
    unfold values. replace (Z.to_nat (size r)) with (Datatypes.S (Z.to_nat (size r) - 1)) by lia.
    apply for_loop; auto; try lia.
    + destruct wf; [reflexivity|apply hold_id; auto].
    + unfold RANGE_DOWNTO. destruct (r_dir r); cbn [code Z.eqb Pos.eqb]; destruct wf; auto.
Qed.
(* The bounds the compiler assumes for the loop parameter *)
Theorem C91_loop_bounds : forall t r kl kr kd i,
  knows kl (r_left r) -> knows kr (r_right r) -> knows kd (code (r_dir r)) ->
  (forall i, belongs r i -> ArithModel.tlow t <= i <= ArithModel.thigh t) -> belongs r i ->
  ArithModel.tlow (loop_bounds t kl kr kd) <= i <= ArithModel.thigh (loop_bounds t kl kr kd).
Proof.
  intros t r kl kr kd i [_ L] [_ R] [_ D] I B. pose proof (I i B) as X. unfold loop_bounds.
  unfold belongs, RANGE_TO in *.
  destruct (const kl) as [l|], (const kr) as [r'|];
  repeat match goal with H : forall c, Some ?x = Some c -> _ |- _ => specialize (H x eq_refl); subst x end;
  destruct (const kd) as [d|];
  repeat match goal with H : forall c, Some ?x = Some c -> _ |- _ => specialize (H x eq_refl); subst x end;
  destruct (r_dir r); cbn [code Z.eqb ArithModel.tlow ArithModel.thigh]; lia.
Qed.

(* Witnesses *)
Example C91_ex_bounds : narrow (Range 7 0 Downto) /\ op_wrap 7 0 1 = Dim 7 (-9) /\
  uarray_right (Dim 7 (-9)) = 0 /\ uarray_len (Dim 7 (-9)) = 8.
Proof. split; [apply C91_narrow; lia|]. repeat split. Qed.
Example C91_ex_element :
  let bs := [Meta (op_wrap 7 0 1); Static 1 3 0] in
  Forall2 describes bs [Range 7 0 Downto; Range 1 3 To] /\
  array_ref bs [5; 3] 4 = Some 32 /\ array_ref bs [5; 4] 4 = None /\ array_ref bs [8; 1] 4 = None.
Proof. cbv zeta. split; [constructor; [left; reflexivity|constructor; [right; reflexivity|constructor]]|]. repeat split. Qed.
Example C91_ex_slice : array_slice (Meta (op_wrap 7 0 1)) 5 2 1 1 = Some (2, Dim 5 (-5)) /\
  array_slice (Meta (op_wrap 7 0 1)) 9 2 1 1 = None /\ array_slice (Meta (op_wrap 7 0 1)) 9 12 1 1 <> None.
Proof. repeat split. discriminate. Qed.
(* The loop over all of a type of eight bits, whose parameter wraps around after the last round *)
Example C91_ex_loop : forall wf,
  lower_for (ArithModel.VT 0 255) wf 255 0 1 (fun n i => (n + i, false)) 256 0 = Some 32640 /\
  lower_for (ArithModel.VT 0 255) wf 0 255 0 (fun n i => (n + i, i =? 3)) 256 0 = Some 6 /\
  lower_for (ArithModel.VT 0 255) wf 3 2 0 (fun n i => (n + i, false)) 0 5 = Some 5.
Proof. destruct wf; vm_compute; repeat split. Qed.

Print Assumptions C91_narrow.
Print Assumptions C91_values.
Print Assumptions C91_bounds_partial.
Print Assumptions C91_null_right_refuted.
Print Assumptions C91_wide_refuted.
Print Assumptions C91_null.
Print Assumptions C91_length_partial.
Print Assumptions C91_length_refuted.
Print Assumptions C91_check.
Print Assumptions C91_element.
Print Assumptions C91_places.
Print Assumptions C91_slice_partial.
Print Assumptions C91_slice_direction_refuted.
Print Assumptions C91_loop.
Print Assumptions C91_loop_bounds.
