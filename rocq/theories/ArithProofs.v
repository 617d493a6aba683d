(* The emitted operations compute what the steps mean. *)
From Coq Require Import List ZArith Arith Bool Lia.
From Verif Require Import Base JitModel ArithSpec ArithModel.
Import ListNotations.
Local Open Scope Z_scope.

(* ---- 64-bit arithmetic ---- *)

Definition clamp (z : Z) : Z := Z.max I64_MIN (Z.min I64_MAX z).
Definition i64 (z : Z) : Prop := I64_MIN <= z <= I64_MAX.

Lemma in_i64_spec z : in_i64 z = true <-> i64 z.
Proof. unfold in_i64, i64. rewrite andb_true_iff, !Z.leb_le. tauto. Qed.

Lemma in_i64_false z : in_i64 z = false <-> ~ i64 z.
Proof. rewrite <- in_i64_spec. destruct (in_i64 z); split; congruence. Qed.

Lemma clamp_id z : i64 z -> clamp z = z.
Proof. unfold clamp, i64. lia. Qed.

Lemma clamp_mono a b : a <= b -> clamp a <= clamp b.
Proof. unfold clamp. lia. Qed.

Lemma clamp_i64 a : i64 (clamp a).
Proof. unfold clamp, i64, I64_MIN, I64_MAX. lia. Qed.

Lemma sadd_clamp a b : i64 a -> i64 b -> sadd64 a b = clamp (a + b).
Proof.
  intros A B. unfold sadd64. destruct (in_i64 (a + b)) eqn:E.
  - apply in_i64_spec in E. now rewrite clamp_id.
  - apply in_i64_false in E. unfold clamp, i64 in *. unfold I64_MIN, I64_MAX in *.
    destruct (b <? 0) eqn:F; lia.
Qed.

Lemma ssub_clamp a b : i64 a -> i64 b -> ssub64 a b = clamp (a - b).
Proof.
  intros A B. unfold ssub64. destruct (in_i64 (a - b)) eqn:E.
  - apply in_i64_spec in E. now rewrite clamp_id.
  - apply in_i64_false in E. unfold clamp, i64 in *. unfold I64_MIN, I64_MAX in *.
    destruct (0 <? b) eqn:F; lia.
Qed.

Lemma smul_clamp a b : i64 a -> i64 b -> smul64 a b = clamp (a * b).
Proof.
  intros A B. unfold smul64. destruct (in_i64 (a * b)) eqn:E.
  - apply in_i64_spec in E. now rewrite clamp_id.
  - apply in_i64_false in E.
    assert (P : (((0 <? a) && (0 <? b)) || ((a <? 0) && (b <? 0))) = true -> 0 < a * b).
    { rewrite orb_true_iff, !andb_true_iff, !Z.ltb_lt. intros [[? ?] | [? ?]]; nia. }
    assert (Q : (((0 <? a) && (0 <? b)) || ((a <? 0) && (b <? 0))) = false -> a * b <= 0).
    { rewrite orb_false_iff, !andb_false_iff, !Z.ltb_ge. clear E A B.
      intros [[? | ?] [? | ?]];
        [assert (a = 0) by lia; subst; lia | nia | nia | assert (b = 0) by lia; subst; lia]. }
    generalize dependent (a * b). intros p E P Q.
    unfold clamp, i64 in *. unfold I64_MIN, I64_MAX in *.
    destruct (((0 <? a) && (0 <? b)) || ((a <? 0) && (b <? 0))).
    + specialize (P eq_refl). lia.
    + specialize (Q eq_refl). lia.
Qed.

(* The corners of a product. *)
Lemma corners al ah bl bh a b :
  al <= a <= ah -> bl <= b <= bh ->
  Z.min (Z.min (al * bl) (al * bh)) (Z.min (ah * bl) (ah * bh)) <= a * b <=
  Z.max (Z.max (al * bl) (al * bh)) (Z.max (ah * bl) (ah * bh)).
Proof.
  intros A B.
  assert (M : forall x y z w, y <= z <= w -> x * y <= x * z <= x * w \/ x * w <= x * z <= x * y).
  { intros x y z w H. destruct (Z_le_dec 0 x) as [P | P]; [left | right]; nia. }
  pose proof (M b al a ah A) as L1. pose proof (M al bl b bh B) as L2.
  pose proof (M ah bl b bh B) as L3.
  rewrite !(Z.mul_comm b) in L1. lia.
Qed.

Lemma wrap_i64 z : i64 z -> wrap z = z.
Proof.
  unfold i64, I64_MIN, I64_MAX, wrap, M63, M64. intros H.
  rewrite Z.mod_small; lia.
Qed.

(* ---- representations ---- *)

Definition holds (t : vtype) (v : Z) : Prop :=
  vtype_repr_low (vtype_repr t) <= v <= vtype_repr_high (vtype_repr t).

Lemma machine_repr t :
  machine t = (vtype_repr_low (vtype_repr (to_vtype t)), vtype_repr_high (vtype_repr (to_vtype t))).
Proof.
  destruct t as [lo hi]. unfold machine, to_vtype, vtype_repr, signed_ints, unsigned_ints.
  cbn [fst snd find].
  destruct (hi <? lo); [reflexivity |].
  destruct (lo <? 0).
  - replace (- 2 ^ 7) with (-128) by reflexivity. replace (2 ^ 7 - 1) with 127 by reflexivity.
    replace (- 2 ^ 15) with (-32768) by reflexivity. replace (2 ^ 15 - 1) with 32767 by reflexivity.
    replace (- 2 ^ 31) with (-2147483648) by reflexivity.
    replace (2 ^ 31 - 1) with 2147483647 by reflexivity.
    destruct ((-128 <=? lo) && (hi <=? 127)); [reflexivity |].
    destruct ((-32768 <=? lo) && (hi <=? 32767)); [reflexivity |].
    destruct ((-2147483648 <=? lo) && (hi <=? 2147483647)); reflexivity.
  - replace (2 ^ 8 - 1) with 255 by reflexivity. replace (2 ^ 16 - 1) with 65535 by reflexivity.
    replace (2 ^ 32 - 1) with 4294967295 by reflexivity.
    destruct (hi <=? 1); [reflexivity |].
    destruct (hi <=? 255); [reflexivity |].
    destruct (hi <=? 65535); [reflexivity |].
    destruct (hi <=? 4294967295); reflexivity.
Qed.

Lemma within_machine t v : within (machine t) v <-> holds (to_vtype t) v.
Proof. unfold within, holds. now rewrite machine_repr. Qed.

Lemma withinb_spec r v : withinb r v = true <-> within r v.
Proof. unfold withinb, within. rewrite andb_true_iff, !Z.leb_le. tauto. Qed.

Lemma withinb_false r v : withinb r v = false <-> ~ within r v.
Proof. rewrite <- withinb_spec. destruct (withinb r v); split; congruence. Qed.

Definition tsane (t : vtype) : Prop := I64_MIN <= tlow t /\ thigh t <= I64_MAX.
Definition tin (t : vtype) (v : Z) : Prop := tlow t <= v <= thigh t.

(* What a type declares is held by its representation. *)
Lemma declared_held t v : tsane t -> tin t v -> holds t v.
Proof.
  destruct t as [lo hi]. unfold tsane, tin, holds, vtype_repr. cbn [tlow thigh].
  intros S I. destruct (hi <? lo) eqn:N; [apply Z.ltb_lt in N; lia |].
  destruct (lo <? 0) eqn:L.
  - destruct ((-128 <=? lo) && (hi <=? 127)) eqn:A.
    { apply andb_true_iff in A. rewrite !Z.leb_le in A. cbn. lia. }
    destruct ((-32768 <=? lo) && (hi <=? 32767)) eqn:B.
    { apply andb_true_iff in B. rewrite !Z.leb_le in B. cbn. lia. }
    destruct ((-2147483648 <=? lo) && (hi <=? 2147483647)) eqn:C.
    { apply andb_true_iff in C. rewrite !Z.leb_le in C. cbn. lia. }
    cbn. lia.
  - apply Z.ltb_ge in L. unfold I64_MAX in S.
    destruct (hi <=? 1) eqn:A; [apply Z.leb_le in A; cbn; lia |].
    destruct (hi <=? 255) eqn:B; [apply Z.leb_le in B; cbn; lia |].
    destruct (hi <=? 65535) eqn:C; [apply Z.leb_le in C; cbn; lia |].
    destruct (hi <=? 4294967295) eqn:D; [apply Z.leb_le in D; cbn; lia |].
    cbn. lia.
Qed.

Lemma repr_zero r : vtype_repr_low r <= 0 <= vtype_repr_high r.
Proof. destruct r; cbn; unfold I64_MIN, I64_MAX; lia. Qed.

(* ---- truncation ---- *)

Lemma pow_bits s : 2 ^ bits s = 2 * 2 ^ (bits s - 1) /\ 0 < 2 ^ (bits s - 1).
Proof. destruct s; cbn; lia. Qed.

Lemma strunc_id s z : - 2 ^ (bits s - 1) <= z < 2 ^ (bits s - 1) -> strunc s z = z.
Proof.
  intros H. unfold strunc. pose proof (pow_bits s) as [P Q]. rewrite P.
  rewrite Z.mod_small; lia.
Qed.

Lemma strunc_range s z : - 2 ^ (bits s - 1) <= strunc s z < 2 ^ (bits s - 1).
Proof.
  unfold strunc. pose proof (pow_bits s) as [P Q].
  pose proof (Z.mod_pos_bound (z + 2 ^ (bits s - 1)) (2 ^ bits s) ltac:(lia)). lia.
Qed.

Lemma utrunc_id s z : 0 <= z < 2 ^ bits s -> utrunc s z = z.
Proof. intros H. unfold utrunc. now apply Z.mod_small. Qed.

Lemma utrunc_range s z : 0 <= utrunc s z < 2 ^ bits s.
Proof.
  unfold utrunc. pose proof (pow_bits s) as [P Q]. apply Z.mod_pos_bound. lia.
Qed.

(* The representation and the size of the machine operation agree, but for single bits. *)
Lemma repr_signed_bits t :
  vtype_repr_signed (vtype_repr t) = true ->
  vtype_repr_low (vtype_repr t) = - 2 ^ (bits (jit_size t) - 1) /\
  vtype_repr_high (vtype_repr t) = 2 ^ (bits (jit_size t) - 1) - 1 /\
  spec_size (jit_size t) = true.
Proof. unfold jit_size. destruct (vtype_repr t); cbn; intros H; try discriminate; auto. Qed.

Lemma repr_unsigned_bits t :
  vtype_repr_signed (vtype_repr t) = false ->
  vtype_repr_low (vtype_repr t) = 0 /\
  (vtype_repr t = U1 \/ vtype_repr_high (vtype_repr t) = 2 ^ bits (jit_size t) - 1) /\
  vtype_repr_high (vtype_repr t) < 2 ^ bits (jit_size t) /\
  spec_size (jit_size t) = true.
Proof.
  unfold jit_size.
  destruct (vtype_repr t); cbn; intros H; try discriminate; repeat split; auto; lia.
Qed.

Lemma trapping_val f t loc a b :
  holds t a -> holds t b -> holds t (f a b) -> i64 (f a b) -> trapping f t loc a b = Val (f a b).
Proof.
  intros A B C D. unfold trapping, checked, holds in *.
  destruct (vtype_repr_signed (vtype_repr t)) eqn:E.
  - apply repr_signed_bits in E. destruct E as (L & H & S). rewrite L, H in *. rewrite S.
    rewrite (strunc_id _ a), (strunc_id _ b), (strunc_id _ (f a b)) by lia.
    now rewrite Z.eqb_refl.
  - apply repr_unsigned_bits in E. destruct E as (L & _ & H & S). rewrite L in *. rewrite S.
    rewrite (utrunc_id _ a), (utrunc_id _ b), (utrunc_id _ (f a b)) by lia.
    now rewrite Z.eqb_refl, wrap_i64 by exact D.
Qed.

Lemma trapping_err f t loc a b :
  holds t a -> holds t b -> ~ holds t (f a b) -> vtype_repr t <> U1 ->
  trapping f t loc a b = Err Overflow loc.
Proof.
  intros A B C D. unfold trapping, checked, holds in *.
  destruct (vtype_repr_signed (vtype_repr t)) eqn:E.
  - apply repr_signed_bits in E. destruct E as (L & H & S). rewrite L, H in *. rewrite S.
    rewrite (strunc_id _ a), (strunc_id _ b) by lia.
    pose proof (strunc_range (jit_size t) (f a b)).
    replace (strunc (jit_size t) (f a b) =? f a b) with false; [reflexivity |].
    symmetry. apply Z.eqb_neq. intros Q. rewrite Q in *. lia.
  - apply repr_unsigned_bits in E. destruct E as (L & [U | H] & G & S); [contradiction |].
    rewrite L, H in *. rewrite S.
    rewrite (utrunc_id _ a), (utrunc_id _ b) by lia.
    pose proof (utrunc_range (jit_size t) (f a b)).
    replace (utrunc (jit_size t) (f a b) =? f a b) with false; [reflexivity |].
    symmetry. apply Z.eqb_neq. intros Q. rewrite Q in *. lia.
Qed.

(* vtype_clamp_to_repr *)
Lemma clamp_yes t low high l h v :
  i64 low -> i64 high ->
  vtype_clamp_to_repr (vtype_repr t) low high = (true, l, h) -> low <= v <= high ->
  l = low /\ h = high /\ holds t v.
Proof.
  unfold vtype_clamp_to_repr, holds. intros IL IH.
  destruct ((vtype_repr_low (vtype_repr t) <=? low) &&
            (to_u64 high <=? vtype_repr_high (vtype_repr t))) eqn:E; [| discriminate].
  intros [= <- <-] V. apply andb_true_iff in E. rewrite !Z.leb_le in E. destruct E as [E1 E2].
  repeat split; [lia |].
  unfold to_u64, i64, I64_MIN, I64_MAX in *.
  destruct (Z_lt_dec high 0) as [N | N].
  - replace high with (high + 18446744073709551616 + (-1) * 18446744073709551616) in E2 by lia.
    rewrite Z.mod_add in E2 by lia. rewrite Z.mod_small in E2 by lia.
    destruct (vtype_repr t); cbn [vtype_repr_low vtype_repr_high] in *; unfold I64_MAX in *; lia.
  - rewrite Z.mod_small in E2 by lia. lia.
Qed.

Lemma clamp_no t low high l h v :
  i64 low -> i64 high ->
  vtype_clamp_to_repr (vtype_repr t) low high = (false, l, h) -> low <= v <= high -> holds t v ->
  i64 v -> l <= v <= h /\ I64_MIN <= l /\ h <= I64_MAX.
Proof.
  unfold vtype_clamp_to_repr, holds. intros IL IH.
  destruct ((vtype_repr_low (vtype_repr t) <=? low) &&
            (to_u64 high <=? vtype_repr_high (vtype_repr t))) eqn:E; [discriminate |].
  intros [= <- <-] V R I. clear E.
  assert (L : I64_MIN <= Z.max (vtype_repr_low (vtype_repr t)) low) by (unfold i64 in IL; lia).
  assert (H : v <= wrap (if vtype_repr_high (vtype_repr t) <? to_u64 high
                         then vtype_repr_high (vtype_repr t) else to_u64 high)).
  { unfold to_u64, i64 in *. unfold I64_MIN, I64_MAX in *.
    destruct (Z_lt_dec high 0) as [N | N].
    - assert (W : high mod 18446744073709551616 = high + 18446744073709551616).
      { replace high with (high + 18446744073709551616 + (-1) * 18446744073709551616) at 1 by lia.
        rewrite Z.mod_add by lia. apply Z.mod_small. lia. }
      rewrite W.
      destruct (vtype_repr t) eqn:Q; cbn [vtype_repr_low vtype_repr_high] in *; unfold I64_MAX in *;
        try lia;
        match goal with
        | |- _ <= wrap (if ?a <? ?b then _ else _) =>
          replace (a <? b) with true by (symmetry; apply Z.ltb_lt; lia)
        end; rewrite wrap_i64 by (unfold i64, I64_MIN, I64_MAX; lia); lia.
    - rewrite Z.mod_small by lia.
      destruct (vtype_repr_high (vtype_repr t) <? high) eqn:F.
      + apply Z.ltb_lt in F. rewrite wrap_i64 by (unfold i64, I64_MIN, I64_MAX; pose proof (repr_zero (vtype_repr t)); lia). lia.
      + apply Z.ltb_ge in F. rewrite wrap_i64 by (unfold i64, I64_MIN, I64_MAX; lia). lia. }
  assert (G : forall z, wrap z <= I64_MAX).
  { intros z. unfold wrap, M63, M64, I64_MAX.
    pose proof (Z.mod_pos_bound (z + 9223372036854775808) 18446744073709551616 ltac:(lia)). lia. }
  pose proof (G (if vtype_repr_high (vtype_repr t) <? to_u64 high
                 then vtype_repr_high (vtype_repr t) else to_u64 high)).
  repeat split; try assumption; lia.
Qed.

(* ---- the invariant ---- *)

(* What an executed operation has left behind. *)
Definition op_ok (rs : list reg) (e : env) (o : op) : Prop :=
  match o with
  | OInput _ _ => True
  | OConst v t x =>
    nth_error e x = Some v /\ exists xr, nth_error rs x = Some xr /\ rtype xr = t
  | OArith k t l r loc x =>
    exists a b v, nth_error e l = Some a /\ nth_error e r = Some b /\
    exec_arith k t loc a b = Val v /\ nth_error e x = Some v /\
    (exists lr, nth_error rs l = Some lr /\ rtype lr = t) /\
    exists xr, nth_error rs x = Some xr /\ rtype xr = t
  | ONeg _ _ | OTrapNeg _ _ _ _ | OAbs _ _ | ONot _ _ => True
  | OCmp c l r x =>
    exists a b, nth_error e l = Some a /\ nth_error e r = Some b /\
    nth_error e x = Some (b2z (match c with
                      | CEq => a =? b | CNeq => negb (a =? b) | CLt => a <? b | CGt => b <? a
                      | CLeq => a <=? b | CGeq => b <=? a
                      end)) /\
    exists xr, nth_error rs x = Some xr /\ rtype xr = vtype_bool
  | OSelect t a b x =>
    exists tv av bv, nth_error e t = Some tv /\ nth_error e a = Some av /\ nth_error e b = Some bv /\
    nth_error e x = Some (if truth tv then av else bv) /\
    exists ar xr, nth_error rs a = Some ar /\ nth_error rs x = Some xr /\ rtype xr = rtype ar
  | OCast t a x =>
    exists av, nth_error e a = Some av /\ nth_error e x = Some av /\
    exists xr, nth_error rs x = Some xr /\ rtype xr = t
  | OZeroCheck a _ => exists av, nth_error e a = Some av /\ av <> 0
  | ORangeCheck a l r d _ =>
    exists av lv rv dv, nth_error e a = Some av /\ nth_error e l = Some lv /\
    nth_error e r = Some rv /\ nth_error e d = Some dv /\
    (if dv =? RANGE_DOWNTO then rv <= av <= lv else lv <= av <= rv)
  end.

(* The value of register r is held by its type and lies in its bounds. *)
Definition reg_ok (x : reg) (v : Z) : Prop :=
  holds (rtype x) v /\ i64 v /\ tsane (rtype x).
Definition bounds_ok (x : reg) (v : Z) : Prop := tin (rbounds x) v /\ tsane (rbounds x).

Record inv_except (skip : nat -> Prop) (inputs : nat -> Z) (c : code) (e : env) : Prop := {
  i_run : exec_ops inputs [] (ops c) = Val e;
  i_len : length e = length (regs c);
  i_reg : forall r x v, nth_error (regs c) r = Some x -> nth_error e r = Some v -> reg_ok x v;
  i_bounds : forall r x v, nth_error (regs c) r = Some x -> nth_error e r = Some v ->
             skip r \/ bounds_ok x v;
  i_ops : Forall (op_ok (regs c) e) (ops c)
}.
Definition inv := inv_except (fun _ => False).

(* Later code keeps the types of the registers and their values, and adds operations. *)
Record ext (c c' : code) (e e' : env) : Prop := {
  x_types : forall r x, nth_error (regs c) r = Some x ->
            exists x', nth_error (regs c') r = Some x' /\ rtype x' = rtype x;
  x_ops : exists more, ops c' = ops c ++ more;
  x_env : exists more, e' = e ++ more
}.

Lemma ext_refl c e : ext c c e e.
Proof.
  split; [eauto | |]; exists []; now rewrite app_nil_r.
Qed.

Lemma ext_trans c1 c2 c3 e1 e2 e3 : ext c1 c2 e1 e2 -> ext c2 c3 e2 e3 -> ext c1 c3 e1 e3.
Proof.
  intros [A1 [m1 B1] [n1 C1]] [A2 [m2 B2] [n2 C2]]. split.
  - intros r x H. destruct (A1 r x H) as (x' & H' & T'). destruct (A2 r x' H') as (x'' & H'' & T'').
    exists x''. split; [exact H'' | congruence].
  - exists (m1 ++ m2). now rewrite B2, B1, app_assoc.
  - exists (n1 ++ n2). now rewrite C2, C1, app_assoc.
Qed.

Lemma nth_app_some {A} (l m : list A) n x : nth_error l n = Some x -> nth_error (l ++ m) n = Some x.
Proof.
  intros H. rewrite nth_error_app1; [exact H |]. apply nth_error_Some. congruence.
Qed.

Lemma nth_app_last {A} (l : list A) x : nth_error (l ++ [x]) (length l) = Some x.
Proof. rewrite nth_error_app2 by lia. now rewrite Nat.sub_diag. Qed.

Lemma exec_ops_app inputs e l m :
  exec_ops inputs e (l ++ m) = ebind (exec_ops inputs e l) (fun e => exec_ops inputs e m).
Proof.
  revert e. induction l as [| o l IH]; intros e; cbn [exec_ops app]; [reflexivity |].
  destruct (exec_op inputs e o); cbn [ebind]; auto.
Qed.

(* Facts about operations persist. *)
Lemma op_ok_ext rs rs' e e' o :
  (forall r x, nth_error rs r = Some x -> exists x', nth_error rs' r = Some x' /\ rtype x' = rtype x) ->
  (forall r v, nth_error e r = Some v -> nth_error e' r = Some v) ->
  op_ok rs e o -> op_ok rs' e' o.
Proof.
  intros R E.
  assert (T : forall r t, (exists x, nth_error rs r = Some x /\ rtype x = t) ->
                          exists x, nth_error rs' r = Some x /\ rtype x = t).
  { intros r t (x & A & B). destruct (R r x A) as (x' & A' & B'). exists x'. split; congruence. }
  destruct o; cbn [op_ok]; auto.
  - intros [A B]. auto.
  - intros (p & q & w & A & B & C & D & F & G). exists p, q, w. repeat split; auto.
  - intros (p & q & A & B & C & D). exists p, q. repeat split; auto.
  - intros (p & q & w & A & B & C & D & ar & xr & F & G & H). exists p, q, w. repeat split; auto.
    destruct (R _ _ F) as (ar' & F' & F2). destruct (R _ _ G) as (xr' & G' & G2).
    exists ar', xr'. repeat split; auto. congruence.
  - intros (p & A & B & D). exists p. repeat split; auto.
  - intros (p & A & B). exists p. auto.
  - intros (p & q & w & d & A & B & C & D & F). exists p, q, w, d. repeat split; auto.
Qed.

Lemma set_nth_length l n x : length (set_nth l n x) = length l.
Proof. revert n. induction l; intros [| n]; cbn; auto. Qed.

Lemma set_nth_get l n x m :
  nth_error (set_nth l n x) m =
  if Nat.eqb m n then match nth_error l n with Some _ => Some x | None => None end
  else nth_error l m.
Proof.
  revert n m. induction l as [| y l IH]; intros [| n] [| m]; cbn [set_nth nth_error Nat.eqb]; auto.
  destruct (Nat.eqb m n); reflexivity.
Qed.

Lemma ops_set_bounds c r lo hi : ops (set_bounds c r lo hi) = ops c.
Proof. unfold set_bounds. now destruct (nth_error (regs c) r). Qed.

Lemma regs_set_bounds c r lo hi m :
  nth_error (regs (set_bounds c r lo hi)) m =
  if Nat.eqb m r then match nth_error (regs c) r with
                      | Some x => Some (Reg (rtype x) (VT lo hi)) | None => None end
  else nth_error (regs c) m.
Proof.
  unfold set_bounds. destruct (nth_error (regs c) r) as [x |] eqn:E; cbn [regs].
  - rewrite set_nth_get, E. reflexivity.
  - destruct (Nat.eqb_spec m r); [now subst | reflexivity].
Qed.

Lemma types_set_bounds c r lo hi m x :
  nth_error (regs c) m = Some x ->
  exists x', nth_error (regs (set_bounds c r lo hi)) m = Some x' /\ rtype x' = rtype x.
Proof.
  intros H. rewrite regs_set_bounds. destruct (Nat.eqb_spec m r); [| eauto].
  subst. rewrite H. eauto.
Qed.

Lemma length_set_bounds c r lo hi : length (regs (set_bounds c r lo hi)) = length (regs c).
Proof.
  unfold set_bounds. destruct (nth_error (regs c) r); cbn [regs]; auto. apply set_nth_length.
Qed.

Lemma set_bounds_ext c r lo hi e : ext c (set_bounds c r lo hi) e e.
Proof.
  split.
  - intros m x. apply types_set_bounds.
  - exists []. now rewrite ops_set_bounds, app_nil_r.
  - exists []. now rewrite app_nil_r.
Qed.

Lemma set_bounds_inv inputs c e r v lo hi :
  inv_except (fun s => s = r) inputs c e -> nth_error e r = Some v ->
  lo <= v <= hi -> I64_MIN <= lo -> hi <= I64_MAX ->
  inv inputs (set_bounds c r lo hi) e.
Proof.
  intros [R L G B O] V I S1 S2. split.
  - now rewrite ops_set_bounds.
  - now rewrite length_set_bounds.
  - intros m x w. rewrite regs_set_bounds. destruct (Nat.eqb_spec m r) as [-> | N].
    + destruct (nth_error (regs c) r) as [y |] eqn:E; [| discriminate]. intros [= <-] W.
      exact (G r y w E W).
    + intros A W. exact (G m x w A W).
  - intros m x w. rewrite regs_set_bounds. destruct (Nat.eqb_spec m r) as [-> | N].
    + destruct (nth_error (regs c) r) as [y |] eqn:E; [| discriminate]. intros [= <-] W.
      right. rewrite V in W. injection W as <-. split; cbn [rbounds]; [exact I | split; cbn; assumption].
    + intros A W. destruct (B m x w A W) as [-> | B']; [contradiction | right; exact B'].
  - rewrite ops_set_bounds. eapply Forall_impl; [| exact O]. intros o. apply op_ok_ext; auto.
    intros m x. apply types_set_bounds.
Qed.

Lemma inv_weaken skip inputs c e : inv inputs c e -> inv_except skip inputs c e.
Proof.
  intros [R L G B O]. split; auto. intros r x v A V. destruct (B r x v A V) as [[] | H]. now right.
Qed.

Lemma inv_unskip inputs c e r x v :
  inv_except (fun s => s = r) inputs c e -> nth_error (regs c) r = Some x -> nth_error e r = Some v ->
  bounds_ok x v -> inv inputs c e.
Proof.
  intros [R L G B O] A V K. split; auto. intros m y w A' V'. right.
  destruct (B m y w A' V') as [-> | H]; [| exact H]. congruence.
Qed.

(* A new operation with a value. *)
Lemma add_op_inv inputs c e t mk v :
  inv inputs c e -> exec_op inputs e (mk (length (regs c))) = Val (e ++ [v]) ->
  holds t v -> i64 v -> tsane t ->
  op_ok (regs c ++ [Reg t t]) (e ++ [v]) (mk (length (regs c))) ->
  inv_except (fun s => s = length (regs c)) inputs (fst (add_op c t mk)) (e ++ [v]) /\
  nth_error (e ++ [v]) (length (regs c)) = Some v /\
  nth_error (regs (fst (add_op c t mk))) (length (regs c)) = Some (Reg t t) /\
  ext c (fst (add_op c t mk)) e (e ++ [v]).
Proof.
  intros [R L G B O] X H I S K. unfold add_op. cbn [fst regs ops].
  assert (Q : nth_error (e ++ [v]) (length (regs c)) = Some v) by (rewrite <- L; apply nth_app_last).
  split; [split | split; [exact Q | split; [| split]]]; cbn [regs ops].
  - rewrite exec_ops_app, R. cbn [ebind exec_ops]. now rewrite X.
  - rewrite !app_length, L. reflexivity.
  - intros r x w A W. destruct (Nat.eq_dec r (length (regs c))) as [-> | N].
    + rewrite nth_app_last in A. injection A as <-. rewrite Q in W. injection W as <-.
      split; [exact H | split; [exact I | exact S]].
    + assert (r < length (regs c))%nat.
      { assert (r < length (regs c ++ [Reg t t]))%nat by (apply nth_error_Some; congruence).
        rewrite app_length in *. cbn [length] in *. lia. }
      rewrite nth_error_app1 in A by lia. rewrite nth_error_app1 in W by lia. exact (G r x w A W).
  - intros r x w A W. destruct (Nat.eq_dec r (length (regs c))) as [-> | N]; [now left |].
    right.
    assert (r < length (regs c))%nat.
    { assert (r < length (regs c ++ [Reg t t]))%nat by (apply nth_error_Some; congruence).
      rewrite app_length in *. cbn [length] in *. lia. }
    rewrite nth_error_app1 in A by lia. rewrite nth_error_app1 in W by lia.
    destruct (B r x w A W) as [[] | F]. exact F.
  - apply Forall_app. split; [| now constructor].
    eapply Forall_impl; [| exact O]. intros o. apply op_ok_ext.
    + intros r x A. exists x. split; [now apply nth_app_some | reflexivity].
    + intros r w. apply nth_app_some.
  - apply nth_app_last.
  - intros r x A. exists x. split; [now apply nth_app_some | reflexivity].
  - now exists [mk (length (regs c))].
  - now exists [v].
Qed.

(* A passed check. *)
Lemma add_check_inv inputs c e o :
  inv inputs c e -> exec_op inputs e o = Val e -> op_ok (regs c) e o ->
  inv inputs (add_check c o) e /\ ext c (add_check c o) e e.
Proof.
  intros [R L G B O] X K. unfold add_check. split.
  - split; cbn [regs ops]; auto.
    + rewrite exec_ops_app, R. cbn [ebind exec_ops]. now rewrite X.
    + apply Forall_app. split; [exact O | now constructor].
  - split; cbn [regs ops]; [eauto | eauto |]. exists []. now rewrite app_nil_r.
Qed.

Lemma find_op_some {A} (f : op -> option A) l a : find_op f l = Some a -> exists o, In o l /\ f o = Some a.
Proof.
  induction l as [| o l IH]; cbn [find_op]; [discriminate |].
  destruct (f o) eqn:E.
  - intros [= <-]. exists o. split; [now left | exact E].
  - intros H. destruct (IH H) as (o' & A1 & A2). exists o'. split; [now right | exact A2].
Qed.

(* What an emitter delivers: a register with the value and type wanted... *)
Definition gives (inputs : nat -> Z) (c : code) (e : env) (out : code * nat) (t : vtype) (v : Z) : Prop :=
  exists e' x, inv inputs (fst out) e' /\ ext c (fst out) e e' /\
  nth_error e' (snd out) = Some v /\ nth_error (regs (fst out)) (snd out) = Some x /\ rtype x = t.
(* ... or code that stops with an error. *)
Definition stops (inputs : nat -> Z) (c' : code) (f : fail) (loc : nat) : Prop :=
  exec_ops inputs [] (ops c') = Err f loc.

Lemma kind_eqb_eq a b : kind_eqb a b = true -> a = b.
Proof. destruct a, b; cbn; congruence. Qed.
Lemma cmp_eqb_eq a b : cmp_eqb a b = true -> a = b.
Proof. destruct a, b; cbn; congruence. Qed.
Lemma vtype_eqb_eq a b : vtype_eqb a b = true -> a = b.
Proof.
  destruct a, b. unfold vtype_eqb. cbn. rewrite andb_true_iff, !Z.eqb_eq. intros [-> ->]. reflexivity.
Qed.
Lemma vtype_eqb_refl a : vtype_eqb a a = true.
Proof. unfold vtype_eqb. now rewrite !Z.eqb_refl. Qed.

Section Emitters.
Context (inputs : nat -> Z) (c : code) (e : env) (I : inv inputs c e).

Lemma reg_data_ok r x : nth_error (regs c) r = Some x -> reg_data c r = Ok x.
Proof. unfold reg_data. now intros ->. Qed.

Lemma op_in o : In o (ops c) -> op_ok (regs c) e o.
Proof. intros H. pose proof (i_ops _ _ _ _ I) as F. rewrite Forall_forall in F. auto. Qed.

Lemma reg_facts r x v :
  nth_error (regs c) r = Some x -> nth_error e r = Some v -> reg_ok x v /\ bounds_ok x v.
Proof.
  intros A V. split; [exact (i_reg _ _ _ _ I r x v A V) |].
  destruct (i_bounds _ _ _ _ I r x v A V) as [[] | H]. exact H.
Qed.

Lemma gives_same r x v :
  nth_error (regs c) r = Some x -> nth_error e r = Some v -> gives inputs c e (c, r) (rtype x) v.
Proof.
  intros A V. exists e, x. cbn [fst snd]. split; [exact I | split; [apply ext_refl | auto]].
Qed.

Lemma reg_const_val r x v w :
  nth_error (regs c) r = Some x -> nth_error e r = Some v -> reg_const c r = Ok (Some w) -> w = v.
Proof.
  intros A V. unfold reg_const. rewrite (reg_data_ok r x A). cbn [bind].
  destruct (tlow (rbounds x) =? thigh (rbounds x)) eqn:E; [| discriminate].
  intros [= <-]. apply Z.eqb_eq in E. destruct (reg_facts r x v A V) as [_ [T _]].
  unfold tin in T. lia.
Qed.

Lemma emit_const_gives t v out :
  holds t v -> i64 v -> tsane t -> emit_const c t v = Ok out -> gives inputs c e out t v.
Proof.
  intros H J S. unfold emit_const.
  destruct (find_op _ (ops c)) as [r |] eqn:F.
  - intros [= <-]. apply find_op_some in F. destruct F as (o & A & B).
    destruct o; try discriminate. destruct ((v0 =? v) && vtype_eqb t t0) eqn:Q; [| discriminate].
    injection B as ->. apply andb_true_iff in Q. destruct Q as [Q1 Q2].
    apply Z.eqb_eq in Q1. apply vtype_eqb_eq in Q2. subst.
    apply op_in in A. destruct A as [V (xr & X & T)]. rewrite <- T. now apply gives_same.
  - destruct (add_op c t (OConst v t)) as [c1 r1] eqn:E. intros [= <-].
    pose proof (add_op_inv inputs c e t (OConst v t) v I eq_refl H J S) as K.
    rewrite E in K. unfold add_op in E. injection E as <- <-. cbn [fst] in K.
    destruct K as (K1 & K2 & K3 & K4).
    { cbn [op_ok]. rewrite <- (i_len _ _ _ _ I). split; [apply nth_app_last |].
      rewrite (i_len _ _ _ _ I). exists (Reg t t). split; [apply nth_app_last | reflexivity]. }
    set (c1 := Code _ _) in *.
    exists (e ++ [v]). destruct (types_set_bounds c1 (length (regs c)) v v _ _ K3) as (x' & X1 & X2).
    exists x'. cbn [fst snd]. split; [| split; [| auto]].
    + apply (set_bounds_inv inputs c1 _ _ v); auto; unfold i64 in J; lia.
    + eapply ext_trans; [exact K4 | apply set_bounds_ext].
Qed.

Lemma exec_arith_loc k t a b l1 l2 v :
  exec_arith k t l1 a b = Val v -> exec_arith k t l2 a b = Val v.
Proof.
  destruct k; cbn [exec_arith]; auto; unfold trapping;
    destruct (checked _ _ _ a b) as [[w [[|] |]] |]; congruence.
Qed.

(* emit_arith: the value, whatever the bounds will be. *)
Lemma emit_arith_val k l r loc lr a b v out :
  nth_error (regs c) l = Some lr -> nth_error e l = Some a -> nth_error e r = Some b ->
  exec_arith k (rtype lr) loc a b = Val v -> holds (rtype lr) v -> i64 v ->
  emit_arith c k l r loc = Ok out ->
  exists e' x, inv_except (fun s => s = snd out) inputs (fst out) e' /\ ext c (fst out) e e' /\
  nth_error e' (snd out) = Some v /\ nth_error (regs (fst out)) (snd out) = Some x /\ rtype x = rtype lr /\
  (rbounds x = rtype lr \/ inv inputs (fst out) e').
Proof.
  intros L A B X H J. unfold emit_arith.
  destruct (find_op _ (ops c)) as [x |] eqn:F.
  - intros [= <-]. apply find_op_some in F. destruct F as (o & O1 & O2).
    destruct o; try discriminate.
    destruct (kind_eqb k0 k && Nat.eqb l0 l && Nat.eqb r0 r) eqn:Q; [| discriminate].
    injection O2 as ->. rewrite !andb_true_iff in Q. destruct Q as [[Q1 Q2] Q3].
    apply kind_eqb_eq in Q1. apply Nat.eqb_eq in Q2, Q3. subst.
    apply op_in in O1. destruct O1 as (a' & b' & v' & A' & B' & X' & V' & (lr' & L' & T') & (xr & R' & T)).
    rewrite A in A'. injection A' as <-. rewrite B in B'. injection B' as <-.
    rewrite L in L'. injection L' as <-. subst t.
    pose proof (exec_arith_loc _ _ _ _ _ locus _ X) as X2. rewrite X2 in X'. injection X' as <-.
    exists e, xr. cbn [fst snd]. split; [apply inv_weaken, I | split; [apply ext_refl | auto 8]].
  - rewrite (reg_data_ok l lr L). cbn [bind]. unfold reg_data.
    destruct (nth_error (regs c) r) as [rr |] eqn:R; cbn [bind]; [| discriminate].
    destruct (vtype_eqb (rtype lr) (rtype rr)); [| discriminate].
    intros [= <-].
    destruct (reg_facts l lr a L A) as [(_ & _ & S) _].
    destruct (add_op_inv inputs c e (rtype lr) (OArith k (rtype lr) l r loc) v I) as (K1 & K2 & K3 & K4); auto.
    { cbn [exec_op]. unfold get. rewrite A, B. cbn [ebind]. rewrite X. reflexivity. }
    { cbn [op_ok]. exists a, b, v. repeat split; auto using nth_app_some.
      - rewrite <- (i_len _ _ _ _ I). apply nth_app_last.
      - exists lr. split; [now apply nth_app_some | reflexivity].
      - exists (Reg (rtype lr) (rtype lr)). split; [apply nth_app_last | reflexivity]. }
    exists (e ++ [v]), (Reg (rtype lr) (rtype lr)).
    replace (snd (add_op c (rtype lr) (OArith k (rtype lr) l r loc))) with (length (regs c)) by reflexivity.
    split; [exact K1 | split; [exact K4 | auto 8]].
Qed.

Lemma emit_arith_bounded k l r loc lr a b v c1 x1 lo hi :
  nth_error (regs c) l = Some lr -> nth_error e l = Some a -> nth_error e r = Some b ->
  exec_arith k (rtype lr) loc a b = Val v -> holds (rtype lr) v -> i64 v ->
  emit_arith c k l r loc = Ok (c1, x1) ->
  lo <= v <= hi -> I64_MIN <= lo -> hi <= I64_MAX ->
  gives inputs c e (set_bounds c1 x1 lo hi, x1) (rtype lr) v.
Proof.
  intros L A B X H J E V S1 S2.
  destruct (emit_arith_val k l r loc lr a b v _ L A B X H J E) as (e' & x & K1 & K2 & K3 & K4 & K5 & _).
  cbn [fst snd] in *.
  destruct (types_set_bounds c1 x1 lo hi _ _ K4) as (x' & X1 & X2).
  exists e', x'. cbn [fst snd]. split; [| split; [| split; [exact K3 | split; [exact X1 | congruence]]]].
  - now apply (set_bounds_inv inputs c1 e' x1 v).
  - eapply ext_trans; [exact K2 | apply set_bounds_ext].
Qed.

(* Without new bounds the value must be in the declared range. *)
Lemma emit_arith_gives k l r loc lr a b v out :
  nth_error (regs c) l = Some lr -> nth_error e l = Some a -> nth_error e r = Some b ->
  exec_arith k (rtype lr) loc a b = Val v -> i64 v -> tin (rtype lr) v ->
  emit_arith c k l r loc = Ok out -> gives inputs c e out (rtype lr) v.
Proof.
  intros L A B X J D E.
  destruct (reg_facts l lr a L A) as [(_ & _ & S) _].
  destruct (emit_arith_val k l r loc lr a b v _ L A B X (declared_held _ _ S D) J E)
    as (e' & x & K1 & K2 & K3 & K4 & K5 & K6).
  exists e', x. split; [| auto].
  destruct K6 as [K6 | K6]; [| exact K6].
  apply (inv_unskip _ _ _ _ _ _ K1 K4 K3). split; rewrite K6; assumption.
Qed.

Lemma emit_arith_stops k l r loc lr a b f at_ out :
  nth_error (regs c) l = Some lr -> nth_error e l = Some a -> nth_error e r = Some b ->
  exec_arith k (rtype lr) loc a b = Err f at_ ->
  emit_arith c k l r loc = Ok out -> stops inputs (fst out) f at_.
Proof.
  intros L A B X. unfold emit_arith.
  destruct (find_op _ (ops c)) as [x |] eqn:F.
  - intros [= <-]. apply find_op_some in F. destruct F as (o & O1 & O2).
    destruct o; try discriminate.
    destruct (kind_eqb k0 k && Nat.eqb l0 l && Nat.eqb r0 r) eqn:Q; [| discriminate].
    injection O2 as ->. rewrite !andb_true_iff in Q. destruct Q as [[Q1 Q2] Q3].
    apply kind_eqb_eq in Q1. apply Nat.eqb_eq in Q2, Q3. subst.
    apply op_in in O1. destruct O1 as (a' & b' & v' & A' & B' & X' & V' & (lr' & L' & T') & (xr & R' & T)).
    rewrite A in A'. injection A' as <-. rewrite B in B'. injection B' as <-.
    rewrite L in L'. injection L' as <-. subst t.
    pose proof (exec_arith_loc _ _ _ _ _ loc _ X') as X2. congruence.
  - rewrite (reg_data_ok l lr L). cbn [bind]. unfold reg_data.
    destruct (nth_error (regs c) r) as [rr |] eqn:R; cbn [bind]; [| discriminate].
    destruct (vtype_eqb (rtype lr) (rtype rr)); [| discriminate].
    intros [= <-]. unfold stops, add_op. cbn [fst ops].
    rewrite exec_ops_app, (i_run _ _ _ _ I). cbn [ebind exec_ops exec_op]. unfold get.
    rewrite A, B. cbn [ebind]. rewrite X. reflexivity.
Qed.

End Emitters.
