(* Every emitter delivers the value a step means, or code that reports its error. *)
From Coq Require Import List ZArith Arith Bool Lia.
From Verif Require Import Base JitModel ArithSpec ArithModel ArithProofs.
Import ListNotations.
Local Open Scope Z_scope.

Lemma clamp_min a b : clamp (Z.min a b) = Z.min (clamp a) (clamp b).
Proof. unfold clamp. lia. Qed.
Lemma clamp_max a b : clamp (Z.max a b) = Z.max (clamp a) (clamp b).
Proof. unfold clamp, I64_MIN, I64_MAX. lia. Qed.

Section Emit.
Context (inputs : nat -> Z) (c : code) (e : env) (I : inv inputs c e).

Definition at_reg (r : nat) (x : reg) (v : Z) : Prop :=
  nth_error (regs c) r = Some x /\ nth_error e r = Some v.

Lemma at_facts r x v : at_reg r x v ->
  holds (rtype x) v /\ i64 v /\ tsane (rtype x) /\ tin (rbounds x) v /\
  i64 (tlow (rbounds x)) /\ i64 (thigh (rbounds x)).
Proof.
  intros [A V]. destruct (reg_facts inputs c e I r x v A V) as [(H & J & S) [T1 T2]].
  split; [exact H | split; [exact J | split; [exact S | split; [exact T1 |]]]].
  unfold tin, tsane, i64 in *. lia.
Qed.

Lemma at_data r x v : at_reg r x v -> reg_data c r = Ok x.
Proof. intros [A _]. now apply reg_data_ok. Qed.

Lemma at_const r x v : at_reg r x v ->
  reg_const c r = Ok (Some v) \/ reg_const c r = Ok None.
Proof.
  intros A. pose proof (at_data _ _ _ A) as D. destruct A as [A V].
  assert (Q : exists o, reg_const c r = Ok o) by (unfold reg_const; rewrite D; cbn [bind]; eauto).
  destruct Q as [[w |] Q]; [| now right]. left. rewrite Q. do 2 f_equal.
  exact (reg_const_val inputs c e I r x v w A V Q).
Qed.

Lemma at_gives r x v t : at_reg r x v -> rtype x = t -> gives inputs c e (c, r) t v.
Proof. intros [A V] <-. now apply gives_same. Qed.

(* A new operation whose value lies in the declared range of its type. *)
Lemma add_gives t mk v :
  exec_op inputs e (mk (length (regs c))) = Val (e ++ [v]) ->
  tin t v -> i64 v -> tsane t ->
  op_ok (regs c ++ [Reg t t]) (e ++ [v]) (mk (length (regs c))) ->
  gives inputs c e (add_op c t mk) t v.
Proof.
  intros X T J S K.
  destruct (add_op_inv inputs c e t mk v I X (declared_held _ _ S T) J S K) as (K1 & K2 & K3 & K4).
  exists (e ++ [v]), (Reg t t).
  replace (snd (add_op c t mk)) with (length (regs c)) by reflexivity.
  split; [| auto]. apply (inv_unskip _ _ _ _ _ _ K1 K3 K2). split; assumption.
Qed.

Lemma add_stops t mk f loc :
  exec_op inputs e (mk (length (regs c))) = Err f loc ->
  stops inputs (fst (add_op c t mk)) f loc.
Proof.
  intros X. unfold stops, add_op. cbn [fst ops]. rewrite exec_ops_app, (i_run _ _ _ _ I).
  cbn [ebind exec_ops]. now rewrite X.
Qed.

Lemma check_stops o f loc :
  exec_op inputs e o = Err f loc -> stops inputs (add_check c o) f loc.
Proof.
  intros X. unfold stops, add_check. cbn [ops]. rewrite exec_ops_app, (i_run _ _ _ _ I).
  cbn [ebind exec_ops]. now rewrite X.
Qed.

(* ---- sums and products ---- *)

Lemma emit_bounded_ok f trap plain (is_trap : bool) l r loc lr rr a b low high out :
  (forall t loc a b, exec_arith plain t loc a b = Val (wrap (f a b))) ->
  (forall t loc a b, exec_arith trap t loc a b = trapping f t loc a b) ->
  at_reg l lr a -> at_reg r rr b -> rtype lr = rtype rr ->
  low <= f a b <= high -> i64 low -> i64 high -> i64 (f a b) ->
  (is_trap = false -> holds (rtype lr) (f a b)) ->
  emit_bounded c is_trap trap plain l r loc (rtype lr) low high = Ok out ->
  (holds (rtype lr) (f a b) -> gives inputs c e out (rtype lr) (f a b)) /\
  (~ holds (rtype lr) (f a b) -> vtype_repr (rtype lr) <> U1 -> stops inputs (fst out) Overflow loc).
Proof.
  intros P T A B Q V IL IH J N. unfold emit_bounded.
  destruct (at_facts _ _ _ A) as (HA & _). destruct (at_facts _ _ _ B) as (HB & _).
  rewrite <- Q in HB. destruct A as [A1 A2]. destruct B as [B1 B2].
  destruct is_trap.
  - destruct (vtype_clamp_to_repr (vtype_repr (rtype lr)) low high) as [[[|] lo] hi] eqn:E.
    + destruct (clamp_yes _ _ _ _ _ _ IL IH E V) as (-> & -> & HV).
      destruct (emit_arith c plain l r 0) as [[c1 x1] |] eqn:F; cbn [bind]; [| discriminate].
      intros [= <-]. split; [| contradiction]. intros _.
      eapply emit_arith_bounded; eauto; [| apply IL | apply IH]. rewrite P. now rewrite wrap_i64.
    + destruct (emit_arith c trap l r loc) as [[c1 x1] |] eqn:F; cbn [bind]; [| discriminate].
      intros [= <-]. split.
      * intros HV. destruct (clamp_no _ _ _ _ _ _ IL IH E V HV J) as (V2 & S1 & S2).
        eapply emit_arith_bounded; eauto. rewrite T. now apply trapping_val.
      * intros HV U. cbn [fst].
        pose proof (emit_arith_stops inputs c e I trap l r loc lr a b Overflow loc _ A1 A2 B2
                      ltac:(rewrite T; now apply trapping_err) F) as S.
        unfold stops in *. now rewrite ops_set_bounds.
  - specialize (N eq_refl).
    destruct (emit_arith c plain l r 0) as [[c1 x1] |] eqn:F; cbn [bind]; [| discriminate].
    intros [= <-]. split; [| contradiction]. intros _.
    eapply emit_arith_bounded; eauto; [| apply IL | apply IH]. rewrite P. now rewrite wrap_i64.
Qed.

Lemma emit_neg_ok a ar v out :
  at_reg a ar v -> tin (rtype ar) (- v) -> emit_neg c a = Ok out ->
  gives inputs c e out (rtype ar) (- v).
Proof.
  intros A T. unfold emit_neg. rewrite (at_data _ _ _ A).
  destruct (at_facts _ _ _ A) as (H & J & S & _).
  assert (J2 : i64 (- v)) by (unfold tin, tsane, i64 in *; lia).
  destruct (at_const _ _ _ A) as [-> | ->]; cbn [bind].
  - unfold c_int64. rewrite (proj2 (in_i64_spec _) J2). cbn [bind].
    apply emit_const_gives; auto. now apply declared_held.
  - intros [= <-]. destruct A as [A1 A2]. apply add_gives; auto.
    + cbn [exec_op]. unfold get. rewrite A2. cbn [ebind]. now rewrite wrap_i64.
    + exact Logic.I.
Qed.

Lemma c_int64_ok z out : c_int64 z = Ok out -> out = z /\ i64 z.
Proof.
  unfold c_int64. destruct (in_i64 z) eqn:E; [| discriminate]. intros [= <-].
  split; [reflexivity | now apply in_i64_spec].
Qed.

Lemma holds_zero t : holds t 0.
Proof. apply repr_zero. Qed.

Definition both_fixed (l r : nat) : Prop :=
  (exists v, reg_const c l = Ok (Some v)) /\ exists v, reg_const c r = Ok (Some v).

Definition emit_sum (o : sumop) (chk : bool) (l r loc : nat) : res (code * nat) :=
  match o with
  | SPlus => emit_add_op c chk l r loc
  | SMinus => emit_sub_op c chk l r loc
  | STimes => emit_mul_op c chk l r loc
  end.

Lemma emit_sum_ok o chk l r loc lr rr a b out :
  at_reg l lr a -> at_reg r rr b -> rtype lr = rtype rr ->
  i64 (sum_value o a b) ->
  (chk = false -> holds (rtype lr) (sum_value o a b)) ->
  (~ holds (rtype lr) (sum_value o a b) -> ~ both_fixed l r /\ vtype_repr (rtype lr) <> U1) ->
  (o = SMinus -> reg_const c l = Ok (Some 0) -> a = 0 -> tin (rtype lr) (sum_value o a b)) ->
  emit_sum o chk l r loc = Ok out ->
  (holds (rtype lr) (sum_value o a b) -> gives inputs c e out (rtype lr) (sum_value o a b)) /\
  (~ holds (rtype lr) (sum_value o a b) -> stops inputs (fst out) Overflow loc).
Proof.
  intros A B Q J N F Z0.
  destruct (at_facts _ _ _ A) as (HA & JA & SA & TA & LA & UA).
  destruct (at_facts _ _ _ B) as (HB & JB & SB & TB & LB & UB).
  assert (CONST : forall v out, v = sum_value o a b -> both_fixed l r ->
            emit_const c (rtype lr) v = Ok out ->
            (holds (rtype lr) (sum_value o a b) -> gives inputs c e out (rtype lr) (sum_value o a b)) /\
            (~ holds (rtype lr) (sum_value o a b) -> stops inputs (fst out) Overflow loc)).
  { intros v o' -> X E. split.
    - intros H. now apply emit_const_gives.
    - intros H. destruct (F H) as [G _]. contradiction. }
  assert (FIX : reg_const c l = Ok (Some a) -> reg_const c r = Ok (Some b) -> both_fixed l r)
    by (split; eauto).
  assert (SAME : forall k x v, at_reg k x v -> rtype x = rtype lr -> v = sum_value o a b ->
            (holds (rtype lr) (sum_value o a b) -> gives inputs c e (c, k) (rtype lr) (sum_value o a b)) /\
            (~ holds (rtype lr) (sum_value o a b) -> stops inputs c Overflow loc)).
  { intros k x v K T ->. destruct (at_facts _ _ _ K) as (H & _). rewrite T in H. split.
    - intros _. now apply (at_gives k x).
    - contradiction. }
  assert (GEN : forall trap plain low high out,
            (forall t loc a b, exec_arith plain t loc a b = Val (wrap (sum_value o a b))) ->
            (forall t loc a b, exec_arith trap t loc a b = trapping (sum_value o) t loc a b) ->
            low <= sum_value o a b <= high -> i64 low -> i64 high ->
            emit_bounded c chk trap plain l r loc (rtype lr) low high = Ok out ->
            (holds (rtype lr) (sum_value o a b) -> gives inputs c e out (rtype lr) (sum_value o a b)) /\
            (~ holds (rtype lr) (sum_value o a b) -> stops inputs (fst out) Overflow loc)).
  { intros trap plain low high o' P1 P2 V IL IH E.
    destruct (emit_bounded_ok _ _ _ _ _ _ _ _ _ _ _ _ _ _ P1 P2 A B Q V IL IH J N E) as [G1 G2].
    split; [exact G1 |]. intros H. apply G2; [exact H |]. now destruct (F H). }
  destruct o; cbn [emit_sum].
  - unfold emit_add_op. rewrite (at_data _ _ _ A), (at_data _ _ _ B).
    assert (G0 : emit_bounded c chk KTrapAdd KAdd l r loc (rtype lr)
                   (sadd64 (tlow (rbounds lr)) (tlow (rbounds rr)))
                   (sadd64 (thigh (rbounds lr)) (thigh (rbounds rr))) = Ok out ->
                 (holds (rtype lr) (sum_value SPlus a b) -> gives inputs c e out (rtype lr) (sum_value SPlus a b)) /\
                 (~ holds (rtype lr) (sum_value SPlus a b) -> stops inputs (fst out) Overflow loc)).
    { rewrite !sadd_clamp by assumption. apply GEN; auto using clamp_i64; try reflexivity.
      rewrite <- (clamp_id _ J). unfold tin in *. cbn [sum_value].
      split; apply clamp_mono; lia. }
    destruct (at_const _ _ _ A) as [CA | CA]; destruct (at_const _ _ _ B) as [CB | CB];
      rewrite CA, CB; cbn [bind orb].
    + destruct (c_int64 (a + b)) as [v |] eqn:E; cbn [bind]; [| discriminate].
      apply c_int64_ok in E. destruct E as [-> _]. apply CONST; auto.
    + destruct (a =? 0) eqn:E; [| exact G0]. apply Z.eqb_eq in E. subst a. intros [= <-].
      apply (SAME r rr b); auto.
    + destruct (b =? 0) eqn:E; [| exact G0]. apply Z.eqb_eq in E. subst b. intros [= <-].
      apply (SAME l lr a); auto. cbn [sum_value]. lia.
    + exact G0.
  - unfold emit_sub_op. rewrite (at_data _ _ _ A), (at_data _ _ _ B).
    assert (G0 : emit_bounded c chk KTrapSub KSub l r loc (rtype lr)
                   (ssub64 (tlow (rbounds lr)) (thigh (rbounds rr)))
                   (ssub64 (thigh (rbounds lr)) (tlow (rbounds rr))) = Ok out ->
                 (holds (rtype lr) (sum_value SMinus a b) -> gives inputs c e out (rtype lr) (sum_value SMinus a b)) /\
                 (~ holds (rtype lr) (sum_value SMinus a b) -> stops inputs (fst out) Overflow loc)).
    { rewrite !ssub_clamp by assumption. apply GEN; auto using clamp_i64; try reflexivity.
      rewrite <- (clamp_id _ J). unfold tin in *. cbn [sum_value].
      split; apply clamp_mono; lia. }
    destruct (at_const _ _ _ A) as [CA | CA]; destruct (at_const _ _ _ B) as [CB | CB];
      rewrite CA, CB; cbn [bind orb].
    + destruct (c_int64 (a - b)) as [v |] eqn:E; cbn [bind]; [| discriminate].
      apply c_int64_ok in E. destruct E as [-> _]. apply CONST; auto.
    + destruct (a =? 0) eqn:E; [| exact G0]. apply Z.eqb_eq in E. subst a. intros E.
      assert (T : tin (rtype lr) (- b)).
      { specialize (Z0 eq_refl CA eq_refl). cbn [sum_value] in Z0. exact Z0. }
      cbn [sum_value]. replace (0 - b) with (- b) by lia. split.
      * intros _. rewrite Q in T |- *. now apply (emit_neg_ok r rr b).
      * intros H. now apply declared_held in T.
    + destruct (b =? 0) eqn:E; [| exact G0]. apply Z.eqb_eq in E. subst b. intros [= <-].
      apply (SAME l lr a); auto. cbn [sum_value]. lia.
    + exact G0.
  - unfold emit_mul_op. rewrite (at_data _ _ _ A), (at_data _ _ _ B).
    assert (G0 : emit_bounded c chk KTrapMul KMul l r loc (rtype lr)
      (Z.min (Z.min (smul64 (tlow (rbounds lr)) (tlow (rbounds rr))) (smul64 (tlow (rbounds lr)) (thigh (rbounds rr))))
             (Z.min (smul64 (thigh (rbounds lr)) (tlow (rbounds rr))) (smul64 (thigh (rbounds lr)) (thigh (rbounds rr)))))
      (Z.max (Z.max (smul64 (tlow (rbounds lr)) (tlow (rbounds rr))) (smul64 (tlow (rbounds lr)) (thigh (rbounds rr))))
             (Z.max (smul64 (thigh (rbounds lr)) (tlow (rbounds rr))) (smul64 (thigh (rbounds lr)) (thigh (rbounds rr)))))
                 = Ok out ->
                 (holds (rtype lr) (sum_value STimes a b) -> gives inputs c e out (rtype lr) (sum_value STimes a b)) /\
                 (~ holds (rtype lr) (sum_value STimes a b) -> stops inputs (fst out) Overflow loc)).
    { rewrite !smul_clamp by assumption.
      pose proof (corners _ _ _ _ a b TA TB) as K. cbn [sum_value] in J.
      set (p1 := tlow (rbounds lr) * tlow (rbounds rr)) in *.
      set (p2 := tlow (rbounds lr) * thigh (rbounds rr)) in *.
      set (p3 := thigh (rbounds lr) * tlow (rbounds rr)) in *.
      set (p4 := thigh (rbounds lr) * thigh (rbounds rr)) in *.
      rewrite <- !clamp_min, <- !clamp_max.
      apply GEN; auto using clamp_i64; try reflexivity.
      cbn [sum_value]. rewrite <- (clamp_id _ J).
      split; apply clamp_mono; apply K. }
    destruct (at_const _ _ _ A) as [CA | CA]; destruct (at_const _ _ _ B) as [CB | CB];
      rewrite CA, CB; cbn [bind orb].
    + destruct (c_int64 (a * b)) as [v |] eqn:E; cbn [bind]; [| discriminate].
      apply c_int64_ok in E. destruct E as [-> _]. apply CONST; auto.
    + destruct (a =? 1) eqn:E.
      { apply Z.eqb_eq in E. subst a. intros [= <-].
        apply (SAME r rr b); auto. cbn [sum_value]. lia. }
      destruct (a =? 0) eqn:E2; [| exact G0]. apply Z.eqb_eq in E2. subst a. intros E0.
      cbn [sum_value]. rewrite Z.mul_0_l. split.
      * intros _. apply emit_const_gives; auto using holds_zero.
      * intros H. now pose proof (holds_zero (rtype lr)).
    + destruct (b =? 1) eqn:E.
      { apply Z.eqb_eq in E. subst b. intros [= <-].
        apply (SAME l lr a); auto. cbn [sum_value]. lia. }
      destruct (b =? 0) eqn:E2; cbn [orb]; [| exact G0]. apply Z.eqb_eq in E2. subst b. intros E0.
      cbn [sum_value]. rewrite Z.mul_0_r. split.
      * intros _. apply emit_const_gives; auto using holds_zero.
      * intros H. now pose proof (holds_zero (rtype lr)).
    + exact G0.
Qed.

(* ---- division ---- *)

Lemma emit_zero_check_ok a ar v loc c' :
  at_reg a ar v -> emit_zero_check c a loc = Ok c' ->
  (v <> 0 -> inv inputs c' e /\ ext c c' e e /\ regs c' = regs c) /\
  (v = 0 -> stops inputs c' DivZero loc).
Proof.
  intros A. unfold emit_zero_check.
  assert (G : (match find_op (fun o => match o with
                            | OZeroCheck a' _ => if Nat.eqb a' a then Some tt else None
                            | _ => None
                            end) (ops c) with
    | Some _ => Ok c
    | None => Ok (add_check c (OZeroCheck a loc))
    end) = Ok c' ->
    (v <> 0 -> inv inputs c' e /\ ext c c' e e /\ regs c' = regs c) /\
    (v = 0 -> stops inputs c' DivZero loc)).
  { destruct A as [A V]. destruct (find_op _ (ops c)) as [[] |] eqn:F.
    - intros [= <-]. apply find_op_some in F. destruct F as (o & O1 & O2).
      destruct o; try discriminate. destruct (Nat.eqb_spec a0 a); [| discriminate]. subst.
      apply (op_in inputs c e I) in O1. destruct O1 as (w & W & NZ). split.
      + intros _. split; [exact I | split; [apply ext_refl | reflexivity]].
      + intros ->. congruence.
    - intros [= <-]. split.
      + intros NZ. destruct (add_check_inv inputs c e (OZeroCheck a loc) I) as [K1 K2].
        * cbn [exec_op]. unfold get. rewrite V. cbn [ebind]. apply Z.eqb_neq in NZ. now rewrite NZ.
        * cbn [op_ok]. eauto.
        * auto.
      + intros ->. apply check_stops. cbn [exec_op]. unfold get. rewrite V. reflexivity. }
  destruct (at_const _ _ _ A) as [-> | ->]; cbn [bind]; [| exact G].
  destruct (v =? 0) eqn:E; cbn [negb]; [exact G |]. apply Z.eqb_neq in E. intros [= <-].
  split; [| contradiction]. intros _. split; [exact I | split; [apply ext_refl | reflexivity]].
Qed.

Lemma holds_quot t a b : holds t a -> 0 < b -> holds t (Z.quot a b).
Proof.
  intros H P. pose proof (repr_zero (vtype_repr t)) as R. unfold holds in *.
  destruct (Z_le_dec 0 a) as [S | S].
  - pose proof (Z.quot_pos a b S P). pose proof (Z.quot_le_upper_bound a b a P ltac:(nia)). lia.
  - pose proof (Z.quot_opp_l a b ltac:(lia)) as O.
    pose proof (Z.quot_pos (- a) b ltac:(lia) P).
    pose proof (Z.quot_le_upper_bound (- a) b (- a) P ltac:(nia)). lia.
Qed.

Lemma emit_div_ok l r lr rr a b out :
  at_reg l lr a -> at_reg r rr b -> b <> 0 ->
  i64 (Z.quot a b) ->
  (if match reg_const c r with Ok (Some _) => true | _ => false end
   then 0 < b else tin (rtype lr) (Z.quot a b)) ->
  emit_div c l r = Ok out ->
  gives inputs c e out (rtype lr) (Z.quot a b) /\ holds (rtype lr) (Z.quot a b).
Proof.
  intros A B NZ J K. unfold emit_div. rewrite (at_data _ _ _ A).
  destruct (at_facts _ _ _ A) as (HA & JA & SA & TA & LA & UA).
  assert (HQ : holds (rtype lr) (Z.quot a b)).
  { destruct (reg_const c r) as [[|] |]; [now apply holds_quot | now apply declared_held ..]. }
  assert (X : exec_arith KDiv (rtype lr) 0 a b = Val (Z.quot a b)).
  { cbn [exec_arith]. unfold div_crash. apply Z.eqb_neq in NZ. rewrite NZ. cbn [orb].
    destruct ((a =? - M63) && (b =? -1)) eqn:Q; [| reflexivity].
    apply andb_true_iff in Q. rewrite !Z.eqb_eq in Q. destruct Q as [-> ->].
    exfalso. revert J. clear. vm_compute. intros [_ H]. now apply H. }
  destruct (at_const _ _ _ B) as [CB | CB].
  - rewrite CB in K.
    assert (G : (if b =? 1 then Ok (c, l)
    else
      do! (c, x) <- emit_arith c KDiv l r 0;
      if b =? 0 then Ok (c, x)
      else
        do! low <- c_div (tlow (rbounds lr)) b;
        do! high <- c_div (thigh (rbounds lr)) b;
        Ok (set_bounds c x low high, x)) = Ok out ->
       gives inputs c e out (rtype lr) (Z.quot a b)).
    { destruct (b =? 1) eqn:E.
      - apply Z.eqb_eq in E. subst b. intros [= <-]. rewrite Z.quot_1_r. now apply (at_gives l lr).
      - destruct (emit_arith c KDiv l r 0) as [[c1 x1] |] eqn:F; cbn [bind]; [| discriminate].
        apply Z.eqb_neq in NZ. rewrite NZ. unfold c_div. rewrite NZ.
        destruct (c_int64 (Z.quot (tlow (rbounds lr)) b)) as [lo |] eqn:F1; cbn [bind]; [| discriminate].
        destruct (c_int64 (Z.quot (thigh (rbounds lr)) b)) as [hi |] eqn:F2; cbn [bind]; [| discriminate].
        intros [= <-]. apply c_int64_ok in F1, F2. destruct F1 as [-> I1]. destruct F2 as [-> I2].
        destruct A as [A1 A2]. destruct B as [B1 B2]. unfold tin in TA.
        eapply emit_arith_bounded; eauto; [| apply I1 | apply I2].
        split; apply Z.quot_le_mono; lia. }
    rewrite CB. destruct (at_const _ _ _ A) as [-> | ->]; cbn [bind]; [| now split; auto].
    apply Z.eqb_neq in NZ. unfold c_div. rewrite NZ.
    destruct (c_int64 (Z.quot a b)) as [v |] eqn:F; cbn [bind]; [| discriminate].
    apply c_int64_ok in F. destruct F as [-> _]. intros E. split; [| exact HQ].
    now apply emit_const_gives.
  - rewrite CB in K. rewrite CB.
    destruct A as [A1 A2]. destruct B as [B1 B2].
    assert (G : emit_arith c KDiv l r 0 = Ok out -> gives inputs c e out (rtype lr) (Z.quot a b)).
    { intros E. eapply emit_arith_gives; eauto. }
    unfold reg_const. rewrite (reg_data_ok c l lr A1). cbn [bind].
    destruct (tlow (rbounds lr) =? thigh (rbounds lr)); split; auto.
Qed.

Lemma rem_exec a b : b <> 0 -> a - Z.quot a b * b = Z.rem a b.
Proof. intros H. pose proof (Z.quot_rem a b H). nia. Qed.

Lemma rem_mod_pos a b : 0 <= a -> 0 < b -> Z.modulo a b = Z.rem a b.
Proof. intros A B. symmetry. apply Z.rem_mod_nonneg; lia. Qed.

Lemma rem_bound a b : b <> 0 -> Z.abs (Z.rem a b) < Z.abs b.
Proof. intros H. pose proof (Z.rem_bound_abs a b H). lia. Qed.

Lemma no_crash t loc a b k v :
  b <> 0 -> i64 (Z.quot a b) ->
  (div_crash a b = false -> exec_arith k t loc a b = Val v) -> exec_arith k t loc a b = Val v.
Proof.
  intros NZ J H. apply H. unfold div_crash. apply Z.eqb_neq in NZ. rewrite NZ. cbn [orb].
  destruct ((a =? - M63) && (b =? -1)) eqn:Q; [| reflexivity].
  apply andb_true_iff in Q. rewrite !Z.eqb_eq in Q. destruct Q as [-> ->].
  exfalso. revert J. clear. vm_compute. intros [_ H]. now apply H.
Qed.

Lemma exec_rem t loc a b : b <> 0 -> i64 (Z.quot a b) -> exec_arith KRem t loc a b = Val (Z.rem a b).
Proof.
  intros NZ J. apply no_crash; auto. intros C. cbn [exec_arith]. rewrite C. now rewrite rem_exec.
Qed.

Lemma exec_mod t loc a b :
  b <> 0 -> i64 b -> i64 (Z.quot a b) -> exec_arith KMod t loc a b = Val (Z.modulo a b).
Proof.
  intros NZ JB J. apply no_crash; auto. intros C. cbn [exec_arith]. rewrite C. rewrite rem_exec by exact NZ.
  pose proof (Z.quot_rem a b NZ) as Q. pose proof (rem_bound a b NZ) as RB.
  set (q := Z.quot a b) in *. set (r := Z.rem a b) in *. clearbody q r.
  destruct (((0 <? r) && (b <? 0)) || ((r <? 0) && (0 <? b))) eqn:E.
  - rewrite orb_true_iff, !andb_true_iff, !Z.ltb_lt in E. rewrite wrap_i64 by (unfold i64, I64_MIN, I64_MAX in *; lia).
    f_equal. apply (Z.mod_unique a b (q - 1) (r + b)); [lia | nia].
  - rewrite orb_false_iff, !andb_false_iff, !Z.ltb_ge in E.
    f_equal. apply (Z.mod_unique a b q r); [lia | nia].
Qed.

Lemma emit_rem_ok l r lr rr a b out :
  at_reg l lr a -> at_reg r rr b -> b <> 0 -> i64 (Z.quot a b) -> tin (rtype lr) (Z.rem a b) ->
  emit_rem c l r = Ok out -> gives inputs c e out (rtype lr) (Z.rem a b).
Proof.
  intros A B NZ J T. unfold emit_rem. rewrite (at_data _ _ _ A), (at_data _ _ _ B).
  destruct (at_facts _ _ _ A) as (HA & JA & SA & TA & LA & UA).
  destruct (at_facts _ _ _ B) as (HB & JB & SB & TB & LB & UB).
  assert (JR : i64 (Z.rem a b)) by (unfold tin, tsane, i64 in *; lia).
  assert (HR : holds (rtype lr) (Z.rem a b)) by now apply declared_held.
  pose proof (exec_rem (rtype lr) 0 a b NZ J) as X.
  assert (G : (do! (c, x) <- emit_arith c KRem l r 0;
    if (0 <=? tlow (rbounds lr)) && (0 <=? tlow (rbounds rr)) then
      do! h <- c_int64 (thigh (rbounds rr) - 1);
      Ok (set_bounds c x 0 h, x)
    else Ok (c, x)) = Ok out -> gives inputs c e out (rtype lr) (Z.rem a b)).
  { destruct (emit_arith c KRem l r 0) as [[c1 x1] |] eqn:F; cbn [bind]; [| discriminate].
    destruct A as [A1 A2]. destruct B as [B1 B2].
    destruct ((0 <=? tlow (rbounds lr)) && (0 <=? tlow (rbounds rr))) eqn:P.
    - apply andb_true_iff in P. rewrite !Z.leb_le in P.
      destruct (c_int64 (thigh (rbounds rr) - 1)) as [h |] eqn:F1; cbn [bind]; [| discriminate].
      apply c_int64_ok in F1. destruct F1 as [-> I1]. intros [= <-].
      unfold tin in TA, TB.
      pose proof (Z.rem_nonneg a b NZ ltac:(lia)). pose proof (rem_bound a b NZ).
      eapply emit_arith_bounded; eauto; [lia | unfold I64_MIN; lia | apply I1].
    - intros [= <-]. eapply emit_arith_gives; eauto. }
  destruct (at_const _ _ _ A) as [-> | ->]; destruct (at_const _ _ _ B) as [-> | ->];
    cbn [bind]; try exact G.
  destruct ((0 <? a) && (0 <? b)); [| exact G]. intros E. now apply emit_const_gives.
Qed.

Lemma emit_mod_ok l r lr rr a b out :
  at_reg l lr a -> at_reg r rr b -> b <> 0 -> i64 (Z.quot a b) -> tin (rtype lr) (Z.modulo a b) ->
  emit_mod c l r = Ok out -> gives inputs c e out (rtype lr) (Z.modulo a b).
Proof.
  intros A B NZ J T. unfold emit_mod. rewrite (at_data _ _ _ A), (at_data _ _ _ B).
  destruct (at_facts _ _ _ A) as (HA & JA & SA & TA & LA & UA).
  destruct (at_facts _ _ _ B) as (HB & JB & SB & TB & LB & UB).
  assert (JR : i64 (Z.modulo a b)) by (unfold tin, tsane, i64 in *; lia).
  assert (HR : holds (rtype lr) (Z.modulo a b)) by now apply declared_held.
  assert (G : (if (0 <=? tlow (rbounds lr)) && (0 <=? tlow (rbounds rr)) then
      do! (c, x) <- emit_arith c KRem l r 0;
      do! h <- c_int64 (thigh (rbounds rr) - 1);
      Ok (set_bounds c x 0 (Z.max 0 h), x)
    else emit_arith c KMod l r 0) = Ok out -> gives inputs c e out (rtype lr) (Z.modulo a b)).
  { destruct A as [A1 A2]. destruct B as [B1 B2].
    destruct ((0 <=? tlow (rbounds lr)) && (0 <=? tlow (rbounds rr))) eqn:P.
    - apply andb_true_iff in P. rewrite !Z.leb_le in P. unfold tin in TA, TB.
      rewrite rem_mod_pos in * by lia.
      pose proof (exec_rem (rtype lr) 0 a b NZ J) as X.
      destruct (emit_arith c KRem l r 0) as [[c1 x1] |] eqn:F; cbn [bind]; [| discriminate].
      destruct (c_int64 (thigh (rbounds rr) - 1)) as [h |] eqn:F1; cbn [bind]; [| discriminate].
      apply c_int64_ok in F1. destruct F1 as [-> I1]. intros [= <-].
      pose proof (Z.rem_nonneg a b NZ ltac:(lia)). pose proof (rem_bound a b NZ).
      eapply emit_arith_bounded; eauto; [lia | unfold I64_MIN; lia | unfold i64, I64_MAX in *; lia].
    - intros E. eapply emit_arith_gives; eauto. now apply exec_mod. }
  destruct (at_const _ _ _ A) as [-> | ->]; destruct (at_const _ _ _ B) as [-> | ->];
    cbn [bind]; try exact G.
  destruct ((0 <? a) && (0 <? b)) eqn:P; [| exact G]. intros E.
  apply andb_true_iff in P. rewrite !Z.ltb_lt in P. rewrite rem_mod_pos in * by lia.
  now apply emit_const_gives.
Qed.

(* ---- negation and absolute value ---- *)

Lemma size_min_low t v :
  holds t v -> v < 0 -> (size_min (jit_size t) <? v) = true <-> holds t (- v).
Proof.
  unfold holds, jit_size. intros H N. rewrite Z.ltb_lt.
  destruct (vtype_repr t); cbn [size_min vtype_repr_low vtype_repr_high] in *;
    unfold I64_MIN, I64_MAX in *; lia.
Qed.

Lemma size_min_neg s : size_min s <= 0.
Proof. destruct s; cbn; unfold I64_MIN; lia. Qed.

Lemma size_min_pos t v : 0 <= v -> (size_min (jit_size t) <? v) = true.
Proof. intros H. apply Z.ltb_lt. unfold jit_size. destruct (vtype_repr t); cbn; unfold I64_MIN; lia. Qed.

Lemma emit_trap_neg_ok a ar v loc out :
  at_reg a ar v -> emit_trap_neg c a loc = Ok out ->
  (tin (rtype ar) (- v) -> gives inputs c e out (rtype ar) (- v)) /\
  (v < 0 -> ~ holds (rtype ar) (- v) -> stops inputs (fst out) Overflow loc).
Proof.
  intros A. unfold emit_trap_neg. rewrite (at_data _ _ _ A).
  destruct (at_facts _ _ _ A) as (H & J & S & TA & _).
  assert (G : Ok (add_op c (rtype ar) (OTrapNeg (rtype ar) a loc)) = Ok out ->
    (tin (rtype ar) (- v) -> gives inputs c e out (rtype ar) (- v)) /\
    (v < 0 -> ~ holds (rtype ar) (- v) -> stops inputs (fst out) Overflow loc)).
  { intros [= <-]. destruct A as [A1 A2]. split.
    - intros T. assert (J2 : i64 (- v)) by (unfold tin, tsane, i64 in *; lia).
      apply add_gives; auto; [| exact Logic.I].
      cbn [exec_op]. unfold get. rewrite A2. cbn [ebind].
      replace (size_min (jit_size (rtype ar)) <? v) with true; [now rewrite wrap_i64 |].
      symmetry. destruct (Z_lt_dec v 0) as [P | P].
      + apply size_min_low; auto. now apply declared_held.
      + apply size_min_pos. lia.
    - intros P N. apply add_stops. cbn [exec_op]. unfold get. rewrite A2. cbn [ebind].
      destruct (size_min (jit_size (rtype ar)) <? v) eqn:Q; [| reflexivity].
      apply size_min_low in Q; auto. contradiction. }
  destruct (at_const _ _ _ A) as [-> | ->]; cbn [bind].
  - destruct (0 <=? v) eqn:P; [| exact G]. apply Z.leb_le in P.
    destruct (c_int64 (- v)) as [w |] eqn:F; cbn [bind]; [| discriminate].
    apply c_int64_ok in F. destruct F as [-> JV]. intros E. split; [| lia].
    intros T. apply emit_const_gives; auto. now apply declared_held.
  - destruct (0 <=? tlow (rbounds ar)) eqn:P; [| exact G]. apply Z.leb_le in P.
    intros E. split; [| unfold tin in TA; lia]. intros T. now apply emit_neg_ok with (a := a).
Qed.

Lemma emit_abs_ok a ar v out :
  at_reg a ar v -> tin (rtype ar) (Z.abs v) -> emit_abs c a = Ok out ->
  gives inputs c e out (rtype ar) (Z.abs v).
Proof.
  intros A T. unfold emit_abs. rewrite (at_data _ _ _ A).
  destruct (at_facts _ _ _ A) as (H & J & S & _).
  assert (J2 : i64 (Z.abs v)) by (unfold tin, tsane, i64 in *; lia).
  destruct (at_const _ _ _ A) as [-> | ->]; cbn [bind].
  - unfold c_int64. rewrite (proj2 (in_i64_spec _) J2). cbn [bind].
    apply emit_const_gives; auto. now apply declared_held.
  - intros [= <-]. destruct A as [A1 A2]. apply add_gives; auto.
    + cbn [exec_op]. unfold get. rewrite A2. cbn [ebind]. do 3 f_equal.
      destruct (v <? 0) eqn:N; [apply Z.ltb_lt in N | apply Z.ltb_ge in N]; [| lia].
      rewrite wrap_i64; unfold i64 in *; lia.
    + exact Logic.I.
Qed.

(* ---- comparison and logic ---- *)

Lemma bool_sane : tsane vtype_bool.
Proof. split; cbn; unfold I64_MIN, I64_MAX; lia. Qed.

Lemma bool_in b : tin vtype_bool (b2z b) /\ i64 (b2z b) /\ holds vtype_bool (b2z b).
Proof.
  unfold tin, i64, holds, I64_MIN, I64_MAX. destruct b; cbn; lia.
Qed.

Lemma bool_const b out :
  emit_const c vtype_bool (b2z b) = Ok out -> gives inputs c e out vtype_bool (b2z b).
Proof.
  destruct (bool_in b) as (A & B & C). apply emit_const_gives; auto. apply bool_sane.
Qed.

Lemma bool_val r x v : at_reg r x v -> rtype x = vtype_bool -> v = b2z (truth v).
Proof.
  intros A T. destruct (at_facts _ _ _ A) as (H & _). rewrite T in H. unfold holds in H. cbn in H.
  assert (Q : v = 0 \/ v = 1) by lia. destruct Q as [-> | ->]; reflexivity.
Qed.

Definition cmp_value (k : cmp) (a b : Z) : bool :=
  match k with
  | CEq => a =? b | CNeq => negb (a =? b) | CLt => a <? b | CGt => b <? a
  | CLeq => a <=? b | CGeq => b <=? a
  end.

Lemma emit_cmp_ok k l r lr rr a b out :
  at_reg l lr a -> at_reg r rr b -> emit_cmp c k l r = Ok out ->
  gives inputs c e out vtype_bool (b2z (cmp_value k a b)).
Proof.
  intros A B. unfold emit_cmp. destruct (Nat.eqb_spec l r) as [-> | N].
  - destruct A as [A1 A2], B as [B1 B2]. assert (a = b) by congruence. subst b.
    replace (cmp_value k a a) with (match k with CEq | CLeq | CGeq => true | CNeq | CLt | CGt => false end).
    + intros E. apply bool_const. now destruct k.
    + destruct k; cbn [cmp_value]; rewrite ?Z.eqb_refl, ?Z.ltb_irrefl, ?Z.leb_refl; reflexivity.
  - assert (G : match find_op (fun o => match o with
                              | OCmp k' l' r' x =>
                                if Nat.eqb l' l && Nat.eqb r' r && cmp_eqb k' k then Some x else None
                              | _ => None
                              end) (ops c) with
      | Some x => Ok (c, x)
      | None =>
        do! lr <- reg_data c l;
        do! rr <- reg_data c r;
        if vtype_eqb (rtype lr) (rtype rr) then Ok (add_op c vtype_bool (OCmp k l r)) else Fault
      end = Ok out -> gives inputs c e out vtype_bool (b2z (cmp_value k a b))).
    { rewrite (at_data _ _ _ A), (at_data _ _ _ B). destruct A as [A1 A2], B as [B1 B2].
      destruct (find_op _ (ops c)) as [x |] eqn:F.
      - intros [= <-]. apply find_op_some in F. destruct F as (o & O1 & O2).
        destruct o; try discriminate.
        destruct (Nat.eqb l0 l && Nat.eqb r0 r && cmp_eqb c0 k) eqn:Q; [| discriminate].
        injection O2 as ->. rewrite !andb_true_iff, !Nat.eqb_eq in Q. destruct Q as [[-> ->] Q].
        apply cmp_eqb_eq in Q. subst.
        apply (op_in inputs c e I) in O1. destruct O1 as (a' & b' & W1 & W2 & W3 & xr & W4 & W5).
        rewrite A2 in W1. injection W1 as <-. rewrite B2 in W2. injection W2 as <-.
        apply (at_gives x xr); [| exact W5]. split; assumption.
      - cbn [bind]. destruct (vtype_eqb (rtype lr) (rtype rr)); [| discriminate]. intros [= <-].
        destruct (bool_in (cmp_value k a b)) as (T1 & T2 & T3).
        apply add_gives; auto using bool_sane.
        + cbn [exec_op]. unfold get. rewrite A2, B2. cbn [ebind]. reflexivity.
        + cbn [op_ok]. exists a, b. split; [now apply nth_app_some |]. split; [now apply nth_app_some |].
          rewrite <- (i_len _ _ _ _ I). split; [apply nth_app_last |].
          exists (Reg vtype_bool vtype_bool). rewrite (i_len _ _ _ _ I). split; [apply nth_app_last | reflexivity]. }
    destruct (at_const _ _ _ A) as [-> | ->]; destruct (at_const _ _ _ B) as [-> | ->];
      cbn [bind]; try exact G. apply bool_const.
Qed.

Lemma emit_not_ok a ar v out :
  at_reg a ar v -> rtype ar = vtype_bool -> emit_not c a = Ok out ->
  gives inputs c e out vtype_bool (b2z (negb (truth v))).
Proof.
  intros A T. unfold emit_not. rewrite (at_data _ _ _ A). unfold truth. rewrite negb_involutive.
  destruct (at_const _ _ _ A) as [-> | ->]; cbn [bind].
  - apply bool_const.
  - rewrite T. rewrite vtype_eqb_refl. intros [= <-]. destruct A as [A1 A2].
    destruct (bool_in (v =? 0)) as (T1 & T2 & T3).
    apply add_gives; auto using bool_sane; [| exact Logic.I].
    cbn [exec_op]. unfold get. rewrite A2. reflexivity.
Qed.

Lemma emit_identity_ok o r rr v b out :
  at_reg r rr v -> rtype rr = vtype_bool ->
  emit_logical_identity c (logic_kind o) r b = Ok out ->
  gives inputs c e out vtype_bool (b2z (logic_value o b (truth v))).
Proof.
  intros A T. pose proof (bool_val _ _ _ A T) as V.
  assert (G : Ok (c, r) = Ok out -> gives inputs c e out vtype_bool (b2z (truth v))).
  { intros [= <-]. rewrite <- V. now apply (at_gives r rr). }
  pose proof (emit_not_ok r rr v out A T) as N.
  pose proof (bool_const true out) as C1. pose proof (bool_const false out) as C0.
  destruct o, b; cbn [logic_kind emit_logical_identity logic_value andb orb];
    rewrite ?xorb_true_l, ?xorb_false_l, ?negb_involutive; auto.
Qed.

Lemma logic_comm o a b : logic_value o a b = logic_value o b a.
Proof. destruct o, a, b; reflexivity. Qed.

Lemma emit_logical_ok o l r lr rr a b out :
  at_reg l lr a -> at_reg r rr b -> rtype lr = vtype_bool -> rtype rr = vtype_bool ->
  emit_logical c (logic_kind o) l r = Ok out ->
  gives inputs c e out vtype_bool (b2z (logic_value o (truth a) (truth b))).
Proof.
  intros A B TA TB. unfold emit_logical.
  pose proof (bool_val _ _ _ A TA) as VA. pose proof (bool_val _ _ _ B TB) as VB.
  destruct (at_const _ _ _ A) as [CA | CA]; destruct (at_const _ _ _ B) as [CB | CB];
    rewrite CA, CB; cbn [bind].
  - intros E. apply bool_const. rewrite VA, VB in E.
    revert E. destruct o, (truth a), (truth b); cbn; auto.
  - intros E. now apply (emit_identity_ok o r rr).
  - intros E. rewrite logic_comm. now apply (emit_identity_ok o l lr).
  - destruct (Nat.eqb_spec l r) as [-> | N].
    + assert (a = b) by (destruct A, B; congruence). subst b.
      assert (G : Ok (c, r) = Ok out -> gives inputs c e out vtype_bool (b2z (truth a))).
      { intros [= <-]. rewrite <- VA. now apply (at_gives r lr). }
      pose proof (emit_not_ok r lr a out A TA) as NN.
      pose proof (bool_const true out) as C1. pose proof (bool_const false out) as C0.
      destruct o; cbn [logic_kind logic_value]; rewrite ?andb_diag, ?orb_diag, ?xorb_nilpotent; auto.
    + rewrite (at_data _ _ _ A), (at_data _ _ _ B). cbn [bind]. rewrite TA, TB, vtype_eqb_refl. cbn [andb].
      destruct A as [A1 A2], B as [B1 B2]. intros E.
      destruct (bool_in (logic_value o (truth a) (truth b))) as (T1 & T2 & T3).
      rewrite <- TA in *.
      eapply emit_arith_gives; eauto.
      rewrite VA, VB. destruct o, (truth a), (truth b); reflexivity.
Qed.

Lemma emit_select_ok t a b tr ar br tv av bv out :
  at_reg t tr tv -> at_reg a ar av -> at_reg b br bv -> rtype ar = rtype br ->
  tin (rtype ar) (if truth tv then av else bv) ->
  emit_select c t a b = Ok out ->
  gives inputs c e out (rtype ar) (if truth tv then av else bv).
Proof.
  intros T A B Q D. unfold emit_select.
  destruct (at_const _ _ _ T) as [-> | ->]; cbn [bind].
  - intros [= <-]. destruct (truth tv); [now apply (at_gives a ar) | now apply (at_gives b br)].
  - destruct (Nat.eqb_spec a b) as [-> | N].
    + intros [= <-]. assert (av = bv) by (destruct A, B; congruence). subst bv.
      destruct (truth tv); now apply (at_gives b ar).
    + rewrite (at_data _ _ _ T), (at_data _ _ _ A), (at_data _ _ _ B).
      destruct (at_facts _ _ _ A) as (HA & JA & SA & _). destruct (at_facts _ _ _ B) as (HB & JB & SB & _).
      destruct T as [T1 T2], A as [A1 A2], B as [B1 B2].
      destruct (find_op _ (ops c)) as [x |] eqn:F.
      * intros [= <-]. apply find_op_some in F. destruct F as (o & O1 & O2).
        destruct o; try discriminate.
        destruct (Nat.eqb t0 t && Nat.eqb a0 a && Nat.eqb b0 b) eqn:P; [| discriminate].
        injection O2 as ->. rewrite !andb_true_iff, !Nat.eqb_eq in P. destruct P as [[-> ->] ->].
        apply (op_in inputs c e I) in O1.
        destruct O1 as (t' & a' & b' & W1 & W2 & W3 & W4 & ar' & xr & W5 & W6 & W7).
        rewrite T2 in W1. injection W1 as <-. rewrite A2 in W2. injection W2 as <-.
        rewrite B2 in W3. injection W3 as <-. rewrite A1 in W5. injection W5 as <-.
        apply (at_gives x xr); [| exact W7]. split; assumption.
      * cbn [bind]. destruct (vtype_eqb (rtype tr) vtype_bool && vtype_eqb (rtype ar) (rtype br)); [| discriminate].
        intros [= <-]. apply add_gives; auto.
        -- cbn [exec_op]. unfold get. rewrite T2, A2, B2. reflexivity.
        -- destruct (truth tv); assumption.
        -- cbn [op_ok]. exists tv, av, bv. split; [now apply nth_app_some |].
           split; [now apply nth_app_some |]. split; [now apply nth_app_some |].
           rewrite <- (i_len _ _ _ _ I). split; [apply nth_app_last |].
           exists ar, (Reg (rtype ar) (rtype ar)). split; [now apply nth_app_some |].
           rewrite (i_len _ _ _ _ I). split; [apply nth_app_last | reflexivity].
Qed.

Lemma emit_cast_ok t bd a ar v out :
  at_reg a ar v -> tsane t -> tsane bd -> tin t v -> tin bd v ->
  emit_cast c t (Some bd) a = Ok out -> gives inputs c e out t v.
Proof.
  intros A S SB T TB. unfold emit_cast. rewrite (at_data _ _ _ A). cbn [bind].
  destruct (at_facts _ _ _ A) as (HA & JA & SA & TA & LA & UA).
  pose proof (declared_held _ _ S T) as H.
  destruct (vtype_eqb (rtype ar) t) eqn:Q.
  - apply vtype_eqb_eq in Q. intros [= <-]. now apply (at_gives a ar).
  - destruct (at_const _ _ _ A) as [-> | ->]; cbn [bind].
    + intros E. now apply emit_const_gives.
    + destruct A as [A1 A2]. destruct (find_op _ (ops c)) as [x |] eqn:F.
      * intros [= <-]. apply find_op_some in F. destruct F as (o & O1 & O2).
        destruct o; try discriminate.
        destruct (vtype_eqb t0 t && Nat.eqb a0 a) eqn:P; [| discriminate].
        injection O2 as ->. rewrite andb_true_iff, Nat.eqb_eq in P. destruct P as [P ->].
        apply vtype_eqb_eq in P. subst. apply (op_in inputs c e I) in O1.
        destruct O1 as (a' & W1 & W2 & xr & W3 & W4).
        rewrite A2 in W1. injection W1 as <-. apply (at_gives x xr); [| exact W4]. split; assumption.
      * pose proof (add_op_inv inputs c e t (OCast t a) v I) as K.
        destruct (add_op c t (OCast t a)) as [c1 x1] eqn:E. unfold add_op in E.
        injection E as <- <-. cbn [fst] in K.
        destruct K as (K1 & K2 & K3 & K4); auto.
        { cbn [exec_op]. unfold get. rewrite A2. reflexivity. }
        { cbn [op_ok]. exists v. split; [now apply nth_app_some |]. rewrite <- (i_len _ _ _ _ I).
          split; [apply nth_app_last |]. rewrite (i_len _ _ _ _ I).
          exists (Reg t t). split; [apply nth_app_last | reflexivity]. }
        intros [= <-]. set (c1 := Code _ _) in *.
        match goal with |- gives _ _ _ (set_bounds _ _ ?lo ?hi, _) _ _ =>
          destruct (types_set_bounds c1 (length (regs c)) lo hi _ _ K3) as (x' & X1 & X2) end.
        exists (e ++ [v]), x'. cbn [fst snd].
        split; [| split; [| split; [exact K2 | split; [exact X1 | exact X2]]]].
        -- apply (set_bounds_inv inputs c1 _ _ v); auto; unfold tin, tsane, i64, I64_MIN, I64_MAX in *; lia.
        -- eapply ext_trans; [exact K4 | apply set_bounds_ext].
Qed.

Lemma emit_input_ok t bd n out :
  tsane t -> tsane bd -> tin bd (inputs n) -> holds t (inputs n) ->
  emit_input c t bd n = Ok out -> gives inputs c e out t (inputs n).
Proof.
  intros S SB T H. unfold emit_input.
  assert (J : i64 (inputs n)) by (unfold tin, tsane, i64 in *; lia).
  pose proof (add_op_inv inputs c e t (OInput n) (inputs n) I eq_refl H J S Logic.I) as K.
  destruct (add_op c t (OInput n)) as [c1 x1] eqn:E. unfold add_op in E.
  injection E as <- <-. cbn [fst] in K. destruct K as (K1 & K2 & K3 & K4).
  intros [= <-]. set (c1 := Code _ _) in *.
  destruct (types_set_bounds c1 (length (regs c)) (tlow bd) (thigh bd) _ _ K3) as (x' & X1 & X2).
  exists (e ++ [inputs n]), x'. cbn [fst snd].
  split; [| split; [| split; [exact K2 | split; [exact X1 | exact X2]]]].
  - apply (set_bounds_inv inputs c1 _ _ (inputs n)); auto; apply SB.
  - eapply ext_trans; [exact K4 | apply set_bounds_ext].
Qed.

(* ---- range checks ---- *)

Definition in_dir (lv rv dv v : Z) : Prop := if dv =? 1 then rv <= v <= lv else lv <= v <= rv.

Lemma emit_range_check_ok a l r d ar lr rr dr av lv rv dv loc c' :
  at_reg a ar av -> at_reg l lr lv -> at_reg r rr rv -> at_reg d dr dv ->
  dv = 0 \/ dv = 1 ->
  emit_range_check c a l r d loc = Ok c' ->
  (in_dir lv rv dv av -> inv inputs c' e /\ ext c c' e e /\ regs c' = regs c) /\
  (~ in_dir lv rv dv av -> stops inputs c' OutOfRange loc).
Proof.
  intros A L R D DD. unfold emit_range_check.
  assert (SAME : in_dir lv rv dv av ->
    (in_dir lv rv dv av -> inv inputs c e /\ ext c c e e /\ regs c = regs c) /\
    (~ in_dir lv rv dv av -> stops inputs c OutOfRange loc)).
  { intros H. split; [| contradiction]. intros _. split; [exact I | split; [apply ext_refl | reflexivity]]. }
  destruct (find_op _ (ops c)) as [[] |] eqn:F.
  - intros [= <-]. apply SAME. apply find_op_some in F. destruct F as (o & O1 & O2).
    destruct o; try discriminate.
    destruct (Nat.eqb a0 a && Nat.eqb left_ l && Nat.eqb right_ r && Nat.eqb dir d) eqn:P; [| discriminate].
    rewrite !andb_true_iff, !Nat.eqb_eq in P. destruct P as [[[-> ->] ->] ->].
    apply (op_in inputs c e I) in O1. destruct O1 as (a' & l' & r' & d' & W1 & W2 & W3 & W4 & W5).
    destruct A as [_ A], L as [_ L], R as [_ R], D as [_ D].
    rewrite A in W1. injection W1 as <-. rewrite L in W2. injection W2 as <-.
    rewrite R in W3. injection W3 as <-. rewrite D in W4. injection W4 as <-.
    exact W5.
  - destruct (can_elide_bounds c a l r d) as [[|] |] eqn:E; cbn [bind]; [| | discriminate].
    + intros [= <-]. apply SAME. revert E. unfold can_elide_bounds.
      rewrite (at_data _ _ _ A).
      destruct (at_facts _ _ _ A) as (_ & _ & _ & TA & _).
      destruct (at_const _ _ _ D) as [-> | ->]; destruct (at_const _ _ _ L) as [-> | ->];
        destruct (at_const _ _ _ R) as [-> | ->]; cbn [bind]; try discriminate.
      intros [= E].
      assert (AL : Nat.eqb a l = true -> av = lv).
      { intros Q. apply Nat.eqb_eq in Q. subst. destruct A, L. congruence. }
      assert (AR : Nat.eqb a r = true -> av = rv).
      { intros Q. apply Nat.eqb_eq in Q. subst. destruct A, R. congruence. }
      unfold in_dir, tin, RANGE_TO, RANGE_DOWNTO in *.
      destruct DD as [-> | ->]; cbn [Z.eqb andb orb Pos.eqb] in *.
      * rewrite !orb_false_r in E. rewrite orb_true_iff, !andb_true_iff, negb_true_iff, orb_true_iff in E.
        destruct E as [E | [E1 [E2 | E2]]].
        -- rewrite !Z.leb_le in E. lia.
        -- apply AL in E2. apply Z.ltb_ge in E1. lia.
        -- apply AR in E2. apply Z.ltb_ge in E1. lia.
      * rewrite orb_true_iff, !andb_true_iff, negb_true_iff, orb_true_iff in E.
        destruct E as [E | [E1 [E2 | E2]]].
        -- rewrite !Z.leb_le in E. lia.
        -- apply AL in E2. apply Z.ltb_ge in E1. lia.
        -- apply AR in E2. apply Z.ltb_ge in E1. lia.
    + intros [= <-]. destruct A as [A1 A], L as [L1 L], R as [R1 R], D as [D1 D].
      assert (X : exec_op inputs e (ORangeCheck a l r d loc) =
                  if ((if dv =? 1 then rv else lv) <=? av) && (av <=? (if dv =? 1 then lv else rv))
                  then Val e else Err OutOfRange loc).
      { cbn [exec_op]. unfold get. rewrite A, L, R, D. reflexivity. }
      assert (Q : ((if dv =? 1 then rv else lv) <=? av) && (av <=? (if dv =? 1 then lv else rv)) = true <->
                  in_dir lv rv dv av).
      { unfold in_dir. rewrite andb_true_iff, !Z.leb_le. destruct (dv =? 1); tauto. }
      split.
      * intros H. destruct (add_check_inv inputs c e (ORangeCheck a l r d loc) I) as [K1 K2]; auto.
        -- rewrite X. apply Q in H. now rewrite H.
        -- cbn [op_ok]. exists av, lv, rv, dv. auto 8.
      * intros H. apply check_stops. rewrite X.
        destruct (((if dv =? 1 then rv else lv) <=? av) && (av <=? (if dv =? 1 then lv else rv)));
          [tauto | reflexivity].
Qed.

End Emit.
