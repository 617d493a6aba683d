(* Straight-line code: induction over the steps. *)
From Coq Require Import List ZArith Arith Bool Lia.
From Verif Require Import Base JitModel ArithSpec ArithModel ArithProofs ArithEmit.
Import ListNotations.
Local Open Scope Z_scope.

(* ---- emitters only add operations ---- *)

Definition opsx (c c' : code) : Prop := exists more, ops c' = ops c ++ more.

Lemma opsx_refl c : opsx c c.
Proof. exists []. now rewrite app_nil_r. Qed.
Lemma opsx_trans a b c : opsx a b -> opsx b c -> opsx a c.
Proof. intros [m M] [n N]. exists (m ++ n). now rewrite N, M, app_assoc. Qed.
Lemma opsx_add c t mk : opsx c (fst (add_op c t mk)).
Proof. now exists [mk (length (regs c))]. Qed.
Lemma opsx_check c o : opsx c (add_check c o).
Proof. now exists [o]. Qed.
Lemma opsx_bounds c c' r lo hi : opsx c c' -> opsx c (set_bounds c' r lo hi).
Proof. intros [m M]. exists m. now rewrite ops_set_bounds. Qed.

Ltac crack :=
  repeat match goal with
  | H : bind ?x _ = Ok _ |- _ => destruct x eqn:?; cbn [bind] in H; [| discriminate]
  | H : Ok _ = Ok _ |- _ => injection H; intros; subst; clear H
  | H : Fault = Ok _ |- _ => discriminate
  | H : (let (_, _) := ?p in _) = Ok _ |- _ => destruct p eqn:?
  | H : match ?x with _ => _ end = Ok _ |- _ => destruct x eqn:?
  end; cbn [fst] in *.

Lemma opsx_const c t v out : emit_const c t v = Ok out -> opsx c (fst out).
Proof.
  unfold emit_const. destruct (find_op _ (ops c)); intros H; [injection H as <-; apply opsx_refl |].
  unfold add_op in H. injection H as <-. cbn [fst]. apply opsx_bounds. now exists [OConst v t (length (regs c))].
Qed.
Lemma opsx_arith c k l r loc out : emit_arith c k l r loc = Ok out -> opsx c (fst out).
Proof.
  unfold emit_arith. intros H. crack; [apply opsx_refl | apply opsx_add].
Qed.
Lemma opsx_bounded c i k1 k2 l r loc t lo hi out :
  emit_bounded c i k1 k2 l r loc t lo hi = Ok out -> opsx c (fst out).
Proof.
  unfold emit_bounded. intros H. crack; apply opsx_bounds;
    match goal with H : emit_arith _ _ _ _ _ = _ |- _ => now apply opsx_arith in H end.
Qed.
Lemma opsx_neg c a out : emit_neg c a = Ok out -> opsx c (fst out).
Proof. unfold emit_neg. intros H. crack; eauto using opsx_const. apply opsx_add. Qed.
Lemma opsx_sum c o chk l r loc out : emit_sum c o chk l r loc = Ok out -> opsx c (fst out).
Proof.
  destruct o; cbn [emit_sum]; unfold emit_add_op, emit_sub_op, emit_mul_op; intros H; crack;
    eauto using opsx_const, opsx_bounded, opsx_neg, opsx_refl.
Qed.
Lemma opsx_div c l r out : emit_div c l r = Ok out -> opsx c (fst out).
Proof.
  unfold emit_div. intros H. crack; eauto using opsx_const, opsx_arith, opsx_refl;
    try apply opsx_bounds; match goal with H : emit_arith _ _ _ _ _ = _ |- _ => now apply opsx_arith in H end.
Qed.
Lemma opsx_rem c l r out : emit_rem c l r = Ok out -> opsx c (fst out).
Proof.
  unfold emit_rem. intros H. crack; eauto using opsx_const;
    try apply opsx_bounds; match goal with H : emit_arith _ _ _ _ _ = _ |- _ => now apply opsx_arith in H end.
Qed.
Lemma opsx_mod c l r out : emit_mod c l r = Ok out -> opsx c (fst out).
Proof.
  unfold emit_mod. intros H. crack; eauto using opsx_const, opsx_arith;
    try apply opsx_bounds; match goal with H : emit_arith _ _ _ _ _ = _ |- _ => now apply opsx_arith in H end.
Qed.
Lemma opsx_not c a out : emit_not c a = Ok out -> opsx c (fst out).
Proof. unfold emit_not. intros H. crack; eauto using opsx_const, opsx_add. Qed.
Lemma opsx_identity c k r b out : emit_logical_identity c k r b = Ok out -> opsx c (fst out).
Proof. unfold emit_logical_identity. intros H. crack; eauto using opsx_const, opsx_not, opsx_refl. Qed.
Lemma opsx_logical c k l r out : emit_logical c k l r = Ok out -> opsx c (fst out).
Proof.
  unfold emit_logical. intros H.
  crack; eauto using opsx_const, opsx_not, opsx_refl, opsx_identity, opsx_arith.
Qed.
Lemma opsx_zero c a loc c' : emit_zero_check c a loc = Ok c' -> opsx c c'.
Proof. unfold emit_zero_check. intros H. crack; eauto using opsx_refl, opsx_check. Qed.
Lemma opsx_range c a l r d loc c' : emit_range_check c a l r d loc = Ok c' -> opsx c c'.
Proof. unfold emit_range_check. intros H. crack; eauto using opsx_refl, opsx_check. Qed.

Lemma opsx_call c m k out : emit_call c m k = Ok out -> opsx c (fst out).
Proof.
  destruct k; cbn [emit_call].
  - unfold emit_input. intros H. unfold add_op in H. injection H as <-. cbn [fst]. apply opsx_bounds.
    now exists [OInput n (length (regs c))].
  - apply opsx_const.
  - destruct (pick m a) as [l |]; cbn [bind]; [| discriminate].
    destruct (pick m b) as [r |]; cbn [bind]; [| discriminate].
    intros H. apply (opsx_sum c o chk l r at_). now destruct o.
  - destruct (pick m a) as [l |]; cbn [bind]; [| discriminate].
    destruct (pick m b) as [r |]; cbn [bind]; [| discriminate].
    destruct (emit_zero_check c r at_) as [c1 |] eqn:E; cbn [bind]; [| discriminate].
    apply opsx_zero in E. intros H. eapply opsx_trans; [exact E |].
    destruct o; eauto using opsx_div, opsx_mod, opsx_rem.
  - destruct (pick m a) as [l |]; cbn [bind]; [| discriminate].
    destruct chk; [| apply opsx_neg]. unfold emit_trap_neg. intros H.
    crack; eauto using opsx_const, opsx_neg; apply opsx_add.
  - destruct (pick m a) as [l |]; cbn [bind]; [| discriminate].
    unfold emit_abs. intros H. crack; eauto using opsx_const. apply opsx_add.
  - destruct (pick m a) as [l |]; cbn [bind]; [| discriminate].
    destruct (pick m b) as [r |]; cbn [bind]; [| discriminate]. apply opsx_logical.
  - destruct (pick m a) as [l |]; cbn [bind]; [| discriminate]. apply opsx_not.
  - destruct (pick m a) as [l |]; cbn [bind]; [| discriminate].
    destruct (pick m b) as [r |]; cbn [bind]; [| discriminate].
    unfold emit_cmp. intros H. crack; eauto using opsx_const, opsx_refl; apply opsx_add.
  - destruct (pick m t) as [t' |]; cbn [bind]; [| discriminate].
    destruct (pick m a) as [l |]; cbn [bind]; [| discriminate].
    destruct (pick m b) as [r |]; cbn [bind]; [| discriminate].
    unfold emit_select. intros H. crack; eauto using opsx_refl; apply opsx_add.
  - destruct (pick m a) as [l |]; cbn [bind]; [| discriminate].
    unfold emit_cast. intros H.
    destruct (reg_data c l); cbn [bind] in H; [| discriminate].
    destruct (vtype_eqb (rtype a0) (to_vtype t)); [injection H as <-; apply opsx_refl |].
    destruct (reg_const c l) as [[v |] |]; cbn [bind] in H; [eauto using opsx_const | | discriminate].
    destruct (find_op _ (ops c)); [injection H as <-; apply opsx_refl |].
    unfold add_op in H. injection H as <-. cbn [fst]. apply opsx_bounds.
    now exists [OCast (to_vtype t) l (length (regs c))].
  - destruct (pick m a) as [a' |]; cbn [bind]; [| discriminate].
    destruct (pick m l) as [l' |]; cbn [bind]; [| discriminate].
    destruct (pick m r) as [r' |]; cbn [bind]; [| discriminate].
    destruct (pick m d) as [d' |]; cbn [bind]; [| discriminate].
    destruct (emit_range_check c a' l' r' d' at_) as [c1 |] eqn:E; cbn [bind]; [| discriminate].
    intros [= <-]. now apply opsx_range in E.
  - destruct (pick m a) as [a' |]; cbn [bind]; [| discriminate].
    unfold lower_check_scalar_bounds. intros H.
    destruct (reg_data c a') as [x |]; cbn [bind] in H; [| discriminate].
    destruct ((fst r <=? snd r) && (fst r <=? tlow (rbounds x)) && (thigh (rbounds x) <=? snd r)).
    { cbn [bind] in H. injection H as <-. apply opsx_refl. }
    destruct (emit_const c (to_vtype t) (fst r)) as [[c1 l1] |] eqn:E1; cbn [bind] in H; [| discriminate].
    destruct (emit_const c1 (to_vtype t) (snd r)) as [[c2 r2] |] eqn:E2; cbn [bind] in H; [| discriminate].
    destruct (emit_const c2 vtype_bool RANGE_TO) as [[c3 d3] |] eqn:E3; cbn [bind] in H; [| discriminate].
    destruct (emit_range_check c3 a' l1 r2 d3 at_) as [c4 |] eqn:E4; cbn [bind] in H; [| discriminate].
    injection H as <-. apply opsx_const in E1, E2, E3. apply opsx_range in E4. cbn [fst] in *.
    eauto using opsx_trans.
Qed.

Lemma opsx_calls ks c m out : emit_calls c m ks = Ok out -> opsx c (fst out).
Proof.
  revert c m. induction ks as [| k ks IH]; intros c m; cbn [emit_calls].
  - intros [= <-]. apply opsx_refl.
  - destruct (emit_call c m k) as [[c1 r1] |] eqn:E; cbn [bind]; [| discriminate].
    intros H. apply opsx_call in E. apply IH in H. eapply opsx_trans; eauto.
Qed.

Lemma stops_stays inputs c c' f loc : opsx c c' -> stops inputs c f loc -> stops inputs c' f loc.
Proof. unfold stops. intros [m ->] S. rewrite exec_ops_app, S. reflexivity. Qed.

(* ---- one call ---- *)

Section Call.
Context (inputs : nat -> Z).

(* The registers [m] hold the entries [es]. *)
Definition sim (c : code) (e : env) (m : list nat) (es : list entry) : Prop :=
  Forall2 (fun r en => exists x, at_reg c e r x (fst en) /\ rtype x = to_vtype (snd en)) m es.

Lemma sim_at c e m es n v t : sim c e m es -> nth_error es n = Some (v, t) ->
  exists r x, pick m n = Ok r /\ nth_error m n = Some r /\ at_reg c e r x v /\ rtype x = to_vtype t.
Proof.
  intros S. revert n. induction S as [| r en m es H S IH]; intros [| n] E; cbn [nth_error] in E; try discriminate.
  - injection E as ->. destruct H as (x & A & T). exists r, x. cbn. auto.
  - destruct (IH n E) as (r' & x & P & N & A & T). exists r', x. auto.
Qed.

Lemma at_ext c c' e e' r x v : ext c c' e e' -> at_reg c e r x v ->
  exists x', at_reg c' e' r x' v /\ rtype x' = rtype x.
Proof.
  intros [X1 _ [more X3]] [A V]. destruct (X1 r x A) as (x' & A' & T). exists x'. split; [| exact T].
  split; [exact A' |]. subst e'. now apply nth_app_some.
Qed.

Lemma sim_ext c c' e e' m es : ext c c' e e' -> sim c e m es -> sim c' e' m es.
Proof.
  intros X S. induction S as [| r en m es (x & A & T) S IH]; constructor; [| exact IH].
  destruct (at_ext _ _ _ _ _ _ _ X A) as (x' & A' & T'). exists x'. split; [exact A' | congruence].
Qed.

Lemma range_eqb_eq a b : range_eqb a b = true -> a = b.
Proof.
  destruct a, b. unfold range_eqb. cbn. rewrite andb_true_iff, !Z.eqb_eq. intros [-> ->]. reflexivity.
Qed.

Lemma sane_tsane t : sane t -> tsane (to_vtype t).
Proof. unfold sane, tsane, to_vtype. cbn [tlow thigh]. unfold I64_MIN, I64_MAX. lia. Qed.
Lemma within_tin t v : within t v -> tin (to_vtype t) v.
Proof. unfold within, tin, to_vtype. cbn [tlow thigh]. lia. Qed.
Lemma within_i64 v : within int64 v -> i64 v.
Proof. unfold within, int64, i64, I64_MIN, I64_MAX. cbn [fst snd]. lia. Qed.

Lemma not_u1 t : fst t < 0 \/ 1 < snd t -> vtype_repr (to_vtype t) <> U1.
Proof.
  intros H. unfold to_vtype, vtype_repr.
  destruct (snd t <? fst t) eqn:A; [discriminate |]. apply Z.ltb_ge in A.
  destruct (fst t <? 0) eqn:B.
  - destruct ((-128 <=? fst t) && (snd t <=? 127)); [discriminate |].
    destruct ((-32768 <=? fst t) && (snd t <=? 32767)); [discriminate |].
    destruct ((-2147483648 <=? fst t) && (snd t <=? 2147483647)); discriminate.
  - apply Z.ltb_ge in B. destruct (snd t <=? 1) eqn:C; [apply Z.leb_le in C; lia |].
    destruct (snd t <=? 255); [discriminate |]. destruct (snd t <=? 65535); [discriminate |].
    destruct (snd t <=? 4294967295); discriminate.
Qed.

Lemma bool_vtype : to_vtype bool_type = vtype_bool.
Proof. reflexivity. Qed.

Lemma of_bool_b2z b : of_bool b = b2z b.
Proof. reflexivity. Qed.

Definition good (c : code) (e : env) (o : outcome) (out : code * nat) : Prop :=
  match o with
  | Gives (v, t) => gives inputs c e out (to_vtype t) v
  | Fails f loc => stops inputs (fst out) f loc
  | Meaningless => True
  end.

Lemma call_ok c e m es k out :
  inv inputs c e -> sim c e m es -> regular (fixed_in c m) inputs es k ->
  emit_call c m k = Ok out -> good c e (step inputs es k) out.
Proof.
  intros I S R E.
  destruct k; cbn [emit_call step regular] in *.
  - destruct R as (R1 & R2 & R3 & R4). cbn [good].
    apply (emit_input_ok inputs c e I) with (bd := to_vtype b); auto using sane_tsane, within_tin.
    now apply within_machine.
  - destruct R as (R1 & R2 & R3). cbn [good].
    apply emit_const_gives; auto using sane_tsane, within_i64. now apply within_machine.
  - (* sums *)
    destruct (nth_error es a) as [[x t] |] eqn:NA; [| exact Logic.I].
    destruct (nth_error es b) as [[y u] |] eqn:NB; [| exact Logic.I].
    destruct (range_eqb t u) eqn:Q; [| exact Logic.I]. apply range_eqb_eq in Q. subst u.
    destruct (sim_at _ _ _ _ _ _ _ S NA) as (l & lr & PA & MA & AA & TA).
    destruct (sim_at _ _ _ _ _ _ _ S NB) as (r & rr & PB & MB & AB & TB).
    rewrite PA, PB in E. cbn [bind] in E.
    destruct (R x t y t eq_refl eq_refl) as (R1 & R2 & R3 & R4).
    assert (W : forall v, within (machine t) v <-> holds (rtype lr) v) by (intros v; rewrite TA; apply within_machine).
    destruct (emit_sum_ok inputs c e I o chk l r at_ lr rr x y out AA AB) as [G1 G2].
    + congruence.
    + now apply within_i64.
    + intros C. apply W. auto.
    + intros N. rewrite <- W in N. destruct chk; [| now destruct N; apply R2].
      destruct (R3 eq_refl N) as [F U]. split; [| rewrite TA; now apply not_u1].
      intros [[v V] [w Z]]. unfold fixed_in in F. rewrite MA, MB, V, Z in F. destruct F; discriminate.
    + intros O C X0. rewrite TA. apply within_tin, R4; auto. unfold fixed_in. now rewrite MA, C.
    + destruct o; exact E.
    + rewrite <- TA in *. destruct (withinb (machine t) (sum_value o x y)) eqn:B.
      * apply withinb_spec in B. rewrite andb_false_r. cbn [good]. rewrite <- TA. apply G1, W, B.
      * apply withinb_false in B. destruct chk; cbn [andb negb good].
        -- apply G2. now rewrite <- W.
        -- destruct B. now apply R2.
  - (* division *)
    destruct (nth_error es a) as [[x t] |] eqn:NA; [| exact Logic.I].
    destruct (nth_error es b) as [[y u] |] eqn:NB; [| exact Logic.I].
    destruct (range_eqb t u) eqn:Q; [| exact Logic.I]. apply range_eqb_eq in Q. subst u.
    destruct (sim_at _ _ _ _ _ _ _ S NA) as (l & lr & PA & MA & AA & TA).
    destruct (sim_at _ _ _ _ _ _ _ S NB) as (r & rr & PB & MB & AB & TB).
    rewrite PA, PB in E. cbn [bind] in E.
    destruct (emit_zero_check c r at_) as [c1 |] eqn:F; cbn [bind] in E; [| discriminate].
    destruct (emit_zero_check_ok inputs c e I r rr y at_ c1 AB F) as [G1 G2].
    destruct (y =? 0) eqn:Z0.
    { apply Z.eqb_eq in Z0. cbn [good]. eapply stops_stays; [| now apply G2].
      destruct o; eauto using opsx_div, opsx_mod, opsx_rem. }
    apply Z.eqb_neq in Z0. destruct (G1 Z0) as (I1 & X1 & RG).
    destruct (R x t y t eq_refl eq_refl Z0) as [R1 R2]. apply within_i64 in R1.
    assert (AA1 : at_reg c1 e l lr x) by (destruct AA; split; [now rewrite RG | assumption]).
    assert (AB1 : at_reg c1 e r rr y) by (destruct AB; split; [now rewrite RG | assumption]).
    assert (FIN : forall v, gives inputs c1 e out (rtype lr) v -> holds (rtype lr) v ->
              good c e (if withinb (machine t) v then Gives (v, t) else Fails Overflow at_) out).
    { intros v (e' & z & K1 & K2 & K3) H. rewrite TA in *. apply within_machine, withinb_spec in H.
      rewrite H. exists e', z. split; [exact K1 | split; [| exact K3]]. now apply ext_trans with c1 e. }
    assert (TS : tsane (rtype lr)) by (now destruct (at_facts inputs c e I l lr x AA) as (_ & _ & TS & _)).
    destruct o; cbn [div_value] in *.
    + destruct (emit_div_ok inputs c1 e I1 l r lr rr x y out AA1 AB1 Z0 R1) as [K1 K2]; auto.
      unfold fixed_in in R2. rewrite MB in R2.
      assert (RC : reg_const c1 r = reg_const c r) by (unfold reg_const, reg_data; now rewrite RG).
      rewrite RC, TA. destruct (reg_const c r) as [[|] |]; auto using within_tin.
    + apply within_tin in R2. rewrite <- TA in R2. apply FIN; [| now apply declared_held].
      now apply (emit_mod_ok inputs c1 e I1 l r lr rr).
    + apply within_tin in R2. rewrite <- TA in R2. apply FIN; [| now apply declared_held].
      now apply (emit_rem_ok inputs c1 e I1 l r lr rr).
  - (* negation *)
    destruct (nth_error es a) as [[x t] |] eqn:NA; [| exact Logic.I].
    destruct (sim_at _ _ _ _ _ _ _ S NA) as (l & lr & PA & MA & AA & TA).
    rewrite PA in E. cbn [bind] in E.
    assert (TS : tsane (to_vtype t)) by (rewrite <- TA; now destruct (at_facts inputs c e I l lr x AA) as (_ & _ & TS & _)).
    specialize (R x t eq_refl). destruct R as [R | (-> & N & R)].
    + apply within_tin in R.
      assert (H : withinb (machine t) (- x) = true)
        by (apply withinb_spec, within_machine; now apply declared_held).
      rewrite H, andb_false_r. cbn [good]. rewrite <- TA in *. destruct chk.
      * now apply (emit_trap_neg_ok inputs c e I l lr x at_ out AA E).
      * now apply (emit_neg_ok inputs c e I l lr x).
    + assert (H : withinb (machine t) (- x) = false) by now apply withinb_false.
      rewrite H. cbn [andb negb good].
      apply (emit_trap_neg_ok inputs c e I l lr x at_ out AA E); [exact N |].
      rewrite TA. now rewrite <- within_machine.
  - (* absolute value *)
    destruct (nth_error es a) as [[x t] |] eqn:NA; [| exact Logic.I].
    destruct (sim_at _ _ _ _ _ _ _ S NA) as (l & lr & PA & MA & AA & TA).
    rewrite PA in E. cbn [bind] in E. specialize (R x t eq_refl). apply within_tin in R.
    assert (TS : tsane (to_vtype t)) by (rewrite <- TA; now destruct (at_facts inputs c e I l lr x AA) as (_ & _ & TS & _)).
    assert (H : withinb (machine t) (Z.abs x) = true)
      by (apply withinb_spec, within_machine; now apply declared_held).
    rewrite H. cbn [good]. rewrite <- TA in *. now apply (emit_abs_ok inputs c e I l lr x).
  - (* logic *)
    destruct (nth_error es a) as [[x t] |] eqn:NA; [| exact Logic.I].
    destruct (nth_error es b) as [[y u] |] eqn:NB; [| exact Logic.I].
    destruct (range_eqb t bool_type) eqn:Q1; [| exact Logic.I].
    destruct (range_eqb u bool_type) eqn:Q2; [| exact Logic.I].
    apply range_eqb_eq in Q1, Q2. subst t u. cbn [andb good].
    destruct (sim_at _ _ _ _ _ _ _ S NA) as (l & lr & PA & MA & AA & TA).
    destruct (sim_at _ _ _ _ _ _ _ S NB) as (r & rr & PB & MB & AB & TB).
    rewrite PA, PB in E. cbn [bind] in E.
    now apply (emit_logical_ok inputs c e I o l r lr rr x y).
  - destruct (nth_error es a) as [[x t] |] eqn:NA; [| exact Logic.I].
    destruct (range_eqb t bool_type) eqn:Q1; [| exact Logic.I].
    apply range_eqb_eq in Q1. subst t. cbn [good].
    destruct (sim_at _ _ _ _ _ _ _ S NA) as (l & lr & PA & MA & AA & TA).
    rewrite PA in E. cbn [bind] in E.
    now apply (emit_not_ok inputs c e I l lr x).
  - (* comparison *)
    destruct (nth_error es a) as [[x t] |] eqn:NA; [| exact Logic.I].
    destruct (nth_error es b) as [[y u] |] eqn:NB; [| exact Logic.I].
    destruct (range_eqb t u) eqn:Q; [| exact Logic.I]. cbn [good].
    destruct (sim_at _ _ _ _ _ _ _ S NA) as (l & lr & PA & MA & AA & TA).
    destruct (sim_at _ _ _ _ _ _ _ S NB) as (r & rr & PB & MB & AB & TB).
    rewrite PA, PB in E. cbn [bind] in E.
    replace (relation_value o x y) with (cmp_value (relation_cmp o) x y) by now destruct o.
    now apply (emit_cmp_ok inputs c e I _ l r lr rr).
  - (* select *)
    destruct (nth_error es t) as [[z w] |] eqn:NT; [| exact Logic.I].
    destruct (nth_error es a) as [[x tt] |] eqn:NA; [| exact Logic.I].
    destruct (nth_error es b) as [[y u] |] eqn:NB; [| exact Logic.I].
    destruct (range_eqb w bool_type); [| exact Logic.I].
    destruct (range_eqb tt u) eqn:Q; [| exact Logic.I]. apply range_eqb_eq in Q. subst u. cbn [andb good].
    destruct (sim_at _ _ _ _ _ _ _ S NT) as (t' & tr & PT & MT & AT & TT).
    destruct (sim_at _ _ _ _ _ _ _ S NA) as (l & lr & PA & MA & AA & TA).
    destruct (sim_at _ _ _ _ _ _ _ S NB) as (r & rr & PB & MB & AB & TB).
    rewrite PT, PA, PB in E. cbn [bind] in E.
    specialize (R z w x tt y tt eq_refl eq_refl eq_refl). apply within_tin in R.
    rewrite <- TA in *. apply (emit_select_ok inputs c e I t' l r tr lr rr z x y); auto; congruence.
  - (* conversion *)
    destruct (nth_error es a) as [[x u] |] eqn:NA; [| exact Logic.I]. cbn [good].
    destruct (sim_at _ _ _ _ _ _ _ S NA) as (l & lr & PA & MA & AA & TA).
    rewrite PA in E. cbn [bind] in E. destruct (R x u eq_refl) as (R1 & R2 & R3 & R4).
    apply (emit_cast_ok inputs c e I _ (to_vtype b) l lr x); auto using sane_tsane, within_tin.
  - (* range check *)
    destruct (nth_error es a) as [[x t] |] eqn:NA; [| exact Logic.I].
    destruct (nth_error es l) as [[lv lt] |] eqn:NL; [| exact Logic.I].
    destruct (nth_error es r) as [[rv rt] |] eqn:NR; [| exact Logic.I].
    destruct (nth_error es d) as [[dv u] |] eqn:ND; [| exact Logic.I].
    destruct (range_eqb u bool_type) eqn:Q; [| exact Logic.I]. apply range_eqb_eq in Q. subst u.
    destruct (sim_at _ _ _ _ _ _ _ S NA) as (a' & ar & PA & MA & AA & TA).
    destruct (sim_at _ _ _ _ _ _ _ S NL) as (l' & lr & PL & ML & AL & TL).
    destruct (sim_at _ _ _ _ _ _ _ S NR) as (r' & rr & PR & MR & AR & TR).
    destruct (sim_at _ _ _ _ _ _ _ S ND) as (d' & dr & PD & MD & AD & TD).
    rewrite PA, PL, PR, PD in E. cbn [bind] in E.
    destruct (emit_range_check c a' l' r' d' at_) as [c1 |] eqn:F; cbn [bind] in E; [| discriminate].
    injection E as <-.
    assert (DD : dv = 0 \/ dv = 1).
    { rewrite (bool_val inputs c e I d' dr dv AD TD). destruct (truth dv); cbn; auto. }
    destruct (emit_range_check_ok inputs c e I a' l' r' d' ar lr rr dr x lv rv dv at_ c1 AA AL AR AD DD F) as [G1 G2].
    assert (W : within (if dv =? 1 then (rv, lv) else (lv, rv)) x <-> in_dir lv rv dv x)
      by (unfold within, in_dir; destruct (dv =? 1); cbn; tauto).
    destruct (withinb (if dv =? 1 then (rv, lv) else (lv, rv)) x) eqn:B; cbn [good].
    + apply withinb_spec, W in B. destruct (G1 B) as (I1 & X1 & _).
      destruct (at_ext _ _ _ _ _ _ _ X1 AA) as (x' & [A1 A2] & T'). exists e, x'. cbn [fst snd].
      split; [exact I1 | split; [exact X1 | split; [exact A2 | split; [exact A1 | congruence]]]].
    + apply withinb_false in B. apply G2. now rewrite <- W.
  - (* check against a type *)
    destruct (nth_error es a) as [[x tt] |] eqn:NA; [| exact Logic.I].
    destruct R as (R1 & R2 & R3 & R4 & R5).
    destruct (sim_at _ _ _ _ _ _ _ S NA) as (a' & ar & PA & MA & AA & TA).
    rewrite PA in E. cbn [bind] in E. unfold lower_check_scalar_bounds in E.
    rewrite (at_data c e a' ar x AA) in E. cbn [bind] in E.
    destruct ((fst r <=? snd r) && (fst r <=? tlow (rbounds ar)) && (thigh (rbounds ar) <=? snd r)) eqn:P.
    { cbn [bind] in E. injection E as <-. rewrite !andb_true_iff, !Z.leb_le in P.
      destruct (at_facts inputs c e I a' ar x AA) as (_ & _ & _ & TX & _). unfold tin in TX.
      replace (withinb r x) with true
        by (symmetry; apply withinb_spec; unfold within; lia).
      cbn [good]. now apply (at_gives inputs c e I a' ar). }
    destruct (emit_const c (to_vtype t) (fst r)) as [[c1 l1] |] eqn:E1; cbn [bind] in E; [| discriminate].
    destruct (emit_const c1 (to_vtype t) (snd r)) as [[c2 r2] |] eqn:E2; cbn [bind] in E; [| discriminate].
    destruct (emit_const c2 vtype_bool RANGE_TO) as [[c3 d3] |] eqn:E3; cbn [bind] in E; [| discriminate].
    destruct (emit_range_check c3 a' l1 r2 d3 at_) as [c4 |] eqn:E4; cbn [bind] in E; [| discriminate].
    injection E as <-.
    destruct (emit_const_gives inputs c e I _ _ _ (proj1 (within_machine _ _) R2) (within_i64 _ R4) (sane_tsane _ R1) E1)
      as (e1 & x1 & I1 & X1 & V1 & N1 & T1). cbn [fst snd] in *.
    destruct (emit_const_gives inputs c1 e1 I1 _ _ _ (proj1 (within_machine _ _) R3) (within_i64 _ R5) (sane_tsane _ R1) E2)
      as (e2 & x2 & I2 & X2 & V2 & N2 & T2). cbn [fst snd] in *.
    destruct (bool_const inputs c2 e2 I2 false _ E3)
      as (e3 & x3 & I3 & X3 & V3 & N3 & T3). cbn [fst snd] in *.
    assert (AA3 : exists ar3, at_reg c3 e3 a' ar3 x /\ rtype ar3 = rtype ar).
    { apply (at_ext c c3 e e3); [| exact AA]. eapply ext_trans; [exact X1 |]. eapply ext_trans; eauto. }
    destruct AA3 as (ar3 & AA3 & TA3).
    assert (AL3 : exists lr, at_reg c3 e3 l1 lr (fst r) /\ rtype lr = rtype x1).
    { apply (at_ext c1 c3 e1 e3); [| split; assumption]. eapply ext_trans; eauto. }
    destruct AL3 as (lr3 & AL3 & _).
    assert (AR3 : exists rr, at_reg c3 e3 r2 rr (snd r) /\ rtype rr = rtype x2).
    { apply (at_ext c2 c3 e2 e3); [| split; assumption]. exact X3. }
    destruct AR3 as (rr3 & AR3 & _).
    assert (AD3 : at_reg c3 e3 d3 x3 0) by (split; assumption).
    destruct (emit_range_check_ok inputs c3 e3 I3 a' l1 r2 d3 ar3 lr3 rr3 x3 x (fst r) (snd r) 0 at_ c4
                AA3 AL3 AR3 AD3 (or_introl eq_refl) E4) as [G1 G2].
    destruct (withinb r x) eqn:B; cbn [good].
    + apply withinb_spec in B. destruct (G1 B) as (I4 & X4 & _).
      destruct (at_ext _ _ _ _ _ _ _ X4 AA3) as (x' & [A1 A2] & T'). exists e3, x'. cbn [fst snd].
      split; [exact I4 | split; [| split; [exact A2 | split; [exact A1 | congruence]]]].
      eapply ext_trans; [exact X1 |]. eapply ext_trans; [exact X2 |]. eapply ext_trans; eauto.
    + apply withinb_false in B. now apply G2.
Qed.

Lemma emit_calls_app a b c m :
  emit_calls c m (a ++ b) = do! (c, m) <- emit_calls c m a; emit_calls c m b.
Proof.
  revert c m. induction a as [| k a IH]; intros c m; cbn [emit_calls app]; [reflexivity |].
  destruct (emit_call c m k) as [[c1 r1] |]; cbn [bind]; [apply IH | reflexivity].
Qed.

Lemma sim_length c e m es : sim c e m es -> length m = length es.
Proof. induction 1; cbn; congruence. Qed.

Lemma calls_ok all done ks c e m es out :
  all = done ++ ks -> compile done = Ok (c, m) -> length es = length done ->
  inv inputs c e -> sim c e m es ->
  regular_run (fixed_at all) inputs es ks -> emit_calls c m ks = Ok out ->
  match run inputs es ks with
  | Done es' => exists e', inv inputs (fst out) e' /\
                sim (fst out) e' (snd out) es'
  | Failed f loc => stops inputs (fst out) f loc
  | NoMeaning => True
  end.
Proof.
  revert done c e m es. induction ks as [| k ks IH];
    intros done c e m es ALL CD LEN I S R E; cbn [emit_calls run regular_run] in *.
  - injection E as <-. exists e. cbn [fst snd]. split; [exact I | exact S].
  - destruct R as [R1 R2].
    destruct (emit_call c m k) as [[c1 r1] |] eqn:K; cbn [bind] in E; [| discriminate].
    assert (FX : regular (fixed_in c m) inputs es k).
    { assert (Q : firstn (length es) all = done).
      { rewrite ALL, LEN, firstn_app, Nat.sub_diag, firstn_all. cbn. apply app_nil_r. }
      assert (Q2 : fixed_at all (length es) = fixed_in c m) by (unfold fixed_at; now rewrite Q, CD).
      now rewrite Q2 in R1. }
    pose proof (call_ok c e m es k (c1, r1) I S FX K) as G.
    destruct (step inputs es k) as [[v t] | f loc |] eqn:ST; cbn [good] in G.
    + destruct G as (e1 & x & I1 & X1 & V1 & N1 & T1). cbn [fst snd] in *.
      apply (IH (done ++ [k]) c1 e1 (m ++ [r1]) (es ++ [(v, t)])); auto.
      * now rewrite <- app_assoc.
      * unfold compile in *. rewrite emit_calls_app, CD. cbn [bind emit_calls]. now rewrite K.
      * rewrite !app_length, LEN. reflexivity.
      * apply Forall2_app; [now apply (sim_ext c c1 e e1) |]. constructor; [| constructor].
        exists x. split; [split; assumption | exact T1].
    + eapply stops_stays; [| exact G]. now apply opsx_calls in E.
    + exact Logic.I.
Qed.

Lemma inv_empty : inv inputs (Code [] []) [].
Proof.
  split; cbn; auto; intros [| r]; discriminate.
Qed.

Lemma inv_all_bounds c e : inv inputs c e ->
  Forall2 (fun x v => tlow (rbounds x) <= v <= thigh (rbounds x)) (regs c) e.
Proof.
  intros I. pose proof (i_len _ _ _ _ I) as L.
  assert (B : forall r x v, nth_error (regs c) r = Some x -> nth_error e r = Some v -> tin (rbounds x) v).
  { intros r x v A V. now destruct (reg_facts inputs c e I r x v A V) as [_ [T _]]. }
  clear I. revert e L B. generalize (regs c). intros l. induction l as [| x l IH]; intros [| v e] L B;
    try discriminate; constructor.
  - exact (B O x v eq_refl eq_refl).
  - apply IH; [now injection L |]. intros r. apply (B (S r)).
Qed.

Theorem compile_ok ks c m :
  compile ks = Ok (c, m) -> regular_run (fixed_at ks) inputs [] ks ->
  match run inputs [] ks with
  | Done es => exists e, exec_code c inputs = Val e /\
               Forall2 (fun r en => nth_error e r = Some (fst en)) m es /\
               Forall2 (fun x v => tlow (rbounds x) <= v <= thigh (rbounds x)) (regs c) e
  | Failed f loc => exec_code c inputs = Err f loc
  | NoMeaning => True
  end.
Proof.
  intros C R. pose proof (calls_ok ks [] ks (Code [] []) [] [] [] (c, m) eq_refl eq_refl eq_refl
                            inv_empty (Forall2_nil _) R C) as K.
  destruct (run inputs [] ks) as [es | f loc |]; [| exact K | exact Logic.I].
  destruct K as (e & X & S). exists e. cbn [fst snd] in S, X.
  split; [apply (i_run _ _ _ _ X) |]. split; [| now apply inv_all_bounds].
  clear - S. induction S as [| r en m es (x & [_ A] & _) S IH]; constructor; auto.
Qed.

End Call.
