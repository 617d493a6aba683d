(* Each rewriting of an arithmetic instruction computes the same. *)
From Coq Require Import List ZArith NArith Arith Bool Lia.
From Verif Require Import Base JitModel JitPassModel JitSpec LvnModel LvnProofs.
Import ListNotations.
Local Open Scope Z_scope.

(* ---- 64-bit numbers ---- *)

Lemma wrap_in z : in64 z -> wrap z = z.
Proof.
  unfold in64, wrap. intros H. rewrite Z.mod_small; unfold M63, M64 in *; lia.
Qed.
Lemma wrap_in64 z : in64 (wrap z).
Proof.
  unfold in64, wrap. pose proof (Z.mod_pos_bound (z + M63) M64 ltac:(reflexivity)).
  unfold M63, M64 in *; lia.
Qed.
Lemma strunc_range s z : - 2 ^ (bits s - 1) <= strunc s z < 2 ^ (bits s - 1).
Proof.
  unfold strunc. assert (B : 0 < 2 ^ bits s) by (destruct s; reflexivity).
  pose proof (Z.mod_pos_bound (z + 2 ^ (bits s - 1)) (2 ^ bits s) B).
  assert (E : 2 ^ bits s = 2 * 2 ^ (bits s - 1)) by (destruct s; reflexivity). lia.
Qed.
Lemma strunc_in64 s z : in64 (strunc s z).
Proof.
  pose proof (strunc_range s z). unfold in64.
  assert (2 ^ (bits s - 1) <= M63) by (destruct s; cbn; unfold M63; lia). lia.
Qed.
Lemma strunc_64 s z : bits s = 64 -> in64 z -> strunc s z = z.
Proof.
  intros B H. unfold strunc. rewrite B. unfold in64, M63 in H.
  change (2 ^ (64 - 1)) with 9223372036854775808.
  change (2 ^ 64) with 18446744073709551616. rewrite Z.mod_small; lia.
Qed.
Lemma fits_in64 s z : fits s z = true -> in64 z.
Proof. unfold fits. intros H. apply Z.eqb_eq in H. rewrite <- H. apply strunc_in64. Qed.
Lemma fits_wrap s z : fits s z = true -> wrap z = z.
Proof. intros H. apply wrap_in. exact (fits_in64 _ _ H). Qed.

Section Ops.
Variable nregs tabsz : nat.
Variable cpool_load : size -> Z -> Z.
Variable cpool_base : Z.
Variable cover_addr : Z -> Z.
Notation fetch := (fetch cpool_base cover_addr).
Notation ieval := (ieval cpool_base cover_addr).
Notation sinv := (sinv nregs).
Notation dinv := (dinv nregs cpool_base cover_addr).

Definition arith (o : opcode) : Prop := o = J_ADD \/ o = J_SUB \/ o = J_MUL.

(* A checked instruction stays what it is. *)
Definition keeps (i i' : ir) : Prop := cc i <> CC_NONE -> arith (op i) -> op i' = op i.

Definition words (i : ir) : Prop := forall z, arg1 i = VInt z \/ arg2 i = VInt z -> in64 z.

Definition core (M : nat -> Prop) (r : nat) (st : lvn) (i i' : ir) (st' : lvn) : Prop :=
  sinv (plus M r) st' /\ op i' <> J_JUMP /\
  forall val rg fl ar D v fo, dinv val st rg fl ar D -> (forall x, in64 (rg x)) ->
    ieval i rg = Some (v, fo) -> keeps i i' ->
    exists val', dinv val' st' (upd rg r v) fl ar D /\ result i' = Some r /\
      ieval i' rg = Some (v, fo).

Lemma ieval_mov j x rg v : fetch MScalar rg x = Some v -> ieval (mov_of j x) rg = Some (v, None).
Proof. intros H. unfold LvnProofs.ieval, mov_of. cbn [op mode1 mode2 arg1 arg2 sz cc]. now rewrite H. Qed.

Lemma peval_flag o s c a b v f : peval o s c a b = Some (v, Some f) -> c <> CC_NONE /\ arith o.
Proof.
  unfold arith. destruct o; cbn; try discriminate;
    repeat match goal with |- context [if ?x then _ else _] => destruct x end; try discriminate;
    unfold checked; destruct c; try discriminate; intros _; split; auto; discriminate.
Qed.
Lemma ieval_flag i rg v f : ieval i rg = Some (v, Some f) -> cc i <> CC_NONE /\ arith (op i).
Proof.
  unfold LvnProofs.ieval. destruct (fetch _ rg (arg1 i)); [|discriminate].
  destruct (fetch _ rg (arg2 i)); [|discriminate]. apply peval_flag.
Qed.

Lemma core_generic M r st i j i' st' :
  sinv M st -> result j = Some r -> (r < nregs)%nat -> ~ M r -> argsin M j ->
  op j <> MACRO_EXP -> op j <> J_JUMP ->
  (forall val rg fl ar D v fo, dinv val st rg fl ar D -> (forall x, in64 (rg x)) ->
     ieval i rg = Some (v, fo) -> keeps i j -> ieval j rg = Some (v, fo)) ->
  generic tabsz j st None = Ok (i', st') -> core M r st i i' st'.
Proof.
  intros HS R Hr NM AI NE NJ E H.
  destruct (generic_ok nregs tabsz cpool_base cover_addr M st j None i' st' r HS R Hr NM AI
    ltac:(discriminate) H) as (Q1 & Q2 & Q3).
  split; [exact Q1|]. split; [destruct Q2 as [-> |(x & ->)]; [exact NJ|discriminate]|].
  intros val rg fl ar D v fo HD W X K.
  assert (K' : keeps i j).
  { intros C A. destruct Q2 as [-> |(x & ->)]; [exact (K C A)|].
    pose proof (K C A) as B. cbn in B. rewrite <- B in A. destruct A as [A|[A|A]]; discriminate. }
  pose proof (E _ _ _ _ _ _ _ HD W X K') as Xj.
  destruct (Q3 val rg fl ar D v fo HD (or_intror Xj) ltac:(discriminate)) as (val' & HD' & Y).
  exists val'. split; [exact HD'|]. destruct Y as [-> |(x & -> & F)].
  - split; [exact R|exact Xj].
  - split; [exact R|]. rewrite (ieval_mov j x rg v F). destruct fo as [f|]; [|reflexivity].
    destruct (ieval_flag _ _ _ _ X) as [C A]. pose proof (K C A) as B. cbn [mode1 mode2] in B.
    rewrite <- B in A. destruct A as [A|[A|A]]; discriminate.
Qed.

Lemma core_convert M r st i j x i' st' :
  sinv M st -> result j = Some r -> (r < nregs)%nat -> ~ M r ->
  (forall y, In y (value_regs x) -> M y) ->
  (forall val rg fl ar D v, dinv val st rg fl ar D -> (forall x, in64 (rg x)) ->
     ieval i rg = Some (v, None) -> (arith (op i) -> cc i = CC_NONE) -> fetch MScalar rg x = Some v) ->
  convert_mov tabsz j st x = Ok (i', st') -> core M r st i i' st'.
Proof.
  intros HS R Hr NM AI E H.
  destruct (convert_mov_ok nregs tabsz cpool_base cover_addr M st j x i' st' r HS R Hr NM AI H)
    as (Q1 & Q2 & Q3).
  split; [exact Q1|]. split; [destruct Q2 as [-> |(y & ->)]; discriminate|].
  intros val rg fl ar D v fo HD W X K.
  assert (A0 : arith (op i) -> cc i = CC_NONE).
  { intros A. destruct (cc i) eqn:C; try reflexivity; exfalso;
      assert (B : op i' = op i) by (apply K; [congruence|exact A]);
      rewrite <- B in A;
      destruct Q2 as [-> |(y & ->)]; destruct A as [A|[A|A]]; discriminate. }
  assert (fo = None).
  { destruct fo as [f|]; [|reflexivity]. destruct (ieval_flag _ _ _ _ X) as [C A]. destruct (C (A0 A)). }
  subst fo.
  destruct (Q3 val rg fl ar D v HD (E _ _ _ _ _ _ HD W X A0)) as (val' & HD' & y & -> & F).
  exists val'. split; [exact HD'|]. split; [exact R|]. exact (ieval_mov j y rg v F).
Qed.

Lemma ieval_inv i rg v fo : ieval i rg = Some (v, fo) ->
  exists a b, fetch (mode1 (op i)) rg (arg1 i) = Some a /\ fetch (mode2 (op i)) rg (arg2 i) = Some b /\
    peval (op i) (sz i) (cc i) a b = Some (v, fo).
Proof.
  unfold LvnProofs.ieval. destruct (fetch (mode1 _) rg (arg1 i)) as [a|]; [|discriminate].
  destruct (fetch (mode2 _) rg (arg2 i)) as [b|]; [|discriminate]. intros H. exists a, b. auto.
Qed.

Lemma ieval_intro i rg a b : fetch (mode1 (op i)) rg (arg1 i) = Some a ->
  fetch (mode2 (op i)) rg (arg2 i) = Some b -> ieval i rg = peval (op i) (sz i) (cc i) a b.
Proof. intros A B. unfold LvnProofs.ieval. now rewrite A, B. Qed.

Lemma can_fold_inv st i a b : can_fold st i = Some (a, b) ->
  is_const st (arg1 i) = Some a /\ is_const st (arg2 i) = Some b.
Proof.
  unfold can_fold. destruct (is_const st (arg1 i)); [|discriminate].
  destruct (is_const st (arg2 i)); [|discriminate]. intros H. injection H as -> ->. auto.
Qed.

Lemma commute_args M st i : argsin M i -> argsin M (commute_const st i).
Proof.
  intros H. unfold commute_const. destruct (is_const st (arg1 i)); [|exact H].
  intros r Hr. apply H. cbn in Hr. apply in_app_or in Hr. apply in_or_app. tauto.
Qed.
Lemma commute_op st i : op (commute_const st i) = op i /\ sz (commute_const st i) = sz i /\
  cc (commute_const st i) = cc i /\ result (commute_const st i) = result i.
Proof. unfold commute_const. destruct (is_const st (arg1 i)); auto. Qed.
Lemma commute_eval st i rg : op i = J_ADD \/ op i = J_MUL -> ieval (commute_const st i) rg = ieval i rg.
Proof.
  intros H. unfold commute_const. destruct (is_const st (arg1 i)); [|reflexivity].
  unfold LvnProofs.ieval. cbn [op sz cc arg1 arg2].
  assert (M2 : mode1 (op i) = MInt /\ mode2 (op i) = MInt) by (destruct H as [-> | ->]; auto).
  destruct M2 as [-> ->].
  destruct (fetch MInt rg (arg1 i)), (fetch MInt rg (arg2 i)); try reflexivity.
  destruct H as [-> | ->]; cbn [peval]; apply checked_comm; intros; lia.
Qed.

Section One.
Variable M : nat -> Prop.
Variable st : lvn.
Variable i : ir.
Variable r : nat.
Hypothesis HS : sinv M st.
Hypothesis R : result i = Some r.
Hypothesis Hr : (r < nregs)%nat.
Hypothesis NM : ~ M r.
Hypothesis AI : argsin M i.

Lemma arg1_low : forall x, In x (value_regs (arg1 i)) -> (x < nregs)%nat.
Proof. intros x Hx. apply (s_below _ _ _ HS), AI, in_or_app. auto. Qed.
Lemma arg2_low : forall x, In x (value_regs (arg2 i)) -> (x < nregs)%nat.
Proof. intros x Hx. apply (s_below _ _ _ HS), AI, in_or_app. auto. Qed.

(* A constant operand has that value. *)
Lemma const1 val rg fl ar D z : dinv val st rg fl ar D -> is_const st (arg1 i) = Some z ->
  fetch MInt rg (arg1 i) = Some z.
Proof. intros HD H. exact (is_const_ok nregs cpool_base cover_addr M val st rg fl ar D _ z HS HD arg1_low H MInt (or_introl eq_refl)). Qed.
Lemma const2 val rg fl ar D z : dinv val st rg fl ar D -> is_const st (arg2 i) = Some z ->
  fetch MInt rg (arg2 i) = Some z.
Proof. intros HD H. exact (is_const_ok nregs cpool_base cover_addr M val st rg fl ar D _ z HS HD arg2_low H MInt (or_introl eq_refl)). Qed.

Lemma self_generic i' st' : op i <> MACRO_EXP -> op i <> J_JUMP ->
  generic tabsz i st None = Ok (i', st') -> core M r st i i' st'.
Proof. intros N1 N2 H. apply (core_generic M r st i i i' st'); auto. Qed.

Lemma int_convert z i' st' :
  (forall val rg fl ar D v, dinv val st rg fl ar D -> (forall x, in64 (rg x)) ->
     ieval i rg = Some (v, None) -> (arith (op i) -> cc i = CC_NONE) -> z = v) ->
  convert_mov tabsz i st (VInt z) = Ok (i', st') -> core M r st i i' st'.
Proof.
  intros E H. apply (core_convert M r st i i (VInt z) i' st'); auto; [intros y []|].
  intros val rg fl ar D v HD W X K. cbn. f_equal. exact (E _ _ _ _ _ _ HD W X K).
Qed.

Lemma neg_core i' st' : op i = J_NEG -> lvn_neg tabsz i st = Ok (i', st') -> core M r st i i' st'.
Proof.
  intros O H. unfold lvn_neg in H. destruct (is_const st (arg1 i)) as [z|] eqn:C.
  - apply (int_convert _ _ _) in H; [exact H|]. intros val rg fl ar D v HD W X _.
    destruct (ieval_inv _ _ _ _ X) as (a & b & A & B & P). rewrite O in A, P. cbn [mode1 mode2 peval] in A, P.
    rewrite (const1 _ _ _ _ _ _ HD C) in A. injection A as <-. now injection P as <-.
  - apply self_generic in H; [exact H|congruence|congruence].
Qed.

Lemma clamp_core i' st' : op i = J_CLAMP -> lvn_clamp tabsz i st = Ok (i', st') -> core M r st i i' st'.
Proof.
  intros O H. unfold lvn_clamp in H. destruct (is_const st (arg1 i)) as [z|] eqn:C.
  - apply (int_convert _ _ _) in H; [exact H|]. intros val rg fl ar D v HD W X _.
    destruct (ieval_inv _ _ _ _ X) as (a & b & A & B & P). rewrite O in A, P. cbn [mode1 mode2 peval] in A, P.
    rewrite (const1 _ _ _ _ _ _ HD C) in A. injection A as <-. now injection P as <-.
  - apply self_generic in H; [exact H|congruence|congruence].
Qed.

Lemma asr_core i' st' : op i = J_ASR -> lvn_asr tabsz i st = Ok (i', st') -> core M r st i i' st'.
Proof.
  intros O H. unfold lvn_asr in H. destruct (can_fold st i) as [[a0 b0]|] eqn:C.
  - destruct (can_fold_inv _ _ _ _ C) as [C1 C2].
    destruct ((0 <=? b0) && (b0 <? 64)) eqn:B0.
    + apply (int_convert _ _ _) in H; [exact H|]. intros val rg fl ar D v HD W X _.
      destruct (ieval_inv _ _ _ _ X) as (a & b & A & B & P). rewrite O in A, B, P. cbn [mode1 mode2 peval] in A, B, P.
      rewrite (const1 _ _ _ _ _ _ HD C1) in A. rewrite (const2 _ _ _ _ _ _ HD C2) in B.
      injection A as <-. injection B as <-. rewrite B0 in P. now injection P as <-.
    + apply self_generic in H; [exact H|congruence|congruence].
  - apply self_generic in H; [exact H|congruence|congruence].
Qed.

Lemma xor_core i' st' : op i = J_XOR -> lvn_xor tabsz i st = Ok (i', st') -> core M r st i i' st'.
Proof.
  intros O H. unfold lvn_xor in H.
  assert (G : generic tabsz i st None = Ok (i', st') -> core M r st i i' st')
    by (intros H'; apply self_generic in H'; [exact H'|congruence|congruence]).
  destruct (is_const st (arg1 i)) as [a0|] eqn:C1; destruct (is_const st (arg2 i)) as [b0|] eqn:C2.
  - apply (int_convert _ _ _) in H; [exact H|]. intros val rg fl ar D v HD W X _.
    destruct (ieval_inv _ _ _ _ X) as (a & b & A & B & P). rewrite O in A, B, P. cbn [mode1 mode2 peval] in A, B, P.
    rewrite (const1 _ _ _ _ _ _ HD C1) in A. rewrite (const2 _ _ _ _ _ _ HD C2) in B.
    injection A as <-. injection B as <-. now injection P as <-.
  - destruct (Z.eqb_spec a0 0) as [->|_]; [|exact (G H)].
    apply (core_convert M r st i i (arg2 i) i' st') in H; auto.
    + intros y Hy. apply AI, in_or_app. auto.
    + intros val rg fl ar D v HD W X _.
      destruct (ieval_inv _ _ _ _ X) as (a & b & A & B & P). rewrite O in A, B, P. cbn [mode1 mode2 peval] in A, B, P.
      rewrite (const1 _ _ _ _ _ _ HD C1) in A. injection A as <-.
      apply (fetch_scalar _ _ MInt) in B; [|auto]. rewrite B. rewrite Z.lxor_0_l in P. now injection P as <-.
  - destruct (Z.eqb_spec b0 0) as [->|_]; [|exact (G H)].
    apply (core_convert M r st i i (arg1 i) i' st') in H; auto.
    + intros y Hy. apply AI, in_or_app. auto.
    + intros val rg fl ar D v HD W X _.
      destruct (ieval_inv _ _ _ _ X) as (a & b & A & B & P). rewrite O in A, B, P. cbn [mode1 mode2 peval] in A, B, P.
      rewrite (const2 _ _ _ _ _ _ HD C2) in B. injection B as <-.
      apply (fetch_scalar _ _ MInt) in A; [|auto]. rewrite A. rewrite Z.lxor_0_r in P. now injection P as <-.
  - exact (G H).
Qed.

Lemma mov_core i' st' : op i = J_MOV -> lvn_mov tabsz i st = Ok (i', st') -> core M r st i i' st'.
Proof.
  intros O H.
  destruct (lvn_mov_ok nregs tabsz cpool_base cover_addr M st i i' st' r O HS R Hr NM AI H) as (Q1 & Q2 & Q3).
  split; [exact Q1|]. split; [destruct Q2 as [-> |[-> |(y & ->)]]; [rewrite O; discriminate|discriminate|discriminate]|].
  intros val rg fl ar D v fo HD W X K.
  destruct (ieval_inv _ _ _ _ X) as (a & b & A & B & P). rewrite O in A, B, P. cbn [mode1 mode2 peval] in A, B, P.
  injection P as -> <-. destruct (Q3 val rg fl ar D v HD A) as (val' & HD' & Y).
  exists val'. split; [exact HD'|]. destruct Y as [-> |(x & -> & F)]; [auto|].
  split; [exact R|]. exact (ieval_mov i x rg v F).
Qed.

Lemma div_core i' st' : op i = J_DIV -> bits (sz i) = 64 -> words i ->
  (let rest := match is_const st (arg2 i) with
    | Some rhs => if rhs =? 1 then do! v <- arg1_reg i; convert_mov tabsz i st v else generic tabsz i st None
    | None => generic tabsz i st None
    end in
  match can_fold st i with
  | Some (lhs, rhs) =>
    if rhs =? 0 then rest
    else
      let a := strunc (sz i) lhs in
      let b := strunc (sz i) rhs in
      if (b =? 0) || ((a =? - M63) && (b =? -1)) then Fault
      else convert_mov tabsz i st (VInt (strunc (sz i) (Z.quot a b)))
  | None => rest
  end) = Ok (i', st') -> core M r st i i' st'.
Proof.
  intros O B64 WI H. cbv zeta in H.
  assert (G : generic tabsz i st None = Ok (i', st') -> core M r st i i' st')
    by (intros H'; apply self_generic in H'; [exact H'|congruence|congruence]).
  assert (G1 : match is_const st (arg2 i) with
    | Some rhs => if rhs =? 1 then do! v <- arg1_reg i; convert_mov tabsz i st v else generic tabsz i st None
    | None => generic tabsz i st None
    end = Ok (i', st') -> core M r st i i' st').
  { intros H'. destruct (is_const st (arg2 i)) as [rhs|] eqn:C2; [|exact (G H')].
    destruct (Z.eqb_spec rhs 1) as [->|_]; [|exact (G H')].
    unfold arg1_reg in H'. destruct (arg1 i) as [|x| | | | | | | | | | |] eqn:A1; try discriminate.
    cbn [bind] in H'. apply (core_convert M r st i i (VReg x) i' st') in H'; auto.
    - intros y Hy. apply AI, in_or_app. left. rewrite A1. exact Hy.
    - intros val rg fl ar D v HD W X _.
      destruct (ieval_inv _ _ _ _ X) as (a & b & A & B & P). rewrite O in A, B, P. cbn [mode1 mode2] in B.
      rewrite (const2 _ _ _ _ _ _ HD C2) in B. injection B as <-. rewrite A1 in A. cbn in A. injection A as <-.
      cbn [peval] in P. rewrite andb_false_r in P. cbn in P. rewrite Z.quot_1_r in P. now injection P as <-. }
  destruct (can_fold st i) as [[a0 b0]|] eqn:C; [|exact (G1 H)].
  destruct (b0 =? 0) eqn:B0; [exact (G1 H)|].
  destruct (can_fold_inv _ _ _ _ C) as [C1 C2].
  destruct ((strunc (sz i) b0 =? 0) || ((strunc (sz i) a0 =? - M63) && (strunc (sz i) b0 =? -1))) eqn:BB; [discriminate|].
  apply (int_convert _ _ _) in H; [exact H|]. intros val rg fl ar D v HD W X _.
  pose proof (const1 _ _ _ _ _ _ HD C1) as F1. pose proof (const2 _ _ _ _ _ _ HD C2) as F2.
  assert (I1 : in64 a0).
  { destruct (arg1 i) as [|x|z| | | | | | | | | |] eqn:A1; cbn in C1; try discriminate;
      cbn in F1; injection F1 as <-; [apply W|]. apply WI. auto. }
  assert (I2 : in64 b0).
  { destruct (arg2 i) as [|x|z| | | | | | | | | |] eqn:A1; cbn in C2; try discriminate;
      cbn in F2; injection F2 as <-; [apply W|]. apply WI. auto. }
  destruct (ieval_inv _ _ _ _ X) as (a & b & A & B & P). rewrite O in A, B, P. cbn [mode1 mode2 peval] in A, B, P.
  rewrite F1 in A. rewrite F2 in B. injection A as <-. injection B as <-.
  rewrite (strunc_64 _ a0 B64 I1), (strunc_64 _ b0 B64 I2) in *.
  rewrite BB in P. injection P as <-. apply strunc_64; [exact B64|].
  apply orb_false_iff in BB. destruct BB as [BB1 BB2]. apply Z.eqb_neq in BB1.
  unfold in64 in *. clear - I1 I2 BB1 BB2.
  assert (Q : Z.abs (Z.quot a0 b0) <= Z.abs a0).
  { rewrite <- Z.quot_abs by exact BB1.
    apply Z.quot_le_upper_bound; [lia|]. nia. }
  assert (a0 = - M63 \/ - M63 < a0) as [E|E] by lia; [|unfold M63 in *; lia].
  subst a0. rewrite Z.eqb_refl in BB2. cbn [andb] in BB2. apply Z.eqb_neq in BB2.
  assert (Z.quot (- M63) b0 <> M63); [|lia].
  intros Q1. pose proof (Z.quot_rem' (- M63) b0) as QR. rewrite Q1 in QR.
  pose proof (Z.rem_bound_abs (- M63) b0 BB1) as RB. unfold M63 in *. lia.
Qed.

Lemma cc_none_eq c : c = CC_NONE -> cc_none c = true.
Proof. now intros ->. Qed.

(* Operands of an instruction given as the fields used. *)
Lemma swapped_const2 val rg fl ar D z : dinv val st rg fl ar D ->
  is_const st (arg2 (commute_const st i)) = Some z -> fetch MInt rg (arg2 (commute_const st i)) = Some z.
Proof.
  intros HD H. apply (is_const_ok nregs cpool_base cover_addr M val st rg fl ar D _ z HS HD); auto.
  intros x Hx. apply (s_below _ _ _ HS). apply (commute_args _ st _ AI). apply in_or_app. auto.
Qed.

Lemma add_core i' st' : op i = J_ADD ->
  (let rest :=
    let j := commute_const st i in
    match is_const st (arg2 j) with
    | Some rhs => if rhs =? 0 then do! v <- arg1_reg j; convert_mov tabsz j st v else generic tabsz j st None
    | None => generic tabsz j st None
    end in
  match can_fold st i with
  | Some (lhs, rhs) => if fits (sz i) (lhs + rhs) then convert_mov tabsz i st (VInt (lhs + rhs)) else rest
  | None => rest
  end) = Ok (i', st') -> core M r st i i' st'.
Proof.
  intros O H. cbv zeta in H. set (j := commute_const st i) in *.
  destruct (commute_op st i) as (JO & JS & JC & JR). fold j in JO, JS, JC, JR.
  pose proof (commute_args M st i AI) as JA. fold j in JA.
  assert (G : generic tabsz j st None = Ok (i', st') -> core M r st i i' st').
  { intros H'. apply (core_generic M r st i j i' st'); auto; try congruence.
    intros val rg fl ar D v fo HD W X _. unfold j. rewrite commute_eval by auto. exact X. }
  assert (G1 : match is_const st (arg2 j) with
    | Some rhs => if rhs =? 0 then do! v <- arg1_reg j; convert_mov tabsz j st v else generic tabsz j st None
    | None => generic tabsz j st None
    end = Ok (i', st') -> core M r st i i' st').
  { intros H'. destruct (is_const st (arg2 j)) as [rhs|] eqn:C2; [|exact (G H')].
    destruct (Z.eqb_spec rhs 0) as [->|_]; [|exact (G H')].
    unfold arg1_reg in H'. destruct (arg1 j) as [|x| | | | | | | | | | |] eqn:A1; try discriminate.
    cbn [bind] in H'. apply (core_convert M r st i j (VReg x) i' st') in H'; auto; try congruence.
    - intros y Hy. apply JA, in_or_app. left. rewrite A1. exact Hy.
    - intros val rg fl ar D v HD W X K.
      rewrite <- (commute_eval st) in X by auto. fold j in X.
      destruct (ieval_inv _ _ _ _ X) as (a & b & A & B & P).
      rewrite JO, O in A, B, P. cbn [mode1 mode2] in A, B. pose proof (swapped_const2 _ _ _ _ _ _ HD C2) as F2.
      fold j in F2. rewrite F2 in B. injection B as <-. rewrite A1 in A. cbn in A. injection A as <-.
      cbn [peval] in P. rewrite JC, K in P by (left; exact O). cbn [checked] in P.
      rewrite Z.add_0_r, wrap_in in P by apply W. now injection P as <-. }
  destruct (can_fold st i) as [[a0 b0]|] eqn:C; [|exact (G1 H)].
  destruct (fits (sz i) (a0 + b0)) eqn:FT; [|exact (G1 H)].
  destruct (can_fold_inv _ _ _ _ C) as [C1 C2].
  apply (int_convert _ _ _) in H; [exact H|]. intros val rg fl ar D v HD W X K.
  destruct (ieval_inv _ _ _ _ X) as (a & b & A & B & P). rewrite O in A, B, P. cbn [mode1 mode2] in A, B.
  rewrite (const1 _ _ _ _ _ _ HD C1) in A. rewrite (const2 _ _ _ _ _ _ HD C2) in B.
  injection A as <-. injection B as <-. cbn [peval] in P. rewrite K in P by (left; exact O).
  cbn [checked] in P. rewrite (fits_wrap _ _ FT) in P. now injection P as <-.
Qed.

Lemma pow2_log z : is_power_of_2 z = true -> 2 ^ Z.log2 z = z.
Proof. unfold is_power_of_2. apply Z.eqb_eq. Qed.

Lemma mul_core i' st' : op i = J_MUL -> words i ->
  (let rest :=
    let j := commute_const st i in
    match is_const st (arg2 j) with
    | Some rhs =>
      if rhs =? 0 then convert_mov tabsz j st (VInt 0)
      else if rhs =? 1 then do! v <- arg1_reg j; convert_mov tabsz j st v
      else if (0 <? rhs) && is_power_of_2 rhs && match sz j with SZ_UNSPEC => true | _ => false end
      then generic tabsz (set_op j J_SHL (arg1 j) (VInt (Z.log2 rhs))) st None
      else generic tabsz j st None
    | None => generic tabsz j st None
    end in
  match can_fold st i with
  | Some (lhs, rhs) => if fits (sz i) (lhs * rhs) then convert_mov tabsz i st (VInt (lhs * rhs)) else rest
  | None => rest
  end) = Ok (i', st') -> core M r st i i' st'.
Proof.
  intros O WI H. cbv zeta in H. set (j := commute_const st i) in *.
  destruct (commute_op st i) as (JO & JS & JC & JR). fold j in JO, JS, JC, JR.
  pose proof (commute_args M st i AI) as JA. fold j in JA.
  assert (G : generic tabsz j st None = Ok (i', st') -> core M r st i i' st').
  { intros H'. apply (core_generic M r st i j i' st'); auto; try congruence.
    intros val rg fl ar D v fo HD W X _. unfold j. rewrite commute_eval by auto. exact X. }
  assert (G1 : match is_const st (arg2 j) with
    | Some rhs =>
      if rhs =? 0 then convert_mov tabsz j st (VInt 0)
      else if rhs =? 1 then do! v <- arg1_reg j; convert_mov tabsz j st v
      else if (0 <? rhs) && is_power_of_2 rhs && match sz j with SZ_UNSPEC => true | _ => false end
      then generic tabsz (set_op j J_SHL (arg1 j) (VInt (Z.log2 rhs))) st None
      else generic tabsz j st None
    | None => generic tabsz j st None
    end = Ok (i', st') -> core M r st i i' st').
  { intros H'. destruct (is_const st (arg2 j)) as [rhs|] eqn:C2; [|exact (G H')].
    destruct (Z.eqb_spec rhs 0) as [->|_].
    { apply (core_convert M r st i j (VInt 0) i' st') in H'; auto; try congruence; [intros y []|].
      intros val rg fl ar D v HD W X K.
      rewrite <- (commute_eval st) in X by auto. fold j in X.
      destruct (ieval_inv _ _ _ _ X) as (a & b & A & B & P).
      rewrite JO, O in A, B, P. cbn [mode1 mode2] in A, B. pose proof (swapped_const2 _ _ _ _ _ _ HD C2) as F2.
      fold j in F2. rewrite F2 in B. injection B as <-. cbn [peval] in P.
      rewrite JC, K in P by (right; right; exact O). cbn [checked] in P.
      rewrite Z.mul_0_r in P. now injection P as <-. }
    destruct (Z.eqb_spec rhs 1) as [->|_].
    { unfold arg1_reg in H'. destruct (arg1 j) as [|x| | | | | | | | | | |] eqn:A1; try discriminate.
      cbn [bind] in H'. apply (core_convert M r st i j (VReg x) i' st') in H'; auto; try congruence.
      - intros y Hy. apply JA, in_or_app. left. rewrite A1. exact Hy.
      - intros val rg fl ar D v HD W X K.
        rewrite <- (commute_eval st) in X by auto. fold j in X.
        destruct (ieval_inv _ _ _ _ X) as (a & b & A & B & P).
        rewrite JO, O in A, B, P. cbn [mode1 mode2] in A, B. pose proof (swapped_const2 _ _ _ _ _ _ HD C2) as F2.
        fold j in F2. rewrite F2 in B. injection B as <-. rewrite A1 in A. cbn in A. injection A as <-.
        cbn [peval] in P. rewrite JC, K in P by (right; right; exact O). cbn [checked] in P.
        rewrite Z.mul_1_r, wrap_in in P by apply W. now injection P as <-. }
    destruct ((0 <? rhs) && is_power_of_2 rhs && match sz j with SZ_UNSPEC => true | _ => false end) eqn:PW;
      [|exact (G H')].
    apply andb_true_iff in PW. destruct PW as [PW _]. apply andb_true_iff in PW. destruct PW as [P0 P1].
    apply Z.ltb_lt in P0. apply pow2_log in P1.
    apply (core_generic M r st i _ i' st') in H'; auto; try discriminate.
    - cbn. congruence.
    - intros y Hy. cbn in Hy. apply JA, in_or_app. left. now rewrite app_nil_r in Hy.
    - intros val rg fl ar D v fo HD W X K.
      assert (KC : cc i = CC_NONE).
      { destruct (cc i) eqn:C; try reflexivity; exfalso;
          assert (B : J_SHL = op i) by (apply K; [congruence|right; right; exact O]); congruence. }
      rewrite <- (commute_eval st) in X by auto. fold j in X.
      destruct (ieval_inv _ _ _ _ X) as (a & b & A & B & P).
      rewrite JO, O in A, B, P. cbn [mode1 mode2] in A, B. pose proof (swapped_const2 _ _ _ _ _ _ HD C2) as F2.
      fold j in F2. rewrite F2 in B. injection B as <-. cbn [peval] in P. rewrite JC, KC in P.
      cbn [checked] in P. injection P as <- <-.
      assert (IR : in64 rhs).
      { destruct (arg2 j) as [|x|z| | | | | | | | | |] eqn:A2; cbn in C2; try discriminate;
          cbn in F2; injection F2 as <-; [apply W|].
        apply WI. revert A2. unfold j, commute_const. destruct (is_const st (arg1 i)); cbn; auto. }
      rewrite (ieval_intro _ rg a (Z.log2 rhs)); cbn [set_op op sz cc arg1 arg2 mode1 mode2 peval]; auto.
      assert (L : 0 <= Z.log2 rhs < 64).
      { split; [apply Z.log2_nonneg|]. apply Z.log2_lt_pow2; [exact P0|]. unfold in64, M63 in IR.
        change (2 ^ 64) with 18446744073709551616. lia. }
      destruct (Z.leb_spec 0 (Z.log2 rhs)); [|lia]. destruct (Z.ltb_spec (Z.log2 rhs) 64); [|lia].
      cbn [andb]. rewrite Z.shiftl_mul_pow2 by lia. now rewrite P1. }
  destruct (can_fold st i) as [[a0 b0]|] eqn:C; [|exact (G1 H)].
  destruct (fits (sz i) (a0 * b0)) eqn:FT; [|exact (G1 H)].
  destruct (can_fold_inv _ _ _ _ C) as [C1 C2].
  apply (int_convert _ _ _) in H; [exact H|]. intros val rg fl ar D v HD W X K.
  destruct (ieval_inv _ _ _ _ X) as (a & b & A & B & P). rewrite O in A, B, P. cbn [mode1 mode2] in A, B.
  rewrite (const1 _ _ _ _ _ _ HD C1) in A. rewrite (const2 _ _ _ _ _ _ HD C2) in B.
  injection A as <-. injection B as <-. cbn [peval] in P. rewrite K in P by (right; right; exact O).
  cbn [checked] in P. rewrite (fits_wrap _ _ FT) in P. now injection P as <-.
Qed.

Lemma sub_core i' st' : op i = J_SUB ->
  (let neg :=
    match is_const st (arg1 i) with
    | Some lhs =>
      if (lhs =? 0) && cc_none (cc i) && match sz i with SZ_UNSPEC => true | _ => false end
      then generic tabsz (set_op i J_NEG (arg2 i) VInvalid) st None
      else generic tabsz i st None
    | None => generic tabsz i st None
    end in
  let rest :=
    match is_const st (arg2 i) with
    | Some rhs => if rhs =? 0 then do! v <- arg1_reg i; convert_mov tabsz i st v else neg
    | None => neg
    end in
  match can_fold st i with
  | Some (lhs, rhs) => if fits (sz i) (lhs - rhs) then convert_mov tabsz i st (VInt (lhs - rhs)) else rest
  | None => rest
  end) = Ok (i', st') -> core M r st i i' st'.
Proof.
  intros O H. cbv zeta in H.
  assert (G : generic tabsz i st None = Ok (i', st') -> core M r st i i' st')
    by (intros H'; apply self_generic in H'; [exact H'|congruence|congruence]).
  assert (G0 : match is_const st (arg1 i) with
    | Some lhs =>
      if (lhs =? 0) && cc_none (cc i) && match sz i with SZ_UNSPEC => true | _ => false end
      then generic tabsz (set_op i J_NEG (arg2 i) VInvalid) st None
      else generic tabsz i st None
    | None => generic tabsz i st None
    end = Ok (i', st') -> core M r st i i' st').
  { intros H'. destruct (is_const st (arg1 i)) as [lhs|] eqn:C1; [|exact (G H')].
    destruct ((lhs =? 0) && cc_none (cc i) && match sz i with SZ_UNSPEC => true | _ => false end) eqn:Q;
      [|exact (G H')].
    apply andb_true_iff in Q. destruct Q as [Q _]. apply andb_true_iff in Q. destruct Q as [Q0 Q1].
    apply Z.eqb_eq in Q0. subst lhs.
    assert (CN : cc i = CC_NONE) by (destruct (cc i); try discriminate; reflexivity).
    apply (core_generic M r st i _ i' st') in H'; auto; try discriminate.
    - intros y Hy. cbn in Hy. apply AI, in_or_app. right. now rewrite app_nil_r in Hy.
    - intros val rg fl ar D v fo HD W X K.
      destruct (ieval_inv _ _ _ _ X) as (a & b & A & B & P). rewrite O in A, B, P. cbn [mode1 mode2] in A, B.
      rewrite (const1 _ _ _ _ _ _ HD C1) in A. injection A as <-. cbn [peval] in P. rewrite CN in P.
      cbn [checked] in P. injection P as <- <-.
      rewrite (ieval_intro _ rg b 0); cbn [set_op op sz cc arg1 arg2 mode1 mode2 peval]; auto.  }
  assert (G1 : match is_const st (arg2 i) with
    | Some rhs => if rhs =? 0 then do! v <- arg1_reg i; convert_mov tabsz i st v else
      match is_const st (arg1 i) with
      | Some lhs =>
        if (lhs =? 0) && cc_none (cc i) && match sz i with SZ_UNSPEC => true | _ => false end
        then generic tabsz (set_op i J_NEG (arg2 i) VInvalid) st None
        else generic tabsz i st None
      | None => generic tabsz i st None
      end
    | None => match is_const st (arg1 i) with
      | Some lhs =>
        if (lhs =? 0) && cc_none (cc i) && match sz i with SZ_UNSPEC => true | _ => false end
        then generic tabsz (set_op i J_NEG (arg2 i) VInvalid) st None
        else generic tabsz i st None
      | None => generic tabsz i st None
      end
    end = Ok (i', st') -> core M r st i i' st').
  { intros H'. destruct (is_const st (arg2 i)) as [rhs|] eqn:C2; [|exact (G0 H')].
    destruct (Z.eqb_spec rhs 0) as [->|_]; [|exact (G0 H')].
    unfold arg1_reg in H'. destruct (arg1 i) as [|x| | | | | | | | | | |] eqn:A1; try discriminate.
    cbn [bind] in H'. apply (core_convert M r st i i (VReg x) i' st') in H'; auto.
    - intros y Hy. apply AI, in_or_app. left. rewrite A1. exact Hy.
    - intros val rg fl ar D v HD W X K.
      destruct (ieval_inv _ _ _ _ X) as (a & b & A & B & P). rewrite O in A, B, P. cbn [mode1 mode2] in A, B.
      rewrite (const2 _ _ _ _ _ _ HD C2) in B. injection B as <-. rewrite A1 in A. cbn in A. injection A as <-.
      cbn [peval] in P. rewrite K in P by (right; left; exact O). cbn [checked] in P.
      rewrite Z.sub_0_r, wrap_in in P by apply W. now injection P as <-. }
  destruct (can_fold st i) as [[a0 b0]|] eqn:C; [|exact (G1 H)].
  destruct (fits (sz i) (a0 - b0)) eqn:FT; [|exact (G1 H)].
  destruct (can_fold_inv _ _ _ _ C) as [C1 C2].
  apply (int_convert _ _ _) in H; [exact H|]. intros val rg fl ar D v HD W X K.
  destruct (ieval_inv _ _ _ _ X) as (a & b & A & B & P). rewrite O in A, B, P. cbn [mode1 mode2] in A, B.
  rewrite (const1 _ _ _ _ _ _ HD C1) in A. rewrite (const2 _ _ _ _ _ _ HD C2) in B.
  injection A as <-. injection B as <-. cbn [peval] in P. rewrite K in P by (right; left; exact O).
  cbn [checked] in P. rewrite (fits_wrap _ _ FT) in P. now injection P as <-.
Qed.
End One.

(* ---- with the flag ---- *)

(* What processing an arithmetic instruction gives. *)
Definition good (M : nat -> Prop) (r : nat) (st : lvn) (i i' : ir) (st' : lvn) : Prop :=
  sinv (plus M r) st' /\ op i' <> J_JUMP /\
  forall val rg fl ar D v fo, dinv val st rg fl ar D -> (forall x, in64 (rg x)) ->
    ieval i rg = Some (v, fo) -> keeps i i' ->
    exists val', dinv val' st' (upd rg r v) (match fo with Some f => f | None => fl end) ar D /\
      result i' = Some r /\ ieval i' rg = Some (v, fo).

Lemma core_good M r st i i' st' : core M r (kill_if_checked nregs i st) i i' st' -> good M r st i i' st'.
Proof.
  intros (Q1 & Q2 & Q3). split; [exact Q1|]. split; [exact Q2|].
  intros val rg fl ar D v fo HD W X K. apply (Q3 val rg); auto.
  unfold kill_if_checked. destruct (cc_none (cc i)) eqn:C.
  - assert (fo = None); [|now subst fo].
    destruct fo as [f|]; [|reflexivity]. destruct (ieval_flag _ _ _ _ X) as [N _].
    destruct (cc i); try discriminate; now destruct N.
  - apply (dinv_kill_flags nregs cpool_base cover_addr val st rg fl). exact HD.
Qed.

Lemma plain_good M r st i i' st' : ~ arith (op i) -> core M r st i i' st' -> good M r st i i' st'.
Proof.
  intros NA (Q1 & Q2 & Q3). split; [exact Q1|]. split; [exact Q2|].
  intros val rg fl ar D v fo HD W X K.
  assert (fo = None); [|subst fo; exact (Q3 val rg fl ar D v None HD W X K)].
  destruct fo as [f|]; [|reflexivity]. destruct (ieval_flag _ _ _ _ X) as [_ A]. now destruct NA.
Qed.

Lemma sinv_kill_if M i st : sinv M st -> sinv M (kill_if_checked nregs i st).
Proof. intros H. unfold kill_if_checked. destruct (cc_none (cc i)); [exact H|]. now apply sinv_kill_flags. Qed.

Definition pure (o : opcode) : bool :=
  match o with
  | J_MUL | J_DIV | J_ADD | J_SUB | J_NEG | J_XOR | J_ASR | J_MOV | J_CLAMP => true
  | _ => false
  end.

Lemma pure_good M st i i' st' r cur n :
  pure (op i) = true -> (op i = J_DIV -> bits (sz i) = 64) -> words i ->
  sinv M st -> result i = Some r -> (r < nregs)%nat -> ~ M r -> argsin M i ->
  lvn_one nregs tabsz cpool_load cur n i st = Ok (i', st') -> good M r st i i' st'.
Proof.
  intros P DV WI HS R Hr NM AI H. unfold lvn_one in H. unfold pure in P.
  destruct (op i) eqn:O; try discriminate.
  - apply core_good. apply (add_core M _ i r); auto. now apply sinv_kill_if.
  - apply core_good. apply (sub_core M _ i r); auto. now apply sinv_kill_if.
  - apply plain_good; [intros [A|[A|A]]; congruence|]. apply (mov_core M _ i r); auto.
  - apply core_good. apply (mul_core M _ i r); auto. now apply sinv_kill_if.
  - apply plain_good; [intros [A|[A|A]]; congruence|]. apply (neg_core M _ i r); auto.
  - apply core_good. apply (div_core M _ i r); auto. now apply sinv_kill_if.
  - apply plain_good; [intros [A|[A|A]]; congruence|]. apply (xor_core M _ i r); auto.
  - apply plain_good; [intros [A|[A|A]]; congruence|]. apply (asr_core M _ i r); auto.
  - apply plain_good; [intros [A|[A|A]]; congruence|]. apply (clamp_core M _ i r); auto.
Qed.
End Ops.
