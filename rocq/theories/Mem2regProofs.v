(* The promotion of one allocation, step by step, and the layout of the frame. *)
From Coq Require Import List ZArith Arith Bool Lia.
From Verif Require Import Base JitModel JitPassModel JitSpec JitDceProofs JitNopProofs CfgFlow Mem2regModel Mem2regSpec.
Import ListNotations.
Local Open Scope Z_scope.

Lemma on_reg_in v reg : on_reg v reg = true <-> In reg (value_regs v).
Proof.
  unfold on_reg, value_reg, value_regs. destruct v; cbn; try (split; [discriminate|tauto]);
    rewrite Nat.eqb_eq; split; intros H; [now left|now destruct H|now left|now destruct H].
Qed.
Lemma on_reg_out v reg : on_reg v reg = false <-> ~ In reg (value_regs v).
Proof. rewrite <- on_reg_in. destruct (on_reg v reg); split; congruence. Qed.

Lemma same_size_eq a b : same_size a b = true -> a = b.
Proof. now destruct a, b. Qed.

Lemma any_blocks_nth reg s k : forall f n m i, any_blocks reg s k n f = false -> nth_error f m = Some i ->
  blocks reg s k (n + m) i = false.
Proof.
  induction f as [|j f IH]; intros n m i B N; [now destruct m|].
  cbn in B. apply orb_false_elim in B as [B1 B2]. destruct m as [|m]; cbn in N.
  - injection N as <-. now rewrite Nat.add_0_r.
  - replace (n + S m)%nat with (S n + m)%nat by lia. exact (IH _ _ _ B2 N).
Qed.

(* What is known of each instruction of code in which an allocation was promoted. *)
Record spared (reg : nat) (s : size) (k n : nat) (i : ir) : Prop := {
  sp_res : n <> k -> result i <> Some reg;
  sp_load : op i = J_LOAD -> In reg (value_regs (arg1 i)) ->
    (arg1 i = VReg reg \/ arg1 i = VAddrReg reg 0) /\ sz i = s;
  sp_store : op i = J_STORE -> In reg (value_regs (arg2 i)) ->
    (arg2 i = VReg reg \/ arg2 i = VAddrReg reg 0) /\ sz i = s /\ ~ In reg (value_regs (arg1 i));
  sp_other : op i <> J_LOAD -> op i <> J_STORE ->
    ~ In reg (value_regs (arg1 i)) /\ ~ In reg (value_regs (arg2 i)) }.

Lemma plain_addr v reg : In reg (value_regs v) -> value_disp v = 0 -> v = VReg reg \/ v = VAddrReg reg 0.
Proof. destruct v; cbn; try tauto; intros [->|[]]; [now left|intros ->; now right]. Qed.

Lemma not_blocked reg s k n i : blocks reg s k n i = false -> spared reg s k n i.
Proof.
  intros B. unfold blocks in B.
  destruct (match result i with Some r => Nat.eqb r reg | None => false end && negb (Nat.eqb n k)) eqn:R; [discriminate|].
  split.
  - intros N E. rewrite E, Nat.eqb_refl in R. destruct (Nat.eqb_spec n k); [contradiction|discriminate].
  - intros O I. rewrite O in B. apply on_reg_in in I as I'. rewrite I' in B. cbn [negb] in B.
    destruct (Z.eqb_spec (value_disp (arg1 i)) 0) as [D|_]; [|discriminate]. cbn [negb orb] in B.
    destruct (same_size (sz i) s) eqn:Q; [|discriminate]. split; [now apply plain_addr|now apply same_size_eq].
  - intros O I. rewrite O in B. apply on_reg_in in I as I'. rewrite I' in B. cbn [negb] in B.
    destruct (Z.eqb_spec (value_disp (arg2 i)) 0) as [D|_]; [|discriminate]. cbn [negb orb] in B.
    destruct (same_size (sz i) s) eqn:Q; [|discriminate]. repeat split.
    + now apply plain_addr.
    + now apply same_size_eq.
    + cbn in B. now apply on_reg_out.
  - intros OL OS. assert (on_reg (arg1 i) reg || on_reg (arg2 i) reg = false) as E by (destruct (op i); congruence).
    apply orb_false_elim in E as [E1 E2]. now rewrite <- !on_reg_out.
Qed.

Section Sim.
Variable W : Type.
Variable cpool_base : Z.
Variable cover_addr : Z -> Z.
Variable prim : opcode -> size -> ccode -> Z -> Z -> Z -> bool -> (nat -> Z) -> W ->
                option (Z * bool * (nat -> Z) * W).
Notation run := (run W cpool_base cover_addr prim).
Notation step := (step W cpool_base cover_addr prim).
Notation fetch := (fetch cpool_base cover_addr).
Notation exec := (exec W prim).
Notation State := (State W).
Notation pc := (pc W). Notation regs := (regs W). Notation flag := (flag W). Notation args := (args W).
Notation outside := (outside W).

Variable A : Z.
Variable slot : W -> Z.
Variable same : W -> W -> Prop.

Variable f f' : prog.
Variable k reg : nat.
Variable s : size.
Variable s0 : state W.
Variable alloc : ir.
Hypothesis AT : nth_error f k = Some alloc.
Hypothesis ISA : op alloc = MACRO_SALLOC.
Hypothesis ARES : result alloc = Some reg.
Hypothesis NB : any_blocks reg s k 0 f = false.
Hypothesis F' : f' = set_nth (map (promoted reg) f) k (nop_of alloc).
Hypothesis KEPT : kept f reg.
Hypothesis PL : place_ok W prim A slot same s.
Hypothesis PR : private W cpool_base cover_addr prim A slot same f k reg s s0.

Notation earlier := (earlier W cpool_base cover_addr prim f s0).
Notation allocated n := (earlier n (fun p _ => p = k)).
Notation stored n := (earlier n (fun _ j => stores_through reg j)).

Lemma at' p : nth_error f' p = if Nat.eqb p k then Some (nop_of alloc) else option_map (promoted reg) (nth_error f p).
Proof.
  rewrite F'. rewrite set_nth_nth.
  - now rewrite nth_error_map.
  - rewrite map_length. apply nth_error_Some. congruence.
Qed.

Lemma spared_at p i : nth_error f p = Some i -> spared reg s k p i.
Proof. intros N. apply not_blocked. exact (any_blocks_nth reg s k f 0 p i NB N). Qed.

Lemma fits_strunc v : fits s v -> strunc s v = v.
Proof.
  unfold fits, strunc. intros H. assert (2 ^ bits s = 2 * 2 ^ (bits s - 1)) as E.
  { rewrite <- Z.pow_succ_r by (destruct s; cbn; lia). f_equal. lia. }
  rewrite Z.mod_small by lia. lia.
Qed.

Record sim (n : nat) (t t' : state W) : Prop := {
  m_run : run n f s0 = Next W t;
  m_pc : pc t' = pc t; m_flag : flag t' = flag t; m_args : args t' = args t;
  m_regs : forall r, r <> reg -> regs t' r = regs t r;
  m_same : same (outside t) (outside t');
  m_value : stored n -> regs t' reg = slot (outside t);
  m_addr : allocated n -> regs t reg = A }.

Definition related (n : nat) (o o' : outcome W) : Prop :=
  match o, o' with
  | Next _ t, Next _ t' => sim n t t'
  | Done _ ar w, Done _ ar' w' => ar' = ar /\ same w w'
  | Crash _, _ => True
  | _, _ => False
  end.

Lemma earlier_S n P t i : run n f s0 = Next W t -> nth_error f (pc t) = Some i ->
  earlier (S n) P -> P (pc t) i \/ earlier n P.
Proof.
  intros R N (m & u & j & L & Ru & Nj & Pj). destruct (Nat.eq_dec m n) as [->|D].
  - left. rewrite Ru in R. injection R as ->. rewrite Nj in N. injection N as ->. exact Pj.
  - right. exists m, u, j. repeat split; auto. lia.
Qed.

Lemma run_step n t o : run n f s0 = Next W t -> step f t = o -> run (S n) f s0 = o.
Proof.
  intros R E. replace (S n) with (n + 1)%nat by lia. rewrite (run_add W cpool_base cover_addr prim), R.
  cbn [JitModel.run]. rewrite E. now destruct o.
Qed.
Lemma run_step' n t o : run n f' s0 = Next W t -> step f' t = o -> run (S n) f' s0 = o.
Proof.
  intros R E. replace (S n) with (n + 1)%nat by lia. rewrite (run_add W cpool_base cover_addr prim), R.
  cbn [JitModel.run]. rewrite E. now destruct o.
Qed.

(* The address operand of an access through the register. *)
Lemma fetch_addr v t : v = VReg reg \/ v = VAddrReg reg 0 -> wrap A = A -> regs t reg = A ->
  fetch MPtr (regs t) v = Some A.
Proof. intros [->| ->] WA R; cbn; rewrite R; [reflexivity|]. now rewrite Z.add_0_r, WA. Qed.

Hypothesis WA : wrap A = A.

(* The store becomes a move into the register. *)
Lemma sim_store n t t' i : sim n t t' -> nth_error f (pc t) = Some i -> stores_through reg i ->
  related (S n) (step f t) (step f' t').
Proof.
  intros M N ST. destruct ST as [O I].
  destruct (sp_store _ _ _ _ _ (spared_at _ _ N) O I) as (AD & SZ & NI).
  destruct (PR n t i (m_run _ _ _ M) N) as (PA & _ & PF & _ & _).
  assert (AL : allocated n) by (apply PA; right; split; assumption).
  pose proof (m_addr _ _ _ M AL) as RA.
  assert (PK : Nat.eqb (pc t) k = false).
  { apply Nat.eqb_neq. intros E. rewrite E, AT in N. injection N as ->. congruence. }
  assert (E' : nth_error f' (pc t') = Some (Ir J_MOV SZ_UNSPEC (target i) CC_NONE (Some reg) (arg1 i) VInvalid)).
  { rewrite at', (m_pc _ _ _ M), PK, N. cbn [option_map]. unfold promoted. rewrite O.
    apply on_reg_in in I as I'. now rewrite I'. }
  assert (FE : fetch MScalar (regs t') (arg1 i) = fetch MScalar (regs t) (arg1 i)).
  { apply fetch_alike. intros r R. apply (m_regs _ _ _ M). intros ->. contradiction. }
  unfold JitModel.step at 2. rewrite E'. cbn [op arg1 arg2 mode1 mode2 reads_result]. rewrite FE.
  destruct (step f t) as [u|ar w|] eqn:STEP; [| |exact Logic.I].
  all: pose proof STEP as STEP0; unfold JitModel.step in STEP; rewrite N, O in STEP; cbn [mode1 mode2] in STEP;
    unfold reads_result in STEP; rewrite O in STEP;
    rewrite (fetch_addr (arg2 i) t AD WA RA) in STEP;
    destruct (fetch MScalar (regs t) (arg1 i)) as [v|] eqn:FV; [|discriminate];
    cbn [JitModel.exec] in STEP; rewrite SZ in STEP;
    destruct (store_place _ _ _ _ _ _ PL (cc i) v (args t) (outside t) (outside t') (m_same _ _ _ M))
      as (x & fl & ar1 & w1 & PE & SW & SL); rewrite PE in STEP; cbn in STEP; try discriminate.
  injection STEP as <-. cbn.
  split; cbn.
  - exact (run_step _ _ _ (m_run _ _ _ M) STEP0).
  - now rewrite (m_pc _ _ _ M).
  - apply (m_flag _ _ _ M).
  - apply (m_args _ _ _ M).
  - intros r NR. rewrite upd_other by auto. now apply (m_regs _ _ _ M).
  - exact SW.
  - intros _. rewrite upd_same, SL. symmetry. apply fits_strunc.
    apply (PF (conj O I)). reflexivity.
  - intros _. exact RA.
Qed.

(* The load becomes a move from the register. *)
Lemma sim_load n t t' i : sim n t t' -> nth_error f (pc t) = Some i -> loads_through reg i ->
  related (S n) (step f t) (step f' t').
Proof.
  intros M N LT. destruct LT as [O I].
  destruct (sp_load _ _ _ _ _ (spared_at _ _ N) O I) as (AD & SZ).
  destruct (PR n t i (m_run _ _ _ M) N) as (PA & PS & _ & _ & _).
  assert (AL : allocated n) by (apply PA; left; split; assumption).
  assert (ST : stored n) by (apply PS; split; assumption).
  pose proof (m_addr _ _ _ M AL) as RA. pose proof (m_value _ _ _ M ST) as RV.
  assert (PK : Nat.eqb (pc t) k = false).
  { apply Nat.eqb_neq. intros E. rewrite E, AT in N. injection N as ->. congruence. }
  assert (E' : nth_error f' (pc t') = Some (Ir J_MOV SZ_UNSPEC (target i) CC_NONE (result i) (VReg reg) (arg2 i))).
  { rewrite at', (m_pc _ _ _ M), PK, N. cbn [option_map]. unfold promoted. rewrite O.
    apply on_reg_in in I as I'. now rewrite I'. }
  pose proof (sp_res _ _ _ _ _ (spared_at _ _ N) (proj1 (Nat.eqb_neq _ _) PK)) as NRES.
  unfold JitModel.step at 2. rewrite E'. cbn [op arg1 arg2 mode1 mode2 reads_result]. cbn [JitModel.fetch].
  destruct (load_place _ _ _ _ _ _ PL (cc i) (args t) (outside t)) as (fl & ar1 & w1 & PE).
  destruct (step f t) as [u|ar w|] eqn:STEP; [| |exact Logic.I].
  all: pose proof STEP as STEP0; unfold JitModel.step in STEP; rewrite N, O in STEP; cbn [mode1 mode2] in STEP;
    unfold reads_result in STEP; rewrite O in STEP;
    rewrite (fetch_addr (arg1 i) t AD WA RA) in STEP; cbn [JitModel.fetch] in STEP;
    cbn [JitModel.exec] in STEP; rewrite SZ, PE in STEP; cbn in STEP;
    unfold apply in STEP; cbn in STEP; destruct (result i) as [r|] eqn:RES; try discriminate.
  injection STEP as <-. cbn. unfold apply. cbn [e_done e_res e_jump e_flag e_args e_w result].
  split; cbn [JitModel.pc JitModel.regs JitModel.flag JitModel.args JitModel.outside].
  - exact (run_step _ _ _ (m_run _ _ _ M) STEP0).
  - now rewrite (m_pc _ _ _ M).
  - apply (m_flag _ _ _ M).
  - apply (m_args _ _ _ M).
  - intros r' NR. rewrite RV. unfold upd. destruct (Nat.eqb r' r); [reflexivity|]. now apply (m_regs _ _ _ M).
  - apply (m_same _ _ _ M).
  - intros _. rewrite upd_other by congruence. exact RV.
  - intros _. rewrite upd_other by congruence. exact RA.
Qed.

Lemma sim_alloc n t t' : sim n t t' -> pc t = k -> related (S n) (step f t) (step f' t').
Proof.
  intros M PK. assert (N : nth_error f (pc t) = Some alloc) by now rewrite PK.
  destruct (PR n t alloc (m_run _ _ _ M) N) as (_ & _ & _ & PA & _).
  destruct (PA PK) as (u & STEP & RU). rewrite STEP.
  assert (E' : nth_error f' (pc t') = Some (nop_of alloc)).
  { rewrite at', (m_pc _ _ _ M), PK, Nat.eqb_refl. reflexivity. }
  unfold JitModel.step at 1. rewrite E'. cbn. pose proof STEP as STEP0.
  unfold JitModel.step in STEP. rewrite N, ISA in STEP. cbn [mode1 mode2] in STEP.
  unfold reads_result in STEP. rewrite ISA in STEP.
  destruct (fetch MConst (regs t) (arg1 alloc)) as [a|]; [|discriminate].
  destruct (fetch MConst (regs t) (arg2 alloc)) as [b|]; [|discriminate].
  cbn [JitModel.exec] in STEP.
  destruct (prim MACRO_SALLOC _ _ _ _ _ _ _ _) as [[[[v x] y] z]|]; [|discriminate]. unfold setr, apply in STEP. cbn [e_done e_res e_jump e_flag e_args e_w] in STEP.
  rewrite ARES in STEP. injection STEP as <-. cbn in RU.
  split; cbn [JitModel.pc JitModel.regs JitModel.flag JitModel.args JitModel.outside].
  - exact (run_step _ _ _ (m_run _ _ _ M) STEP0).
  - now rewrite (m_pc _ _ _ M).
  - apply (m_flag _ _ _ M).
  - apply (m_args _ _ _ M).
  - intros r NR. rewrite upd_other by auto. now apply (m_regs _ _ _ M).
  - apply (m_same _ _ _ M).
  - intros ST. apply (m_value _ _ _ M). destruct (earlier_S _ _ _ _ (m_run _ _ _ M) N ST) as [[X _]|X]; [|exact X].
    rewrite ISA in X. discriminate.
  - intros _. exact RU.
Qed.

(* Any other instruction reads neither the register nor the place. *)
Lemma sim_other n t t' i : sim n t t' -> nth_error f (pc t) = Some i -> pc t <> k ->
  ~ loads_through reg i -> ~ stores_through reg i -> related (S n) (step f t) (step f' t').
Proof.
  intros M N PK NL NS. pose proof (spared_at _ _ N) as SP.
  destruct (PR n t i (m_run _ _ _ M) N) as (_ & _ & _ & _ & PB). specialize (PB PK NL NS).
  specialize (PB (outside t') (m_same _ _ _ M)).
  assert (E' : nth_error f' (pc t') = Some i).
  { rewrite at', (m_pc _ _ _ M). apply Nat.eqb_neq in PK as PK'. rewrite PK', N. cbn [option_map]. f_equal.
    unfold promoted. destruct (op i) eqn:O; try reflexivity.
    - destruct (on_reg (arg2 i) reg) eqn:X; [|reflexivity]. apply on_reg_in in X. exfalso. apply NS. now split.
    - destruct (on_reg (arg1 i) reg) eqn:X; [|reflexivity]. apply on_reg_in in X. exfalso. apply NL. now split. }
  assert (N1 : mode1 (op i) = MNone \/ ~ In reg (value_regs (arg1 i))).
  { destruct (opcode_eq_dec (op i) J_LOAD) as [L|L].
    - right. intros I. apply NL. now split.
    - destruct (opcode_eq_dec (op i) J_STORE) as [S|S].
      + right. exact (KEPT i (nth_error_In _ _ N) S).
      + right. apply (sp_other _ _ _ _ _ SP L S). }
  assert (N2 : mode2 (op i) = MNone \/ ~ In reg (value_regs (arg2 i))).
  { destruct (opcode_eq_dec (op i) J_LOAD) as [L|L].
    - left. now rewrite L.
    - destruct (opcode_eq_dec (op i) J_STORE) as [S|S].
      + right. intros I. apply NS. now split.
      + right. apply (sp_other _ _ _ _ _ SP L S). }
  pose proof (sp_res _ _ _ _ _ SP PK) as NR.
  set (mid := State (pc t) (regs t) (flag t) (args t) (outside t')) in *.
  assert (FA : forall m v, m = MNone \/ ~ In reg (value_regs v) -> fetch m (regs t') v = fetch m (regs t) v).
  { intros m v [->|H]; [reflexivity|]. apply fetch_alike. intros r R. apply (m_regs _ _ _ M). intros ->. contradiction. }
  assert (X : match step f mid with
              | Next _ u => exists rg, step f' t' = Next W (State (pc u) rg (flag u) (args u) (outside u)) /\
                  (forall r, r <> reg -> rg r = regs u r) /\ rg reg = regs t' reg /\ regs u reg = regs t reg
              | Done _ ar w => step f' t' = Done W ar w
              | Crash _ => True end).
  { unfold JitModel.step. rewrite E'. change (pc mid) with (pc t). rewrite N.
    change (regs mid) with (regs t). change (flag mid) with (flag t). change (args mid) with (args t).
    change (outside mid) with (outside t').
    rewrite (FA _ _ N1), (FA _ _ N2), (m_flag _ _ _ M), (m_args _ _ _ M).
    destruct (fetch (mode1 (op i)) (regs t) (arg1 i)) as [a|]; [|exact Logic.I].
    destruct (fetch (mode2 (op i)) (regs t) (arg2 i)) as [b|]; [|exact Logic.I].
    assert (RE : (if reads_result i then option_map (regs t') (result i) else Some 0) =
                 (if reads_result i then option_map (regs t) (result i) else Some 0)).
    { destruct (reads_result i); [|reflexivity]. destruct (result i) as [r|]; [|reflexivity]. cbn. f_equal.
      apply (m_regs _ _ _ M). congruence. }
    rewrite RE. destruct (if reads_result i then option_map (regs t) (result i) else Some 0) as [rv|]; [|exact Logic.I].
    destruct (exec (op i) (sz i) (cc i) a b rv (flag t) (args t) (outside t')) as [e|]; [|exact Logic.I].
    unfold apply. destruct (e_done W e); [reflexivity|].
    change (pc mid) with (pc t). change (regs mid) with (regs t). rewrite (m_pc _ _ _ M).
    destruct (e_res W e) as [v|]; [destruct (result i) as [r|]; [|exact Logic.I]|].
    - exists (upd (regs t') r v). cbn. repeat split.
      + intros r' D. unfold upd. destruct (Nat.eqb r' r); [reflexivity|]. now apply (m_regs _ _ _ M).
      + rewrite upd_other by congruence. reflexivity.
      + rewrite upd_other by congruence. reflexivity.
    - exists (regs t'). cbn. repeat split. apply (m_regs _ _ _ M). }
  destruct (step f t) as [u|ar w|] eqn:STEP; [| |exact Logic.I].
  - destruct PB as (SL & x & SE & SX). rewrite SE in X. cbn in X. destruct X as (rg & E & RG & RR & RT).
    rewrite E. split; cbn.
    + exact (run_step _ _ _ (m_run _ _ _ M) STEP).
    + reflexivity.
    + reflexivity.
    + reflexivity.
    + exact RG.
    + exact SX.
    + intros ST. rewrite RR, SL. apply (m_value _ _ _ M).
      destruct (earlier_S _ _ _ _ (m_run _ _ _ M) N ST) as [Y|Y]; [contradiction|exact Y].
    + intros AL. rewrite RT. apply (m_addr _ _ _ M).
      destruct (earlier_S _ _ _ _ (m_run _ _ _ M) N AL) as [Y|Y]; [contradiction|exact Y].
  - destruct PB as (x & SE & SX). rewrite SE in X. cbn in X. rewrite X. cbn. now split.
Qed.

Lemma earlier_0 P : ~ earlier 0 P.
Proof. intros (m & t & i & L & _). lia. Qed.

Theorem promotion : forall n, related n (run n f s0) (run n f' s0).
Proof.
  induction n as [|n IH].
  - cbn. split; try reflexivity.
    + apply (same_refl _ _ _ _ _ _ PL).
    + intros H. now apply earlier_0 in H.
    + intros H. now apply earlier_0 in H.
  - destruct (run n f s0) as [t|ar w|] eqn:R.
    + destruct (run n f' s0) as [t'|ar' w'|] eqn:R'; try now destruct IH.
      cbn in IH. rewrite (run_step _ _ _ R eq_refl), (run_step' _ _ _ R' eq_refl).
      destruct (nth_error f (pc t)) as [i|] eqn:N.
      2:{ unfold JitModel.step at 1. rewrite N. exact Logic.I. }
      destruct (Nat.eq_dec (pc t) k) as [E|D]; [exact (sim_alloc _ _ _ IH E)|].
      destruct (opcode_eq_dec (op i) J_LOAD) as [L|L].
      * destruct (on_reg (arg1 i) reg) eqn:X.
        -- apply on_reg_in in X. exact (sim_load _ _ _ _ IH N (conj L X)).
        -- apply on_reg_out in X. apply (sim_other _ _ _ _ IH N D).
           ++ intros [_ Y]. contradiction.
           ++ intros [Y _]. congruence.
      * destruct (opcode_eq_dec (op i) J_STORE) as [S|S].
        -- destruct (on_reg (arg2 i) reg) eqn:X.
           ++ apply on_reg_in in X. exact (sim_store _ _ _ _ IH N (conj S X)).
           ++ apply on_reg_out in X. apply (sim_other _ _ _ _ IH N D).
              ** intros [Y _]. congruence.
              ** intros [_ Y]. contradiction.
        -- apply (sim_other _ _ _ _ IH N D); intros [Y _]; congruence.
    + destruct (run n f' s0) as [t'|ar' w'|] eqn:R'; try now destruct IH.
      replace (S n) with (n + 1)%nat by lia. rewrite !(run_add W cpool_base cover_addr prim), R, R'. exact IH.
    + replace (S n) with (n + 1)%nat by lia. rewrite !(run_add W cpool_base cover_addr prim), R. exact Logic.I.
Qed.
End Sim.

(* ---- the layout of the frame ---- *)

Lemma salloc_true i : is_salloc i = true <-> op i = MACRO_SALLOC.
Proof. unfold is_salloc, op_eqb. destruct (opcode_eq_dec (op i) MACRO_SALLOC); split; congruence. Qed.

(* The code with at most its instruction at [k] changed, and that not to or from
   something that ends a block. *)
Definition ends_block (o : opcode) : bool :=
  match o with MACRO_CASE | J_JUMP | J_RET | MACRO_REEXEC => true | _ => false end.

Lemma terminator_ops f g : length g = length f ->
  (forall n i j, nth_error f n = Some i -> nth_error g n = Some j ->
     op j = op i \/ ends_block (op i) = false /\ ends_block (op j) = false) ->
  forall n, is_terminator g n = is_terminator f n.
Proof.
  intros L H n. unfold is_terminator.
  destruct (nth_error f n) as [i|] eqn:N.
  2:{ apply nth_error_None in N. rewrite <- L in N. apply nth_error_None in N. now rewrite N. }
  destruct (nth_error g n) as [j|] eqn:Ng.
  2:{ apply nth_error_None in Ng. rewrite L in Ng. apply nth_error_None in Ng. congruence. }
  destruct (H n i j N Ng) as [E|[E1 E2]].
  - rewrite E. destruct (op i); try reflexivity.
    destruct (nth_error f (S n)) as [i1|] eqn:N1.
    2:{ apply nth_error_None in N1. rewrite <- L in N1. apply nth_error_None in N1. now rewrite N1. }
    destruct (nth_error g (S n)) as [j1|] eqn:Ng1.
    2:{ apply nth_error_None in Ng1. rewrite L in Ng1. apply nth_error_None in Ng1. congruence. }
    destruct (H _ _ _ N1 Ng1) as [E1|[E1 E2]]; [now rewrite E1|].
    unfold op_eqb. destruct (opcode_eq_dec (op j1) MACRO_CASE) as [X|_]; [rewrite X in E2; discriminate|].
    destruct (opcode_eq_dec (op i1) MACRO_CASE) as [X|_]; [rewrite X in E1; discriminate|reflexivity].
  - destruct (op i); try discriminate; destruct (op j); try discriminate; reflexivity.
Qed.

Lemma promoted_op reg i : op (promoted reg i) = op i \/ ends_block (op i) = false /\ ends_block (op (promoted reg i)) = false.
Proof.
  unfold promoted. destruct (op i) eqn:O; try (left; assumption).
  - destruct (on_reg (arg2 i) reg); [right; now split|now left].
  - destruct (on_reg (arg1 i) reg); [right; now split|now left].
Qed.
Lemma promoted_salloc reg i : op (promoted reg i) = MACRO_SALLOC -> promoted reg i = i.
Proof.
  unfold promoted. destruct (op i) eqn:O; try reflexivity.
  - destruct (on_reg (arg2 i) reg); [discriminate|reflexivity].
  - destruct (on_reg (arg1 i) reg); [discriminate|reflexivity].
Qed.

Definition allocs_named (f : prog) : Prop := forall i, In i f -> op i = MACRO_SALLOC -> result i <> None.

Lemma try_promote_ok f k framesz i : laid_out f framesz -> allocs_named f -> allocs_first f ->
  nth_error f k = Some i -> op i = MACRO_SALLOC ->
  exists p, try_promote f k = Ok p /\
    match p with
    | None => True
    | Some g => laid_out g framesz /\ allocs_named g /\ allocs_first g /\ length g = length f
    end.
Proof.
  intros [L1 L2] AN AF N O. unfold try_promote. rewrite N.
  destruct (L1 k i N O) as (off & size & (T1 & T2 & T3) & _). rewrite T3.
  destruct (slot_size size) as [s|]; [|now exists None].
  destruct (result i) as [reg|] eqn:R; [|exfalso; apply (AN i (nth_error_In _ _ N) O R)].
  destruct (any_blocks reg s k 0 f); [now exists None|].
  eexists. split; [reflexivity|].
  assert (K : (k < length (map (promoted reg) f))%nat) by (rewrite map_length; apply nth_error_Some; congruence).
  set (g := set_nth (map (promoted reg) f) k (nop_of i)).
  assert (LG : length g = length f) by (unfold g; rewrite set_nth_length by exact K; apply map_length).
  assert (AT : forall m j, nth_error g m = Some j -> op j = MACRO_SALLOC -> nth_error f m = Some j).
  { intros m j M OJ. unfold g in M. rewrite set_nth_nth in M by exact K. destruct (Nat.eqb_spec m k) as [->|_].
    - injection M as <-. discriminate.
    - rewrite nth_error_map in M. destruct (nth_error f m) as [x|] eqn:X; [|discriminate]. cbn in M. injection M as <-.
      now rewrite (promoted_salloc _ _ OJ). }
  assert (TE : forall m, is_terminator g m = is_terminator f m).
  { apply terminator_ops; [exact LG|]. intros m x y X Y. unfold g in Y. rewrite set_nth_nth in Y by exact K.
    destruct (Nat.eqb_spec m k) as [E|_].
    - rewrite E, N in X. injection X as <-. injection Y as <-. right. rewrite O. now split.
    - rewrite nth_error_map, X in Y. cbn in Y. injection Y as <-. apply promoted_op. }
  repeat split.
  - intros m j M OJ. exact (L1 m j (AT m j M OJ) OJ).
  - intros a b x y ox sx oy sy AB X Y TX TY.
    exact (L2 a b x y ox sx oy sy AB (AT _ _ X (proj1 TX)) (AT _ _ Y (proj1 TY)) TX TY).
  - intros j J OJ. apply In_nth_error in J as [m M]. exact (AN j (nth_error_In _ _ (AT m j M OJ)) OJ).
  - intros a b j AB T M OJ. rewrite TE in T. exact (AF a b j AB T (AT _ _ M OJ) OJ).
  - exact LG.
Qed.

Lemma promote_loop_ok framesz : forall left n f replaced, laid_out f framesz -> allocs_named f -> allocs_first f ->
  exists g r, promote_loop left n f replaced = Ok (g, r) /\
    laid_out g framesz /\ allocs_named g /\ allocs_first g.
Proof.
  induction left as [|left IH]; intros n f replaced L AN AF; cbn [promote_loop]; [eauto 10|].
  destruct (nth_error f n) as [i|] eqn:N; [|eauto 10].
  destruct (is_salloc i) eqn:SA.
  - apply salloc_true in SA. destruct (try_promote_ok f n framesz i L AN AF N SA) as (p & -> & P). cbn [bind].
    destruct p as [g|].
    + destruct P as (P1 & P2 & P3 & _). now apply IH.
    + now apply IH.
  - destruct (is_terminator f n); [eauto 10|]. now apply IH.
Qed.

Lemma align8_range z : z <= align8 z < z + 8 /\ align8 z mod 8 = 0.
Proof.
  unfold align8. split; [Z.to_euclidean_division_equations; lia|]. apply Z.mod_mul. lia.
Qed.
Lemma align8_least z y : z <= y -> y mod 8 = 0 -> align8 z <= y.
Proof. unfold align8. intros. Z.to_euclidean_division_equations; lia. Qed.

Record packed (framesz : Z) (n : nat) (g : prog) (ns : Z) : Prop := {
  k_ns : ns mod 8 = 0 /\ 0 <= ns <= framesz;
  k_low : forall m i, (m < n)%nat -> nth_error g m = Some i -> op i = MACRO_SALLOC ->
    exists off size, takes i off size /\ 0 <= off /\ 0 <= size /\ off + size <= ns /\ off mod 8 = 0;
  k_high : forall m i, (n <= m)%nat -> nth_error g m = Some i -> op i = MACRO_SALLOC ->
    exists off size, takes i off size /\ ns <= off /\ 0 <= size /\ off + size <= framesz /\ off mod 8 = 0;
  k_apart : forall a b i j oi si oj sj, (a < b)%nat -> nth_error g a = Some i -> nth_error g b = Some j ->
    takes i oi si -> takes j oj sj -> oi + si <= oj;
  k_first : allocs_first g }.

Lemma takes_eq i o1 s1 o2 s2 : takes i o1 s1 -> takes i o2 s2 -> o1 = o2 /\ s1 = s2.
Proof. intros (_ & A1 & A2) (_ & B1 & B2). rewrite A1 in B1. rewrite A2 in B2. injection B1. injection B2. auto. Qed.

Lemma packed_end framesz n g ns : packed framesz n g ns ->
  (forall m i, (n <= m)%nat -> nth_error g m = Some i -> op i <> MACRO_SALLOC) -> laid_out g ns.
Proof.
  intros K H. split.
  - intros m i M O. destruct (Nat.lt_ge_cases m n) as [L|L]; [exact (k_low _ _ _ _ K m i L M O)|].
    exfalso. exact (H m i L M O).
  - exact (k_apart _ _ _ _ K).
Qed.

Lemma compact_ok framesz : framesz mod 8 = 0 -> forall left n g ns, packed framesz n g ns -> (length g <= n + left)%nat ->
  exists g2 ns2, compact left n g ns = Ok (g2, ns2) /\ laid_out g2 ns2 /\ ns2 mod 8 = 0 /\ ns2 <= framesz.
Proof.
  intros F8. induction left as [|left IH]; intros n g ns K LEN; cbn [compact].
  { exists g, ns. split; [reflexivity|]. split; [|split; apply (k_ns _ _ _ _ K)]. apply (packed_end framesz n g ns K).
    intros m i M X. assert (m < length g)%nat by (apply nth_error_Some; congruence). lia. }
  destruct (nth_error g n) as [i|] eqn:N.
  2:{ exists g, ns. split; [reflexivity|]. split; [|split; apply (k_ns _ _ _ _ K)]. apply (packed_end framesz n g ns K).
      intros m i M X. apply nth_error_None in N. assert (m < length g)%nat by (apply nth_error_Some; congruence). lia. }
  destruct (is_salloc i) eqn:SA.
  - apply salloc_true in SA. destruct (k_high _ _ _ _ K n i (le_n n) N SA) as (off & size & T & H1 & H2 & H3 & H4).
    destruct T as (T0 & T1 & T2). rewrite T1, T2. destruct (Z.leb_spec ns off); [|lia].
    assert (KL : (n < length g)%nat) by (apply nth_error_Some; congruence).
    pose proof (align8_range size) as [AR A8]. destruct (k_ns _ _ _ _ K) as [NS1 NS2].
    assert (LEAST : forall y, off + size <= y -> y mod 8 = 0 -> ns + align8 size <= y).
    { intros y Y1 Y2. pose proof (align8_least size (y - off)) as AL.
      assert ((y - off) mod 8 = 0) by (rewrite Zminus_mod, Y2, H4; reflexivity). lia. }
    set (i' := Ir (op i) (sz i) (target i) (cc i) (result i) (VInt ns) (VInt size)).
    assert (AT : forall m, nth_error (set_nth g n i') m = if Nat.eqb m n then Some i' else nth_error g m).
    { intros m. now apply set_nth_nth. }
    assert (TI : takes i' ns size) by (unfold takes, i'; cbn; now rewrite SA).
    assert (TI0 : takes i off size) by now split.
    apply IH; [|rewrite set_nth_length by exact KL; lia].
    split.
    + split; [rewrite Zplus_mod, NS1, A8; reflexivity|]. split; [lia|]. now apply LEAST.
    + intros m j M X O. rewrite AT in X. destruct (Nat.eqb_spec m n) as [E|D].
      * injection X as <-. exists ns, size. split; [exact TI|]. lia.
      * destruct (k_low _ _ _ _ K m j ltac:(lia) X O) as (o & z & T & B1 & B2 & B3 & B4).
        exists o, z. split; [exact T|]. repeat split; auto. lia.
    + intros m j M X O. rewrite AT in X. destruct (Nat.eqb_spec m n) as [E|D]; [lia|].
      destruct (k_high _ _ _ _ K m j ltac:(lia) X O) as (o & z & T & B1 & B2 & B3 & B4).
      exists o, z. split; [exact T|]. repeat split; auto. apply LEAST; [|exact B4].
      apply (k_apart _ _ _ _ K n m i j off size o z); auto.
    + intros a b x y ox sx oy sy AB X Y TX TY. rewrite AT in X, Y.
      destruct (Nat.eqb_spec a n) as [EA|DA]; destruct (Nat.eqb_spec b n) as [EB|DB]; [lia| | |].
      * injection X as <-. destruct (takes_eq _ _ _ _ _ TX TI) as [-> ->].
        assert (off + size <= oy) by (apply (k_apart _ _ _ _ K n b i y off size oy sy); auto; lia). lia.
      * injection Y as <-. destruct (takes_eq _ _ _ _ _ TY TI) as [-> ->].
        destruct (k_low _ _ _ _ K a x ltac:(lia) X (proj1 TX)) as (o & z & T & B1 & B2 & B3 & B4).
        destruct (takes_eq _ _ _ _ _ TX T) as [-> ->]. exact B3.
      * exact (k_apart _ _ _ _ K a b x y ox sx oy sy AB X Y TX TY).
    + intros a b j AB TE X OJ. rewrite AT in X.
      assert (TE' : is_terminator g a = true).
      { rewrite <- TE. symmetry. apply terminator_ops; [now apply set_nth_length|].
        intros m x y Xx Yy. rewrite AT in Yy. destruct (Nat.eqb_spec m n) as [E|D].
        - rewrite E, N in Xx. injection Xx as <-. injection Yy as <-. now left.
        - rewrite Xx in Yy. injection Yy as <-. now left. }
      destruct (Nat.eqb_spec b n) as [E|D].
      * exact (k_first _ _ _ _ K a n i ltac:(lia) TE' N SA).
      * exact (k_first _ _ _ _ K a b j AB TE' X OJ).
  - destruct (is_terminator g n) eqn:TE.
    + exists g, ns. split; [reflexivity|]. split; [|split; apply (k_ns _ _ _ _ K)]. apply (packed_end framesz n g ns K).
      intros m j M X. destruct (Nat.eq_dec m n) as [E|D].
      * rewrite E, N in X. injection X as <-. intros Y. apply salloc_true in Y. congruence.
      * exact (k_first _ _ _ _ K n m j ltac:(lia) TE X).
    + apply IH; [|lia]. destruct K as [K1 K2 K3 K4 K5]. split; auto.
      * intros m j M X O. destruct (Nat.eq_dec m n) as [E|D].
        -- rewrite E, N in X. injection X as <-. apply salloc_true in O. congruence.
        -- apply (K2 m j); auto. lia.
      * intros m j M X O. apply (K3 m j); auto. lia.
Qed.

Lemma mem2reg_layout f framesz : 0 <= framesz -> framesz mod 8 = 0 -> laid_out f framesz -> allocs_named f -> allocs_first f ->
  exists f2 fs2, mem2reg f framesz = Ok (f2, fs2) /\ laid_out f2 fs2 /\ fs2 mod 8 = 0 /\ fs2 <= framesz.
Proof.
  intros P F8 L AN AF. unfold mem2reg. destruct (Z.eqb_spec framesz 0) as [E|_].
  { exists f, framesz. repeat split; auto; try apply L; lia. }
  destruct (promote_loop_ok framesz (length f) 0 f false L AN AF) as (g & r & -> & LG & ANG & AFG). cbn [bind].
  destruct r.
  2:{ exists f, framesz. repeat split; auto; try apply L; lia. }
  destruct (compact_ok framesz F8 (length g) 0 g 0) as (g2 & ns2 & E & L2 & N8 & LE); [|lia|rewrite E].
  - split.
    + split; [reflexivity|lia].
    + intros m i M. lia.
    + intros m i _ M O. exact (proj1 LG m i M O).
    + exact (proj2 LG).
    + exact AFG.
  - cbn [bind]. destruct (Z.leb_spec ns2 framesz); [|lia]. eauto 10.
Qed.
