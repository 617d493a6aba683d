(* Running code before and after local value numbering. *)
From Coq Require Import List ZArith NArith Arith Bool Lia.
From Verif Require Import Base JitModel JitPassModel JitSpec JitDceProofs LvnSpec LvnModel LvnProofs LvnOps LvnRun.
Import ListNotations.
Local Open Scope Z_scope.

Lemma op_eqb_true a b : op_eqb a b = true <-> a = b.
Proof. unfold op_eqb. destruct (opcode_eq_dec a b); split; congruence. Qed.

Section Sim.
Variable W : Type.
Variable cpool_base : Z.
Variable cover_addr : Z -> Z.
Variable prim : opcode -> size -> ccode -> Z -> Z -> Z -> bool -> (nat -> Z) -> W ->
                option (Z * bool * (nat -> Z) * W).
Variable nregs tabsz : nat.
Variable cpool_load : size -> Z -> Z.
Notation fetch := (fetch cpool_base cover_addr).
Notation sinv := (sinv nregs).
Notation dinv := (dinv nregs cpool_base cover_addr).
Notation exec := (exec W prim).
Notation step := (step W cpool_base cover_addr prim).
Notation run := (run W cpool_base cover_addr prim).
Notation State := (State W). Notation Next := (Next W). Notation Done := (Done W). Notation Crash := (Crash W).
Notation state := (state W). Notation outcome := (outcome W).
Notation pc := (pc W). Notation regs := (regs W). Notation flag := (flag W).
Notation args := (args W). Notation outside := (outside W).
Notation alike := (alike W).
Notation sstep := (sstep W cpool_base cover_addr prim).
Notation ranged := (ranged W).
Notation lvn_one := (lvn_one nregs tabsz cpool_load).
Notation lvn_loop := (lvn_loop nregs tabsz cpool_load).

(* ---- the stages of the pass ---- *)
Variable f f' : prog.

Fixpoint at_ (n : nat) : option (bool * lvn * prog) :=
  match n with
  | O => Some (true, lvn_init, f)
  | S m =>
    match at_ m with
    | Some (reset, st, cur) =>
      match nth_error cur m with
      | Some i =>
        match lvn_one cur m i (enter reset i st) with
        | Ok (i', st') => Some (is_terminator (set_nth cur m i') m, st', set_nth cur m i')
        | Fault => None
        end
      | None => None
      end
    | None => None
    end
  end.

Lemma loop_at k : forall n reset st cur, at_ n = Some (reset, st, cur) ->
  lvn_loop k n reset st cur = Ok f' -> exists r s, at_ (n + k) = Some (r, s, f').
Proof.
  induction k as [|k IH]; intros n reset st cur A H; cbn [LvnModel.lvn_loop] in H.
  - injection H as ->. rewrite Nat.add_0_r. eauto.
  - destruct (nth_error cur n) as [i|] eqn:N; [|discriminate].
    destruct (lvn_one cur n i (enter reset i st)) as [[i' st']|] eqn:L; [|discriminate]. cbn [bind] in H.
    replace (n + S k)%nat with (S n + k)%nat by lia. apply (IH (S n) _ _ _) in H; auto.
    cbn [at_]. now rewrite A, N, L.
Qed.

Lemma at_None n k : at_ n = None -> at_ (n + k) = None.
Proof.
  intros H. induction k as [|k IH]; [now rewrite Nat.add_0_r|].
  rewrite Nat.add_succ_r. cbn [at_]. now rewrite IH.
Qed.

Lemma at_S n reset st cur : at_ n = Some (reset, st, cur) -> forall x, at_ (S n) = Some x ->
  exists i i' st', nth_error cur n = Some i /\ lvn_one cur n i (enter reset i st) = Ok (i', st') /\
    x = (is_terminator (set_nth cur n i') n, st', set_nth cur n i').
Proof.
  intros A x H. cbn [at_] in H. rewrite A in H. destruct (nth_error cur n) as [i|]; [|discriminate].
  destruct (lvn_one cur n i (enter reset i st)) as [[i' st']|] eqn:L; [|discriminate]. injection H as <-.
  exists i, i', st'. auto.
Qed.

Lemma at_later n : forall reset st cur, at_ n = Some (reset, st, cur) ->
  length cur = length f /\ forall m, (n <= m)%nat -> nth_error cur m = nth_error f m.
Proof.
  induction n as [|n IH]; intros reset st cur H.
  - injection H as <- <- <-. auto.
  - destruct (at_ n) as [[[r0 s0] c0]|] eqn:A; [|cbn [at_] in H; rewrite A in H; discriminate].
    destruct (at_S _ _ _ _ A _ H) as (i & i' & st' & N & L & E). injection E as -> -> ->.
    destruct (IH _ _ _ eq_refl) as [E1 E2].
    assert (LT : (n < length c0)%nat) by (apply nth_error_Some; congruence).
    split; [rewrite set_nth_length; lia|].
    intros m Hm. rewrite set_nth_nth by exact LT. destruct (Nat.eqb_spec m n); [lia|]. apply E2. lia.
Qed.

Lemma at_earlier n k : forall r s cur r2 s2 cur2, at_ n = Some (r, s, cur) -> at_ (n + k) = Some (r2, s2, cur2) ->
  forall m, (m < n)%nat -> nth_error cur2 m = nth_error cur m.
Proof.
  induction k as [|k IH]; intros r s cur r2 s2 cur2 A B m Hm.
  - rewrite Nat.add_0_r, A in B. injection B as <- <- <-. reflexivity.
  - rewrite Nat.add_succ_r in B. destruct (at_ (n + k)) as [[[r0 s0] c0]|] eqn:C; [|cbn [at_] in B; rewrite C in B; discriminate].
    destruct (at_S _ _ _ _ C _ B) as (i & i' & st' & N & L & E). injection E as -> -> ->.
    assert (LT : (n + k < length c0)%nat) by (apply nth_error_Some; congruence).
    rewrite set_nth_nth by exact LT. destruct (Nat.eqb_spec m (n + k)); [lia|]. eapply IH; eauto.
Qed.

Hypothesis PASS : lvn_loop (length f) 0 true lvn_init f = Ok f'.

Lemma at_end : exists r s, at_ (length f) = Some (r, s, f').
Proof. exact (loop_at (length f) 0 true lvn_init f eq_refl PASS). Qed.

Lemma at_some n : (n <= length f)%nat -> exists x, at_ n = Some x.
Proof.
  intros H. destruct (at_ n) eqn:E; [eauto|]. apply (at_None _ (length f - n)) in E.
  replace (n + (length f - n))%nat with (length f) in E by lia. destruct at_end as (r & s & X). congruence.
Qed.

(* What happened to the [n]th instruction. *)
Lemma visit n i : nth_error f n = Some i -> exists reset st cur i' st' reset' cur',
  at_ n = Some (reset, st, cur) /\ nth_error cur n = Some i /\ length cur = length f /\
  lvn_one cur n i (enter reset i st) = Ok (i', st') /\ nth_error f' n = Some i' /\
  at_ (S n) = Some (reset', st', cur') /\ cur' = set_nth cur n i'.
Proof.
  intros N. assert (L : (n < length f)%nat) by (apply nth_error_Some; congruence).
  destruct (at_some n ltac:(lia)) as [[[reset st] cur] A].
  destruct (at_some (S n) ltac:(lia)) as [x B].
  destruct (at_S _ _ _ _ A _ B) as (j & i' & st' & NJ & O & ->).
  destruct (at_later _ _ _ _ A) as [E1 E2]. rewrite E2 in NJ by lia. assert (j = i) by congruence. subst j.
  exists reset, st, cur, i', st', (is_terminator (set_nth cur n i') n), (set_nth cur n i').
  split; [exact A|]. split; [rewrite E2 by lia; exact N|]. split; [exact E1|]. split; [exact O|]. split; [|auto].
  destruct at_end as (r & s & E). replace (length f) with (S n + (length f - S n))%nat in E by lia.
  rewrite (at_earlier _ _ _ _ _ _ _ _ B E n ltac:(lia)). rewrite set_nth_nth by lia. now rewrite Nat.eqb_refl.
Qed.

Lemma length_same : length f' = length f.
Proof. destruct at_end as (r & s & E). exact (proj1 (at_later _ _ _ _ E)). Qed.

(* ---- the code ---- *)
Hypothesis PS : prim_slots W prim.
Hypothesis PW : prim_words W prim.
Hypothesis CW : forall z, word (cover_addr z).
Hypothesis RB : regs_below nregs f.
Hypothesis LM : labels_marked f.
Hypothesis KO : kinds_ok f.
Hypothesis RO : results_ok f.
Hypothesis RN : results_named f.
Hypothesis WO : written_once f.
Hypothesis SN : slots_numbered f.
Hypothesis SF : sends_fresh f.
Hypothesis DW : divides_words f.
Hypothesis OW : operand_words f.
Hypothesis LA : left_alone f f'.

Definition mentioned (n : nat) (r : nat) : Prop := exists m j, (m < n)%nat /\ nth_error f m = Some j /\ In r (ir_regs j).
Definition with_args (n : nat) (i : ir) (r : nat) : Prop :=
  mentioned n r \/ In r (value_regs (arg1 i) ++ value_regs (arg2 i)) \/ reads_result i = true /\ result i = Some r.

Lemma mentioned_low n r : mentioned n r -> (r < nregs)%nat.
Proof. intros (m & j & _ & N & I). apply nth_error_In in N. exact (RB _ _ N I). Qed.
Lemma in_args i r : In r (value_regs (arg1 i) ++ value_regs (arg2 i)) -> In r (ir_regs i).
Proof. unfold ir_regs. rewrite app_assoc. intros H. apply in_or_app. now left. Qed.
Lemma in_result i r : result i = Some r -> In r (ir_regs i).
Proof. intros H. unfold ir_regs. rewrite H, app_assoc. apply in_or_app. right. now left. Qed.
Lemma with_args_low n i r : nth_error f n = Some i -> with_args n i r -> (r < nregs)%nat.
Proof.
  intros N [H|[H|[_ H]]]; [exact (mentioned_low _ _ H)| |]; apply nth_error_In in N.
  - exact (RB _ _ N (in_args _ _ H)).
  - exact (RB _ _ N (in_result _ _ H)).
Qed.

Lemma fine_at n i : nth_error f n = Some i -> fine nregs (with_args n i) i.
Proof.
  intros N. pose proof (nth_error_In _ _ N) as I. constructor.
  - intros r H. right. left. exact H.
  - intros r R. exact (RB _ _ I (in_result _ _ R)).
  - intros r R P [(m & j & L & Nm & Ir)|[H|[H _]]]; destruct (WO n i r N P R) as [W1 W2].
    + exact (W2 m j L Nm Ir).
    + exact (W1 H).
    + unfold reads_result in H. destruct (op i); discriminate.
  - intros r R H. right. right. auto.
  - intros r R. exact (RO _ _ I R).
  - intros P. exact (RN _ I P).
  - exact (OW _ I).
  - intros O. destruct (DW _ I O) as [-> | ->]; reflexivity.
  - intros O. exact (SN _ I O).
Qed.

Lemma sinv_in n i st : nth_error f n = Some i -> sinv (mentioned n) st -> sinv (with_args n i) st.
Proof.
  intros N HS. apply (sinv_mono nregs (mentioned n)); auto.
  - intros r H. now left.
  - intros r. exact (with_args_low n i r N).
Qed.
Lemma sinv_out n i st : nth_error f n = Some i -> sinv (plus_result (with_args n i) i) st -> sinv (mentioned (S n)) st.
Proof.
  intros N HS. apply (sinv_mono nregs _ (mentioned (S n))) in HS; auto.
  - intros r [[H|[H|[_ H]]]|H].
    + destruct H as (m & j & L & Nm & Ir). exists m, j. split; [lia|auto].
    + exists n, i. split; [lia|]. split; [exact N|exact (in_args _ _ H)].
    + exists n, i. split; [lia|]. split; [exact N|exact (in_result _ _ H)].
    + exists n, i. split; [lia|]. split; [exact N|exact (in_result _ _ H)].
  - apply mentioned_low.
Qed.

Lemma sinv_enter M reset i st : sinv M st -> sinv M (enter reset i st).
Proof. unfold enter. destruct (reset || target i); [apply sinv_reset|auto]. Qed.

Lemma jump_state cur n i st i' st' : lvn_jump nregs cur n i st = Ok (i', st') -> st' = st.
Proof.
  unfold lvn_jump. destruct (arg1 i); try discriminate. destruct (length cur <=? _)%nat; [discriminate|].
  match goal with |- context [match ?e with None => Ok (nop_of i, st) | _ => _ end] => destruct e as [c|] end.
  - destruct (_ =? S n)%nat; [intros H; injection H as _ <-; reflexivity|].
    match goal with |- context [match ?e with None => Fault | Some dest => _ end] => destruct e as [d|] end; [|discriminate].
    destruct (op_eqb (op d) J_JUMP && cc_none (cc d)); intros H; injection H as _ <-; reflexivity.
  - intros H; injection H as _ <-; reflexivity.
Qed.

Lemma sinv_init : sinv (mentioned 0) lvn_init.
Proof.
  constructor; cbn; try lia; try discriminate; try congruence. intros r H. exact (mentioned_low _ _ H).
Qed.

Lemma sinv_at n : forall reset st cur, (n <= length f)%nat -> at_ n = Some (reset, st, cur) -> sinv (mentioned n) st.
Proof.
  induction n as [|n IH]; intros reset st cur L A.
  - injection A as <- <- <-. exact sinv_init.
  - destruct (nth_error f n) as [i|] eqn:N; [|apply nth_error_None in N; lia].
    destruct (visit n i N) as (r0 & s0 & c0 & i' & st' & r1 & c1 & A0 & NC & LC & O & N' & A1 & E).
    rewrite A1 in A. injection A as <- <- <-.
    pose proof (sinv_enter _ r0 i _ (sinv_in _ _ _ N (IH _ _ _ ltac:(lia) A0))) as HS.
    apply (sinv_out n i); [exact N|].
    destruct (op_eqb (op i) J_JUMP) eqn:OJ.
    + apply op_eqb_true in OJ. unfold LvnModel.lvn_one in O. rewrite OJ in O.
      rewrite (jump_state _ _ _ _ _ _ O). apply (sinv_more nregs); [exact (fine_at n i N)|exact HS].
    + assert (NJ : op i <> J_JUMP) by (intros X; rewrite X in OJ; discriminate).
      exact (proj1 (one W cpool_base cover_addr prim nregs tabsz cpool_load (with_args n i) i (fine_at n i N) c0 n
        (enter r0 i s0) i' st' HS NJ (proj2 (LA _ _ _ N N')) O)).
Qed.

Lemma one_at n i i' reset st cur st' : nth_error f n = Some i -> nth_error f' n = Some i' ->
  at_ n = Some (reset, st, cur) -> op i <> J_JUMP -> lvn_one cur n i (enter reset i st) = Ok (i', st') ->
  one_ok W cpool_base cover_addr prim nregs (with_args n i) (enter reset i st) i i' st'.
Proof.
  intros N N' A NJ O.
  assert (L : (n < length f)%nat) by (apply nth_error_Some; congruence).
  pose proof (sinv_enter _ reset i _ (sinv_in _ _ _ N (sinv_at _ _ _ _ (Nat.lt_le_incl _ _ L) A))) as HS.
  exact (one W cpool_base cover_addr prim nregs tabsz cpool_load (with_args n i) i (fine_at n i N) cur n
        (enter reset i st) i' st' HS NJ (proj2 (LA _ _ _ N N')) O).
Qed.

(* ---- jumps to jumps ---- *)

Definition chain (l l2 : nat) : Prop := exists k, forall s, pc s = l ->
  run (S k) f s = Next (State l2 (regs s) (flag s) (args s) (outside s)).

Lemma run_S k s : run (S k) f s = match step f s with JitModel.Next _ s' => run k f s' | o => o end.
Proof. reflexivity. Qed.
Lemma run_add m : forall k s, run (m + k) f s = match run m f s with JitModel.Next _ s' => run k f s' | o => o end.
Proof.
  induction m as [|m IH]; intros k s; [reflexivity|]. cbn [Nat.add]. rewrite !run_S.
  destruct (step f s); try reflexivity. apply IH.
Qed.

Lemma chain_trans a b c : chain a b -> chain b c -> chain a c.
Proof.
  intros [k H] [m G]. exists (k + S m)%nat. intros s P.
  change (S (k + S m)) with (S k + S m)%nat. rewrite run_add, (H s P). rewrite G by reflexivity. reflexivity.
Qed.

(* What a jump does. *)
Definition takes (i : ir) (fl : bool) : option bool :=
  match cc i with CC_NONE => Some true | CC_T => Some fl | CC_F => Some (negb fl) | _ => None end.
Definition goto (s : state) (n : nat) : state := State n (regs s) (flag s) (args s) (outside s).

Lemma jump_sstep i l s : op i = J_JUMP -> arg1 i = VLabel l ->
  sstep i s = match takes i (flag s) with
              | None => Crash
              | Some true => Next (goto s l)
              | Some false => Next (goto s (S (pc s)))
              end.
Proof.
  intros O A. unfold LvnRun.sstep, reads_result, takes, goto. rewrite O, A. cbn [mode1 mode2 JitModel.fetch JitModel.exec].
  destruct (cc i); try reflexivity; unfold jump, apply; cbn; rewrite ?Nat2Z.id; try reflexivity;
    destruct (flag s); cbn; rewrite ?Nat2Z.id; reflexivity.
Qed.

Definition lands (l : nat) : Prop := exists y, nth_error f l = Some y /\ target y = true.

Definition threaded (cur : prog) : Prop := forall m x, nth_error cur m = Some x -> op x = J_JUMP ->
  exists l2, arg1 x = VLabel l2 /\ lands l2 /\
    (forall j, nth_error f m = Some j -> target j = true -> cc x = CC_NONE -> chain m l2).

Lemma jump_label n i : nth_error f n = Some i -> op i = J_JUMP -> exists l, arg1 i = VLabel l /\ lands l.
Proof.
  intros N O. pose proof (nth_error_In _ _ N) as I. destruct (KO _ I) as [K _]. rewrite O in K. cbn [mode1] in K.
  destruct (arg1 i) as [| | | | | |l| | | | | |] eqn:A; try discriminate. exists l. split; [reflexivity|].
  exact (LM _ l I (or_introl A)).
Qed.

Lemma chain_jump n i l : nth_error f n = Some i -> op i = J_JUMP -> arg1 i = VLabel l -> cc i = CC_NONE -> chain n l.
Proof.
  intros N O A C. exists 0%nat. intros s P. rewrite run_S, (step_sstep W cpool_base cover_addr prim f s), P, N.
  rewrite (jump_sstep i l s O A). unfold takes. rewrite C. reflexivity.
Qed.

(* The three things that can happen to a jump. *)
Lemma jump_cases cur n i st i' st' l : threaded cur -> length cur = length f -> nth_error f n = Some i -> op i = J_JUMP ->
  arg1 i = VLabel l -> lands l -> lvn_jump nregs cur n i st = Ok (i', st') ->
  exists known, known = match regvn st nregs with
        | Some k =>
          if cc_none (cc i) then Some (cc i)
          else if (k =? match cc i with CC_T => 1 | _ => 0 end)%N then Some CC_NONE else None
        | None => Some (cc i)
        end /\
  match known with
  | None => i' = nop_of i
  | Some c => (l = S n /\ op i' = J_NOP) \/
    (op i' = J_JUMP /\ cc i' = c /\ exists l2, arg1 i' = VLabel l2 /\ lands l2 /\ (l2 = l \/ chain l l2))
  end.
Proof.
  intros TH LC N O A LD H. unfold lvn_jump in H. rewrite A in H. destruct (length cur <=? l)%nat; [discriminate|].
  eexists. split; [reflexivity|].
  match goal with |- match ?e with _ => _ end => destruct e as [c|] end; [|now injection H as <- _].
  destruct (Nat.eqb_spec l (S n)) as [E|_].
  - left. injection H as <- _. split; [exact E|reflexivity].
  - right. destruct LD as (y & Ny & Ty). destruct (Nat.eqb_spec l n) as [E|NE].
    + cbn [op arg1 cc sz target result arg2] in H. 
      assert (X : op i' = op i /\ cc i' = c /\ arg1 i' = VLabel l)
        by (destruct (op_eqb (op i) J_JUMP && cc_none c); injection H as <- _; auto).
      destruct X as (X1 & X2 & X3). split; [congruence|]. split; [exact X2|]. exists l. split; [exact X3|].
      split; [exists y; auto|now left].
    + destruct (nth_error cur l) as [d|] eqn:ND; [|discriminate].
      destruct (op_eqb (op d) J_JUMP && cc_none (cc d)) eqn:B; injection H as <- _; cbn [op arg1 cc].
      * apply andb_true_iff in B as [B1 B2]. apply op_eqb_true in B1.
        destruct (TH l d ND B1) as (l2 & A2 & LD2 & CH). split; [exact O|]. split; [reflexivity|]. exists l2.
        split; [exact A2|]. split; [exact LD2|]. right. apply (CH y Ny Ty). now destruct (cc d).
      * split; [exact O|]. split; [reflexivity|]. exists l. split; [reflexivity|]. split; [exists y; auto|now left].
Qed.

Lemma threaded_at n : forall reset st cur, (n <= length f)%nat -> at_ n = Some (reset, st, cur) -> threaded cur.
Proof.
  induction n as [|n IH]; intros reset st cur L A.
  - injection A as <- <- <-. intros m x N O. destruct (jump_label m x N O) as (l & E & LD). exists l.
    split; [exact E|]. split; [exact LD|]. intros j Nj Tj C. assert (j = x) by congruence. subst j.
    exact (chain_jump m x l N O E C).
  - destruct (nth_error f n) as [i|] eqn:N; [|apply nth_error_None in N; lia].
    destruct (visit n i N) as (r0 & s0 & c0 & i' & st' & r1 & c1 & A0 & NC & LC & O & N' & A1 & E).
    rewrite A1 in A. injection A as <- <- <-. rewrite E.
    pose proof (IH _ _ _ ltac:(lia) A0) as TH.
    intros m x Nx Ox. rewrite set_nth_nth in Nx by lia. destruct (Nat.eqb_spec m n) as [->|_]; [|exact (TH m x Nx Ox)].
    injection Nx as <-.
    destruct (op_eqb (op i) J_JUMP) eqn:OJ.
    2:{ assert (NJ : op i <> J_JUMP) by (intros X; rewrite X in OJ; discriminate).
        destruct (one_at n i i' r0 s0 c0 st' N N' A0 NJ O) as (_ & X & _). now destruct X. }
    apply op_eqb_true in OJ. destruct (jump_label n i N OJ) as (l & AL & LD).
    unfold LvnModel.lvn_one in O. rewrite OJ in O.
    destruct (jump_cases _ _ _ _ _ _ l TH LC N OJ AL LD O) as (known & KN & C).
    destruct known as [c|]; [|rewrite C in Ox; discriminate].
    destruct C as [[_ X]|(_ & CC & l2 & A2 & LD2 & CH)]; [congruence|].
    exists l2. split; [exact A2|]. split; [exact LD2|]. intros j Nj Tj C0. assert (j = i) by congruence. subst j.
    unfold enter in KN. rewrite Tj, orb_true_r in KN. cbn [reset_vns regvn] in KN. injection KN as ->.
    assert (C1 : chain n l) by (apply (chain_jump n i l N OJ AL); congruence).
    destruct CH as [->|CH]; [exact C1|exact (chain_trans _ _ _ C1 CH)].
Qed.

(* ---- the simulation ---- *)

Definition sent (n : nat) (a : nat) : Prop := exists m j z, (m < n)%nat /\ nth_error f m = Some j /\ op j = J_SEND /\
  arg1 j = VInt z /\ Z.to_nat z = a /\
  forall k x, (m < k < n)%nat -> nth_error f k = Some x -> target x = false /\ op x <> J_CALL /\ op x <> MACRO_EXIT.

Definition ready (s : state) : Prop :=
  ranged s /\
  (lands (pc s) \/ exists reset st cur val, at_ (pc s) = Some (reset, st, cur) /\
     dinv val st (regs s) (flag s) (args s) (sent (pc s))).

Lemma enter_dinv n i reset st cur s : nth_error f n = Some i -> pc s = n -> at_ n = Some (reset, st, cur) -> ready s ->
  exists val D, dinv val (enter reset i st) (regs s) (flag s) (args s) D /\
    slot_ok nregs i (enter reset i st) D /\
    forall a, D a -> target i = false /\ sent n a.
Proof.
  intros N P A [_ R]. rewrite P in R. unfold enter.
  destruct (reset || target i) eqn:E.
  - exists (fun k => match get_const st k with Some z => z | None => 0 end), (fun _ => False).
    split; [apply dinv_reset|]. split; [intros _ z _ _; now left|intros a []].
  - apply orb_false_iff in E as [-> E].
    destruct R as [(y & Ny & Ty)|(r0 & s0 & c0 & val & A0 & HD)]; [congruence|].
    assert (s0 = st) by congruence. subst s0.
    exists val, (sent n). split; [exact HD|]. split; [|auto].
    intros O z A1 _. left. intros (m & j & z' & L & Nj & Oj & Aj & Ez & Q).
    assert (z' = z).
    { destruct (SN _ (nth_error_In _ _ N) O) as (u & Au & Zu).
      destruct (SN _ (nth_error_In _ _ Nj) (or_introl Oj)) as (v & Av & Zv).
      assert (u = z) by congruence. assert (v = z') by congruence. lia. }
    subst z'. destruct (SF m n j i z L Nj N Oj Aj O A1) as (k & x & Lk & Nk & [T|[L2 C]]).
    + destruct (Nat.eq_dec k n) as [->|NK]; [congruence|]. destruct (Q k x ltac:(lia) Nk). congruence.
    + destruct (Q k x ltac:(lia) Nk) as (_ & Q1 & Q2). now destruct C.
Qed.

Lemma dinv_noargs val st rg fl ar D D' : (forall a, (a < 8)%nat -> regvn st (nregs + 1 + a) = None) ->
  dinv val st rg fl ar D -> dinv val st rg fl ar D'.
Proof.
  intros H HD. constructor; try apply HD. intros a k La E. rewrite H in E by exact La. discriminate.
Qed.

Lemma sstep_pc i s t : sstep i s = Next t -> op i <> J_JUMP ->
  pc t = S (pc s) \/ exists l, op i = MACRO_CASE /\ fetch MLabel (regs s) (arg2 i) = Some l /\ pc t = Z.to_nat l.
Proof.
  intros H NJ. unfold LvnRun.sstep in H.
  destruct (fetch (mode1 (op i)) (regs s) (arg1 i)) as [a|]; [|discriminate].
  destruct (fetch (mode2 (op i)) (regs s) (arg2 i)) as [b|] eqn:F2; [|discriminate].
  destruct (if reads_result i then option_map (regs s) (result i) else Some 0) as [rv|]; [|discriminate].
  destruct (exec (op i) (sz i) (cc i) a b rv (flag s) (args s) (outside s)) as [e|] eqn:X; [|discriminate].
  assert (J : e_jump W e = None \/ op i = MACRO_CASE /\ e_jump W e = Some (Z.to_nat b)).
  { destruct (op i) eqn:O; try (now destruct NJ); cbn [JitModel.exec] in X; unfold setr, jump in X;
      repeat match type of X with
      | context [match ?u with _ => _ end] => destruct u; try discriminate
      end; try (injection X as <-); cbn; auto. }
  unfold apply in H. destruct (e_done W e); [discriminate|].
  assert (PT : pc t = match e_jump W e with Some n => n | None => S (pc s) end).
  { destruct (e_res W e) as [v|]; [destruct (result i); [|discriminate]|]; injection H as <-; reflexivity. }
  destruct J as [J|[O J]]; rewrite J in PT; [now left|].
  right. exists b. split; [exact O|]. rewrite O in F2. split; [exact F2|exact PT].
Qed.

Lemma sim1 s : ready s -> step f s <> Crash ->
  exists m, alike (run (S m) f s) (step f' s) /\ forall t, run (S m) f s = Next t -> ready t.
Proof.
  intros R NC. rewrite (step_sstep W cpool_base cover_addr prim f s) in NC.
  destruct (nth_error f (pc s)) as [i|] eqn:N; [|now destruct NC].
  destruct (visit _ i N) as (reset & st & cur & i' & st' & r1 & c1 & A0 & NCu & LC & O & N' & A1 & E).
  destruct (enter_dinv _ i reset st cur s N eq_refl A0 R) as (val & D & HD & SO & DS).
  assert (L : (pc s < length f)%nat) by (apply nth_error_Some; congruence).
  rewrite (step_sstep W cpool_base cover_addr prim f' s), N'.
  pose proof (nth_error_In _ _ N) as IN. destruct (OW _ IN) as [W1 W2].
  assert (RG : ranged s) by apply R.
  assert (DS' : op i <> J_CALL -> op i <> MACRO_EXIT -> forall a, dirty i D a -> sent (S (pc s)) a).
  { intros N1 N2 a [Da|[OS (z & Az & Ea)]].
    - destruct (DS a Da) as [T (m & j & z & Lm & Nj & Oj & Aj & Ez & Q)]. exists m, j, z.
      split; [lia|]. split; [exact Nj|]. split; [exact Oj|]. split; [exact Aj|]. split; [exact Ez|].
      intros k x Lk Nk. destruct (Nat.eq_dec k (pc s)) as [->|NK].
      + assert (x = i) by congruence. subst x. auto.
      + apply (Q k x); [lia|exact Nk].
    - exists (pc s), i, z. split; [lia|]. split; [exact N|]. split; [exact OS|]. split; [exact Az|]. split; [exact Ea|].
      intros k x Lk. lia. }
  destruct (op_eqb (op i) J_JUMP) eqn:OJ.
  - apply op_eqb_true in OJ. destruct (jump_label _ i N OJ) as (l & AL & LD).
    unfold LvnModel.lvn_one in O. rewrite OJ in O.
    pose proof (threaded_at _ _ _ _ (Nat.lt_le_incl _ _ L) A0) as TH.
    pose proof (jump_state _ _ _ _ _ _ O) as ST.
    destruct (jump_cases _ _ _ _ _ _ l TH LC N OJ AL LD O) as (known & KN & C).
    rewrite (jump_sstep i l s OJ AL) in NC.
    assert (NEXT : ready (goto s (S (pc s)))).
    { split; [exact RG|]. right. exists r1, st', c1, val. split; [exact A1|]. cbn [goto JitModel.regs JitModel.flag JitModel.args JitModel.pc].
      rewrite ST. apply (dinv_D cpool_base cover_addr nregs _ _ _ _ _ D); [|exact HD].
      intros a Da. apply DS'; try congruence. now left. }
    assert (THERE : forall l2, lands l2 -> ready (goto s l2)).
    { intros l2 L2. split; [exact RG|]. left. exact L2. }
    assert (ONE : forall u, sstep i s = u -> run 1 f s = u).
    { intros u H. rewrite run_S, (step_sstep W cpool_base cover_addr prim f s), N, H. now destruct u. }
    assert (TK : exists b, takes i (flag s) = Some b /\
              match known with None => b = false | Some c => takes i' (flag s) = Some b \/ op i' = J_NOP /\ l = S (pc s) end).
    { destruct (takes i (flag s)) as [b|] eqn:T; [|now destruct NC]. exists b. split; [reflexivity|].
      destruct (regvn (enter reset i st) nregs) as [k|] eqn:RV.
      - pose proof (d_flag _ _ _ _ _ _ _ _ _ HD _ RV) as FL. unfold takes in *.
        destruct (cc i) eqn:CI; cbn [cc_none] in KN; try discriminate; subst k.
        + subst known. destruct C as [[X Y]|(X & Y & _)]; [right; auto|left; rewrite Y; exact T].
        + destruct (flag s); cbn [N.eqb] in KN.
          * subst known. destruct C as [[X Y]|(X & Y & _)]; [right; auto|left; rewrite Y; exact T].
          * subst known. congruence.
        + destruct (flag s); cbn [N.eqb] in KN.
          * subst known. cbn in T. congruence.
          * subst known. destruct C as [[X Y]|(X & Y & _)]; [right; auto|left; rewrite Y; exact T].
      - subst known. destruct C as [[X Y]|(X & Y & _)]; [right; auto|left; unfold takes in *; now rewrite Y]. }
    destruct TK as (b & Tb & TK).
    assert (NOP : op i' = J_NOP -> sstep i' s = Next (goto s (S (pc s)))).
    { intros OP. unfold LvnRun.sstep, reads_result. rewrite OP. reflexivity. }
    destruct known as [c|].
    + destruct TK as [Tb'|[ON EL]].
      * destruct C as [[X Y]|(X & Y & l2 & A2 & LD2 & CH)].
        -- rewrite (NOP Y). exists 0%nat.
           assert (Z1 : sstep i s = Next (goto s (S (pc s))))
             by (rewrite (jump_sstep i l s OJ AL), Tb; rewrite X; now destruct b).
           rewrite (ONE _ Z1). split; [apply alike_refl|]. intros t T. injection T as <-. exact NEXT.
        -- rewrite (jump_sstep i' l2 s X A2), Tb'. destruct b.
           ++ assert (Z1 : sstep i s = Next (goto s l)) by (rewrite (jump_sstep i l s OJ AL), Tb; reflexivity).
              destruct CH as [-> |[k CH]].
              ** exists 0%nat. rewrite (ONE _ Z1). split; [apply alike_refl|].
                 intros t T. injection T as <-. exact (THERE _ LD2).
              ** exists (S k). change (S (S k)) with (1 + S k)%nat. rewrite run_add, (ONE _ Z1), (CH (goto s l) eq_refl).
                 split; [apply alike_refl|]. intros t T. injection T as <-. exact (THERE _ LD2).
           ++ assert (Z1 : sstep i s = Next (goto s (S (pc s)))) by (rewrite (jump_sstep i l s OJ AL), Tb; reflexivity).
              exists 0%nat. rewrite (ONE _ Z1). split; [apply alike_refl|]. intros t T. injection T as <-. exact NEXT.
      * rewrite (NOP ON). exists 0%nat.
        assert (Z1 : sstep i s = Next (goto s (S (pc s))))
          by (rewrite (jump_sstep i l s OJ AL), Tb; rewrite EL; now destruct b).
        rewrite (ONE _ Z1). split; [apply alike_refl|]. intros t T. injection T as <-. exact NEXT.
    + subst b. exists 0%nat.
      assert (Z1 : sstep i s = Next (goto s (S (pc s)))) by (rewrite (jump_sstep i l s OJ AL), Tb; reflexivity).
      rewrite (ONE _ Z1), (NOP ltac:(now rewrite C)). split; [apply alike_refl|].
      intros t T. injection T as <-. exact NEXT.
  - assert (NJ : op i <> J_JUMP) by (intros X; rewrite X in OJ; discriminate).
    destruct (one_at _ i i' reset st cur st' N N' A0 NJ O) as (_ & _ & Q).
    destruct (LA _ _ _ N N') as [LA1 LA2].
    destruct (Q s val D HD RG SO LA1 LA2 NC) as [AL ND].
    exists 0%nat.
    assert (EQ : run 1 f s = sstep i s).
    { rewrite run_S, (step_sstep W cpool_base cover_addr prim f s), N. now destruct (sstep i s). }
    rewrite EQ. split; [exact AL|]. intros t T.
    split; [exact (sstep_ranged W cpool_base cover_addr prim cpool_load PW CW i s t W1 W2 RG T)|].
    destruct (sstep_pc i s t T NJ) as [PT|(l & OC & FL & PT)].
    + right. destruct (ND t T) as (val' & HD'). rewrite PT. exists r1, st', c1, val'. split; [exact A1|].
      destruct (op_eqb (op i) J_CALL || op_eqb (op i) MACRO_EXIT) eqn:CE.
      * apply (dinv_noargs _ _ _ _ _ (dirty i D)); [|exact HD'].
        assert (st' = lvn_other nregs i (kill_args nregs (enter reset i st))).
        { apply orb_true_iff in CE. unfold LvnModel.lvn_one in O.
          destruct CE as [CE|CE]; apply op_eqb_true in CE; rewrite CE in O; injection O as _ <-; reflexivity. }
        subst st'. intros a La. unfold lvn_other, kill_flags.
        assert (K : regvn (kill_args nregs (enter reset i st)) (nregs + 1 + a) = None).
        { unfold kill_args. cbn [regvn]. destruct (Nat.ltb_spec nregs (nregs + 1 + a)); [|lia].
          unfold TRACK_ARGS. destruct (Nat.leb_spec (nregs + 1 + a) (nregs + 8)); [reflexivity|lia]. }
        destruct (result i) as [r|] eqn:Ri.
        -- pose proof (RB _ _ IN (in_result _ _ Ri)). cbn [set_vn regvn]. rewrite upd_other by lia.
           destruct (writes_flags i); [cbn [set_vn regvn]; rewrite upd_other by lia|]; exact K.
        -- destruct (writes_flags i); [cbn [set_vn regvn]; rewrite upd_other by lia|]; exact K.
      * apply orb_false_iff in CE as [C1 C2].
        apply (dinv_D cpool_base cover_addr nregs _ _ _ _ _ (dirty i D)); [|exact HD'].
        apply DS'; intros X; rewrite X in *; discriminate.
    + left. rewrite PT. destruct (arg2 i) as [| | | | | |l0| | | | | |] eqn:A2; try discriminate FL.
      injection FL as <-. rewrite Nat2Z.id. exact (LM _ l0 IN (or_intror A2)).
Qed.

Lemma simulation k : forall s, ready s -> (forall n, run n f s <> Crash) ->
  exists m, (k <= m)%nat /\ alike (run m f s) (run k f' s).
Proof.
  induction k as [|k IH]; intros s R NC.
  { exists 0%nat. split; [lia|apply alike_refl]. }
  destruct (sim1 s R) as (m1 & AL & RD).
  { specialize (NC 1%nat). rewrite run_S in NC. now destruct (step f s). }
  destruct (run (S m1) f s) as [t|ar w|] eqn:E1.
  - cbn [JitModel.run]. destruct (step f' s) as [t'| |] eqn:E2; try now destruct AL.
    destruct (IH t (RD t eq_refl)) as (m2 & L2 & AL2).
    { intros n. specialize (NC (S m1 + n)%nat). rewrite run_add, E1 in NC. exact NC. }
    exists (S m1 + m2)%nat. split; [lia|]. rewrite run_add, E1.
    eapply (alike_trans W cpool_base cover_addr nregs); [exact AL2|]. exact (run_ext W cpool_base cover_addr prim cpool_load PS f' k t t' AL).
  - cbn [JitModel.run]. destruct (step f' s) as [t'|ar' w'|] eqn:E2; try now destruct AL.
    exists (S m1 + S k)%nat. split; [lia|]. rewrite run_add, E1. exact AL.
  - now destruct (NC (S m1)).
Qed.

Lemma ready_start rg fl ar w : (forall r, word (rg r)) -> (forall n, word (ar n)) ->
  ready (State 0 rg fl ar w).
Proof.
  intros H1 H2. split; [split; assumption|]. right.
  exists true, lvn_init, f, (fun k => match get_const lvn_init k with Some z => z | None => 0 end).
  split; [reflexivity|]. exact (dinv_reset cpool_base cover_addr nregs lvn_init rg fl ar _).
Qed.
End Sim.
