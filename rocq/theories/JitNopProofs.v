From Coq Require Import List ZArith Arith Bool Lia.
From Verif Require Import Base JitModel JitPassModel JitSpec JitPassProofs JitDceProofs.
Import ListNotations.

(* Equal up to the target mark. *)
Definition alike (i j : ir) : Prop :=
  op i = op j /\ sz i = sz j /\ cc i = cc j /\ result i = result j /\ arg1 i = arg1 j /\ arg2 i = arg2 j.

Lemma alike_refl i : alike i i.
Proof. repeat split. Qed.

Lemma filter_nth {A} (p : A -> bool) l : forall n x,
  nth_error l n = Some x -> p x = true ->
  nth_error (filter p l) (length (filter p (firstn n l))) = Some x.
Proof.
  induction l as [|y l IH]; intros [|n] x N P; try discriminate.
  - cbn in N. injection N as ->. cbn. now rewrite P.
  - cbn in N. cbn. destruct (p y); cbn; now apply IH.
Qed.

Lemma kept_S f n i : nth_error f n = Some i ->
  kept_before f (S n) = if is_nop i then kept_before f n else S (kept_before f n).
Proof.
  unfold kept_before. revert f. induction n as [|n IH]; intros [|y f] N; try discriminate.
  - cbn in N. injection N as ->. cbn. destruct (is_nop i); reflexivity.
  - cbn in N. specialize (IH f N). cbn [firstn filter]. destruct (negb (is_nop y)); cbn [length];
      cbn [firstn] in IH; rewrite IH; destruct (is_nop i); reflexivity.
Qed.

Lemma kept_all f n : length f <= n -> kept_before f n = length (filter (fun i => negb (is_nop i)) f).
Proof. intros H. unfold kept_before. now rewrite firstn_all2. Qed.

Lemma mark_alike v l n :
  length (mark v l) = length l /\
  match nth_error l n with
  | Some i => exists j, nth_error (mark v l) n = Some j /\ alike i j
  | None => nth_error (mark v l) n = None
  end.
Proof.
  unfold mark. assert (ID : match nth_error l n with
    | Some i => exists j, nth_error l n = Some j /\ alike i j
    | None => nth_error l n = None end).
  { destruct (nth_error l n); [eexists; split; [reflexivity|apply alike_refl]|reflexivity]. }
  destruct v; try (split; [reflexivity|exact ID]).
  destruct (nth_error l l0) as [i|] eqn:E; [|split; [reflexivity|exact ID]].
  assert (H : l0 < length l) by (apply nth_error_Some; congruence).
  split; [now apply set_nth_length|].
  rewrite set_nth_nth by exact H. destruct (Nat.eqb_spec n l0) as [->|_]; [|exact ID].
  rewrite E. eexists. split; [reflexivity|]. repeat split.
Qed.

Lemma alike_trans i j k : alike i j -> alike j k -> alike i k.
Proof. unfold alike. intuition congruence. Qed.

Lemma marks_alike ks : forall l n,
  match nth_error l n with
  | Some i => exists j, nth_error (fold_left (fun l i => mark (arg2 i) (mark (arg1 i) l)) ks l) n = Some j /\ alike i j
  | None => nth_error (fold_left (fun l i => mark (arg2 i) (mark (arg1 i) l)) ks l) n = None
  end.
Proof.
  induction ks as [|k ks IH]; intros l n; cbn [fold_left].
  - destruct (nth_error l n); [eexists; split; [reflexivity|apply alike_refl]|reflexivity].
  - destruct (mark_alike (arg1 k) l n) as (_ & M1).
    destruct (mark_alike (arg2 k) (mark (arg1 k) l) n) as (_ & M2).
    specialize (IH (mark (arg2 k) (mark (arg1 k) l)) n).
    destruct (nth_error l n) as [i|].
    + destruct M1 as (i1 & E1 & A1). rewrite E1 in M2. destruct M2 as (i2 & E2 & A2). rewrite E2 in IH.
      destruct IH as (i3 & E3 & A3). exists i3. split; [exact E3|]. eauto using alike_trans.
    + rewrite M1 in M2. rewrite M2 in IH. exact IH.
Qed.

Lemma delete_nth f n i : nth_error f n = Some i -> is_nop i = false ->
  exists j, nth_error (delete_nops f) (kept_before f n) = Some j /\ alike (relabel_ir f i) j.
Proof.
  intros N P. unfold delete_nops.
  pose proof (marks_alike (map (relabel_ir f) (filter (fun i => negb (is_nop i)) f))
               (map (relabel_ir f) (filter (fun i => negb (is_nop i)) f)) (kept_before f n)) as M.
  unfold kept_before in M at 1. rewrite nth_error_map in M.
  rewrite (filter_nth _ f n i N) in M by now rewrite P. exact M.
Qed.

Lemma delete_end f n : length f <= n -> nth_error (delete_nops f) (kept_before f n) = None.
Proof.
  intros H. unfold delete_nops.
  pose proof (marks_alike (map (relabel_ir f) (filter (fun i => negb (is_nop i)) f))
               (map (relabel_ir f) (filter (fun i => negb (is_nop i)) f)) (kept_before f n)) as M.
  rewrite (proj2 (nth_error_None (map (relabel_ir f) (filter (fun i => negb (is_nop i)) f)) (kept_before f n))) in M.
  - exact M.
  - rewrite map_length, kept_all by exact H. lia.
Qed.

Section Sim.
Variable W : Type.
Variable cpool_base : Z.
Variable cover_addr : Z -> Z.
Variable prim : opcode -> size -> ccode -> Z -> Z -> Z -> bool -> (nat -> Z) -> W ->
                option (Z * bool * (nat -> Z) * W).
Notation run := (run W cpool_base cover_addr prim).
Notation step := (step W cpool_base cover_addr prim).
Notation exec := (exec W prim).
Notation fetch := (fetch cpool_base cover_addr).
Notation pc := (pc W).
Notation regs := (regs W).
Notation flag := (flag W).
Notation args := (args W).
Notation outside := (outside W).

Variable f : prog.
Hypothesis LP : labels_plain f.

(* The state of the shortened code. *)
Definition short (s : state W) : state W :=
  State W (kept_before f (pc s)) (regs s) (flag s) (args s) (outside s).
Definition short_out (o : outcome W) : outcome W :=
  match o with Next _ s => Next W (short s) | _ => o end.

(* What an operand is when its label was renumbered. *)
Lemma relabel_fetch m rg v :
  m <> MLabel -> (forall l, v = VLabel l -> m <> MScalar) -> fetch m rg (relabel f v) = fetch m rg v.
Proof. intros A B. destruct v, m; try reflexivity; try contradiction. now elim (B l). Qed.

Lemma nop_skip s i : nth_error f (pc s) = Some i -> is_nop i = true ->
  exists t, step f s = Next W t /\ pc t = S (pc s) /\ short t = short s.
Proof.
  intros N P. unfold is_nop, op_eqb in P. destruct (opcode_eq_dec (op i) J_NOP) as [O|]; [|discriminate].
  rewrite (nop_step W cpool_base cover_addr prim f s i N O). eexists. split; [reflexivity|]. split; [reflexivity|].
  unfold short. cbn [JitModel.pc JitModel.regs JitModel.flag JitModel.args JitModel.outside].
  rewrite (kept_S f _ i N). unfold is_nop. rewrite O. reflexivity.
Qed.

Lemma keep_step s i : nth_error f (pc s) = Some i -> is_nop i = false ->
  step (delete_nops f) (short s) = short_out (step f s).
Proof.
  intros N P. destruct (delete_nth f (pc s) i N P) as (j & Nj & (A1 & A2 & A3 & A4 & A5 & A6)).
  rewrite (step_at W cpool_base cover_addr prim _ (short s) j Nj).
  rewrite (step_at W cpool_base cover_addr prim _ s i N).
  cbn [relabel_ir op sz cc result arg1 arg2] in *. unfold reads_result. rewrite <- A1, <- A2, <- A3, <- A4, <- A5, <- A6.
  cbn [short JitModel.regs JitModel.flag JitModel.args JitModel.outside JitModel.pc].
  fold (reads_result i). pose proof (nth_error_In _ _ N) as Hin.
  assert (AP : forall e e', e_res W e' = e_res W e -> e_flag W e' = e_flag W e -> e_args W e' = e_args W e ->
             e_w W e' = e_w W e -> e_done W e' = e_done W e ->
             match e_jump W e' with Some t => t | None => S (kept_before f (pc s)) end =
             kept_before f (match e_jump W e with Some t => t | None => S (pc s) end) ->
             apply W j (short s) e' = short_out (apply W i s e)).
  { intros e e' E1 E2 E3 E4 E5 E6. unfold apply. rewrite E1, E2, E3, E4, E5, <- A4.
    cbn [short JitModel.pc JitModel.regs]. rewrite E6.
    destruct (e_done W e); [reflexivity|]. destruct (e_res W e), (result i); reflexivity. }
  assert (KS : S (kept_before f (pc s)) = kept_before f (S (pc s))) by (rewrite (kept_S f _ i N), P; reflexivity).
  destruct (opcode_eq_dec (op i) J_JUMP) as [OJ|NJ].
  { (* a jump *)
    rewrite OJ. cbn [mode1 mode2]. destruct (arg1 i) as [| | | | | | | |l| | | | ] eqn:E1; try reflexivity.
    cbn [relabel JitModel.fetch]. unfold reads_result. rewrite OJ. cbn [JitModel.exec].
    destruct (cc i); try reflexivity; unfold jump; apply AP; try reflexivity; cbn [e_jump];
      rewrite ?Nat2Z.id; try reflexivity; destruct (flag s); try reflexivity; exact KS. }
  destruct (opcode_eq_dec (op i) MACRO_CASE) as [OC|NC].
  { rewrite OC. cbn [mode1 mode2]. rewrite relabel_fetch; [|discriminate|discriminate].
    destruct (fetch MInt (regs s) (arg1 i)) as [a|]; [|reflexivity].
    destruct (arg2 i) as [| | | | | | | |l| | | | ] eqn:E1; try reflexivity.
    cbn [relabel JitModel.fetch]. unfold reads_result. rewrite OC. destruct (result i) as [r|]; [|reflexivity].
    cbn [option_map JitModel.exec]. unfold jump; apply AP; try reflexivity; cbn [e_jump].
    rewrite !Nat2Z.id. destruct (regs s r =? a)%Z; [reflexivity|exact KS]. }
  rewrite !relabel_fetch.
  2,4: (destruct (op i); try discriminate; contradiction).
  2: intros l El; now apply (LP i l Hin).
  2: intros l El; now apply (LP i l Hin).
  destruct (fetch (mode1 (op i)) (regs s) (arg1 i)) as [a|]; [|reflexivity].
  destruct (fetch (mode2 (op i)) (regs s) (arg2 i)) as [b|]; [|reflexivity].
  destruct (if reads_result i then option_map (regs s) (result i) else Some 0%Z) as [rv|]; [|reflexivity].
  destruct (exec (op i) (sz i) (cc i) a b rv (flag s) (args s) (outside s)) as [e|] eqn:X; [|reflexivity].
  apply AP; try reflexivity.
  destruct (e_jump W e) as [t|] eqn:J; [|exact KS].
  destruct (exec_jump _ _ _ _ _ _ _ _ _ _ _ _ _ X J) as [(O & _)|(O & _)]; contradiction.
Qed.

Lemma end_step s : nth_error f (pc s) = None ->
  step f s = Crash W /\ step (delete_nops f) (short s) = Crash W.
Proof.
  intros N. split.
  - unfold JitModel.step. now rewrite N.
  - apply nth_error_None in N. unfold JitModel.step. cbn [short JitModel.pc]. now rewrite delete_end.
Qed.

Definition final (o : outcome W) : Prop := match o with Next _ _ => False | _ => True end.

Lemma nops_forward n : forall s o, run n f s = o -> final o -> exists m, run m (delete_nops f) (short s) = o.
Proof.
  induction n as [|n IH]; intros s o R F; [cbn in R; subst o; contradiction|].
  cbn [JitModel.run] in R. destruct (nth_error f (pc s)) as [i|] eqn:N.
  - destruct (is_nop i) eqn:P.
    + destruct (nop_skip s i N P) as (t & E & _ & S1). rewrite E in R. destruct (IH t o R F) as (m & M).
      exists m. now rewrite <- S1.
    + pose proof (keep_step s i N P) as K. destruct (step f s) as [t|ar w|]; cbn [short_out] in K.
      * destruct (IH t o R F) as (m & M). exists (S m). cbn [JitModel.run]. now rewrite K.
      * exists 1. cbn [JitModel.run]. now rewrite K.
      * exists 1. cbn [JitModel.run]. now rewrite K.
  - destruct (end_step s N) as (E & E'). rewrite E in R. exists 1. cbn [JitModel.run]. now rewrite E'.
Qed.

Lemma run_add a b g s : run (a + b) g s = match run a g s with Next _ t => run b g t | o => o end.
Proof.
  revert s. induction a as [|a IH]; intros s; [reflexivity|]. cbn [Nat.add JitModel.run].
  destruct (step g s); [apply IH|reflexivity..].
Qed.

(* Going over NOPs. *)
Lemma skip_nops k : forall s, length f - pc s <= k ->
  exists n t, run n f s = Next W t /\ short t = short s /\
    forall i, nth_error f (pc t) = Some i -> is_nop i = false.
Proof.
  induction k as [|k IH]; intros s H.
  - exists 0, s. split; [reflexivity|]. split; [reflexivity|]. intros i N.
    assert (pc s < length f) by (apply nth_error_Some; congruence). lia.
  - destruct (nth_error f (pc s)) as [i|] eqn:N.
    + destruct (is_nop i) eqn:P.
      * destruct (nop_skip s i N P) as (t & E & PC & S1).
        assert (pc s < length f) by (apply nth_error_Some; congruence).
        destruct (IH t) as (n & u & R & S2 & Q); [lia|].
        exists (S n), u. cbn [JitModel.run]. rewrite E. split; [exact R|]. split; [congruence|exact Q].
      * exists 0, s. split; [reflexivity|]. split; [reflexivity|]. intros j Nj. congruence.
    + exists 0, s. split; [reflexivity|]. split; [reflexivity|]. intros j Nj. congruence.
Qed.

Lemma nops_backward m : forall s o, run m (delete_nops f) (short s) = o -> final o -> exists n, run n f s = o.
Proof.
  induction m as [|m IH]; intros s o R F; [cbn in R; subst o; contradiction|].
  destruct (skip_nops (length f - pc s) s (le_n _)) as (n & t & Rn & St & Q).
  rewrite <- St in R. cbn [JitModel.run] in R.
  destruct (nth_error f (pc t)) as [i|] eqn:N.
  - pose proof (keep_step t i N (Q i eq_refl)) as K. rewrite K in R.
    destruct (step f t) as [u|ar w|] eqn:E; cbn [short_out] in R.
    + destruct (IH u o R F) as (p & P). exists (n + S p). rewrite run_add, Rn. cbn [JitModel.run]. now rewrite E.
    + exists (n + 1). rewrite run_add, Rn. cbn [JitModel.run]. now rewrite E.
    + exists (n + 1). rewrite run_add, Rn. cbn [JitModel.run]. now rewrite E.
  - destruct (end_step t N) as (E & E'). rewrite E' in R. exists (n + 1). rewrite run_add, Rn. cbn [JitModel.run].
    now rewrite E.
Qed.
End Sim.
