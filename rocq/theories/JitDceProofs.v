From Coq Require Import List ZArith Arith Bool Lia.
From Verif Require Import Base JitModel JitPassModel JitSpec JitPassProofs.
Import ListNotations.

(* ---------- counting ---------- *)

Definition counted (d : dce) (r : nat) : Prop := count d r <> 0.

Definition dce_ok (d : dce) : Prop :=
  (forall r, counted d r -> renumber d r < nextreg d) /\
  (forall r q, counted d r -> counted d q -> renumber d r = renumber d q -> r = q).

Lemma count_reg_ok r d : dce_ok d ->
  dce_ok (count_reg r d) /\ counted (count_reg r d) r /\ (forall q, counted d q -> counted (count_reg r d) q).
Proof.
  intros (A & B). unfold count_reg, counted in *. destruct (Nat.eqb_spec (count d r) 0) as [Z|Z].
  - repeat apply conj; cbn [count renumber nextreg].
    + intros q. unfold upd, counted; cbn [count renumber nextreg]. destruct (Nat.eqb_spec q r); intros H; [lia|].
      specialize (A q H). lia.
    + unfold counted; cbn [count renumber nextreg]. intros q p. unfold upd.
      destruct (Nat.eqb_spec q r), (Nat.eqb_spec p r); intros H1 H2 E; try congruence.
      * specialize (A p H2). lia.
      * specialize (A q H1). lia.
      * now apply B.
    + rewrite upd_same. discriminate.
    + intros q H. unfold upd. destruct (Nat.eqb_spec q r); lia.
  - repeat apply conj; cbn [count renumber nextreg].
    + intros q H. apply A. revert H. unfold counted; cbn. unfold upd. destruct (Nat.eqb_spec q r) as [->|]; lia.
    + intros q p H1 H2. apply B.
      * revert H1. unfold counted; cbn. unfold upd. destruct (Nat.eqb_spec q r) as [->|]; lia.
      * revert H2. unfold counted; cbn. unfold upd. destruct (Nat.eqb_spec p r) as [->|]; lia.
    + rewrite upd_same. discriminate.
    + intros q H. unfold upd. destruct (Nat.eqb_spec q r); lia.
Qed.

Lemma count_use_ok v d : dce_ok d ->
  dce_ok (count_use v d) /\ (forall r, In r (value_regs v) -> counted (count_use v d) r) /\
  (forall q, counted d q -> counted (count_use v d) q).
Proof.
  intros H. destruct v as [|r| | |r k| | | | | | | | ]; cbn [count_use value_regs In];
    try (split; [exact H|split; [intros ? []|now auto]]).
  - destruct (count_reg_ok r d H) as (A & B & C). split; [|split]; auto. intros q [<-|[]]. exact B.
  - destruct (count_reg_ok r d H) as (A & B & C). split; [|split]; auto. intros q [<-|[]]. exact B.
Qed.

Definition uses (i : ir) (r : nat) : Prop :=
  In r (value_regs (arg1 i)) \/ In r (value_regs (arg2 i)) \/
  (result i = Some r /\ (reads_result i = true \/ writes_flags i = true)).

Lemma count_one_ok i d : dce_ok d ->
  dce_ok (count_one d i) /\ (forall r, uses i r -> counted (count_one d i) r) /\
  (forall q, counted d q -> counted (count_one d i) q).
Proof.
  intros H. unfold count_one, uses.
  destruct (count_use_ok (arg1 i) d H) as (A & B & C).
  destruct (count_use_ok (arg2 i) _ A) as (A' & B' & C').
  destruct (result i) as [r|].
  - destruct (reads_result i || writes_flags i) eqn:K.
    + destruct (count_reg_ok r _ A') as (A2 & B2 & C2). split; [|split]; auto.
      intros q [Q|[Q|([= <-] & _)]]; auto.
    + apply orb_false_iff in K as (K1 & K2). split; [|split]; auto.
      intros q [Q|[Q|(_ & [Q|Q])]]; auto; congruence.
  - split; [|split]; auto. intros q [Q|[Q|(X & _)]]; auto. discriminate.
Qed.

Lemma count_fold_ok l : forall d, dce_ok d ->
  dce_ok (fold_left count_one l d) /\
  (forall i r, In i l -> uses i r -> counted (fold_left count_one l d) r) /\
  (forall q, counted d q -> counted (fold_left count_one l d) q).
Proof.
  induction l as [|i l IH]; intros d H; cbn [fold_left].
  - split; [|split]; auto. intros i r [].
  - destruct (count_one_ok i d H) as (A & B & C). destruct (IH _ A) as (A' & B' & C').
    split; [|split]; auto. intros j r [<-|J] U; eauto.
Qed.

Lemma count_all_ok f : dce_ok (count_all f) /\ (forall i r, In i f -> uses i r -> counted (count_all f) r).
Proof.
  destruct (count_fold_ok f dce_init) as (A & B & _).
  - split; intros r H; now elim H.
  - now split.
Qed.

(* ---------- the second loop ---------- *)

Definition keep (d : dce) (i : ir) : ir :=
  Ir (op i) (sz i) (target i) (cc i) (option_map (renumber d) (result i)) (ren d (arg1 i)) (ren d (arg2 i)).
Definition a_nop (i : ir) : Prop := exists j, i = nop_of j.
Definition plain_cmp (i : ir) : Prop := op i = J_CMP \/ op i = J_FCMP.

(* From instruction [n] on the flag is written before it can be read. *)
Definition quiet (f : prog) (a b : nat) : Prop :=
  forall m i, a <= m < b -> nth_error f m = Some i ->
    reads_flags i = false /\ is_terminator f m = false.
Definition flag_dead (f : prog) (n : nat) : Prop :=
  exists j i, n <= j /\ nth_error f j = Some i /\ writes_flags i = true /\ reads_flags i = false /\ quiet f n j.

Definition outcome_of (f : prog) (d : dce) (k : nat) (i i' : ir) : Prop :=
  (i' = keep d i /\ forall r, result i = Some r -> counted d r \/ writes_flags i = true) \/
  (a_nop i' /\ exists r, result i = Some r /\ ~ counted d r /\ writes_flags i = false) \/
  (a_nop i' /\ plain_cmp i /\ flag_dead f (S k)).

Definition loop_inv (f : prog) (d : dce) (n : nat) (st : prog * option nat) : Prop :=
  length (fst st) = n /\
  (forall k i, k < n -> nth_error f k = Some i ->
     exists i', nth_error (fst st) k = Some i' /\ outcome_of f d k i i') /\
  (forall k, snd st = Some k -> k < n /\ quiet f (S k) n /\
     exists i, nth_error f k = Some i /\ plain_cmp i).

Lemma set_nth_length l k x : k < length l -> length (set_nth l k x) = length l.
Proof. intros H. unfold set_nth. rewrite app_length. cbn [length]. rewrite firstn_length, skipn_length. lia. Qed.

Lemma set_nth_nth l k x m : k < length l ->
  nth_error (set_nth l k x) m = if m =? k then Some x else nth_error l m.
Proof.
  intros H. unfold set_nth. destruct (Nat.eqb_spec m k) as [->|N].
  - rewrite nth_error_app2; rewrite firstn_length_le by lia; [|lia]. now rewrite Nat.sub_diag.
  - destruct (Nat.lt_ge_cases m k) as [L|L].
    + rewrite nth_error_app1 by (rewrite firstn_length_le; lia).
      revert l m H N L. induction k as [|k IH]; intros l m H N L; [lia|].
      destruct l as [|y l]; [cbn in H; lia|]. destruct m as [|m]; [reflexivity|]. cbn. apply IH; cbn in H; lia.
    + rewrite nth_error_app2; rewrite firstn_length_le by lia; [|lia].
      destruct (m - k) as [|p] eqn:E; [lia|]. cbn [nth_error].
      assert (forall (l : prog) k p, nth_error (skipn k l) p = nth_error l (k + p)) as SK.
      { clear. intros l k. revert l. induction k as [|k IH]; intros l p; [reflexivity|].
        destruct l as [|y l]; [cbn; now destruct p|]. cbn. apply IH. }
      rewrite SK. f_equal. lia.
Qed.

Lemma nop_at_spec l k : k < length l ->
  length (nop_at l k) = length l /\
  (forall m, m <> k -> nth_error (nop_at l k) m = nth_error l m) /\
  exists i, nth_error (nop_at l k) k = Some i /\ a_nop i.
Proof.
  intros H. unfold nop_at. destruct (nth_error l k) as [i|] eqn:E.
  2:{ apply nth_error_None in E. lia. }
  repeat apply conj.
  - now apply set_nth_length.
  - intros m N. rewrite set_nth_nth by exact H. destruct (Nat.eqb_spec m k); congruence.
  - exists (nop_of i). rewrite set_nth_nth, Nat.eqb_refl by exact H. split; [reflexivity|now exists i].
Qed.

Lemma dce_one_inv f d n st i : nth_error f n = Some i -> loop_inv f d n st ->
  loop_inv f d (S n) (dce_one f d n st i).
Proof.
  intros N (L & K & Cm). destruct st as [out cmp]. cbn [fst snd] in *.
  unfold dce_one. set (i1 := Ir _ _ _ _ _ _ _).
  assert (RF : reads_flags i1 = reads_flags i) by reflexivity.
  assert (WF : writes_flags i1 = writes_flags i) by reflexivity.
  rewrite RF, WF.
  (* the last instruction *)
  set (i2 := match result i1 with None => i1 | Some r => _ end).
  assert (O2 : outcome_of f d n i i2).
  { unfold i2. cbn [result i1]. destruct (result i) as [r|] eqn:R.
    - destruct ((count d r =? 0) && negb (writes_flags i)) eqn:X.
      + apply andb_true_iff in X as (X1 & X2). apply Nat.eqb_eq in X1. apply negb_true_iff in X2.
        right; left. split; [now exists i1|]. exists r. unfold counted. repeat apply conj; auto.
      + left. split; [unfold keep; rewrite R; reflexivity|]. intros q Eq. assert (q = r) by congruence. subst q.
        apply andb_false_iff in X as [X|X]; [left; now apply Nat.eqb_neq|right; now apply negb_false_iff].
    - left. split; [unfold keep, i1; rewrite R; reflexivity|]. congruence. }
  clearbody i2.
  (* adding it *)
  assert (ADD : forall out1 cmp1, length out1 = n ->
            (forall k i, k < n -> nth_error f k = Some i ->
               exists i', nth_error out1 k = Some i' /\ outcome_of f d k i i') ->
            (forall k, cmp1 = Some k -> k < S n /\ quiet f (S k) (S n) /\
               exists i, nth_error f k = Some i /\ plain_cmp i) ->
            loop_inv f d (S n) (out1 ++ [i2], cmp1)).
  { intros out1 cmp1 L1 K1 C1. repeat apply conj; cbn [fst snd].
    - rewrite app_length. cbn. lia.
    - intros k j Hk Nk. destruct (Nat.eq_dec k n) as [->|NE].
      + assert (j = i) by congruence. subst j. exists i2. split; [|exact O2].
        rewrite nth_error_app2 by lia. now rewrite L1, Nat.sub_diag.
      + destruct (K1 k j) as (j' & A & B); [lia|exact Nk|]. exists j'. split; [|exact B].
        rewrite nth_error_app1 by lia. exact A.
    - exact C1. }
  destruct (reads_flags i || is_terminator f n) eqn:RT.
  - apply ADD; [exact L|exact K|]. discriminate.
  - apply orb_false_iff in RT as (R & T).
    assert (QE : forall k, quiet f (S k) n -> quiet f (S k) (S n)).
    { intros k Q m j Hm Nm. destruct (Nat.eq_dec m n) as [->|NE].
      - assert (j = i) by congruence. subst j. now split.
      - apply (Q m j); [lia|exact Nm]. }
    destruct (writes_flags i) eqn:Wf.
    + assert (CM2 : forall k, match op i with J_CMP | J_FCMP => Some n | _ => None end = Some k ->
                k < S n /\ quiet f (S k) (S n) /\ exists j, nth_error f k = Some j /\ plain_cmp j).
      { intros k E. assert (k = n /\ plain_cmp i) as (-> & P).
        { unfold plain_cmp. destruct (op i); try discriminate; injection E as <-; auto. }
        repeat apply conj; [lia| |eauto]. intros m j Hm _. lia. }
      destruct cmp as [k|].
      * destruct (Cm k eq_refl) as (Hk & Q & (ik & Nk & Pk)).
        destruct (nop_at_spec out k) as (L1 & S1 & (iz & S2 & S3)); [lia|].
        apply ADD; [congruence| |exact CM2].
        intros m j Hm Nm. destruct (Nat.eq_dec m k) as [->|NE].
        -- exists iz. split; [exact S2|]. right; right. assert (j = ik) by congruence. subst j.
           repeat apply conj; [exact S3|exact Pk|]. exists n, i. repeat apply conj; auto.
        -- rewrite S1 by exact NE. now apply K.
      * apply ADD; [exact L|exact K|exact CM2].
    + apply ADD; [exact L|exact K|]. intros k E. destruct (Cm k E) as (A & B & C).
      repeat apply conj; [lia|now apply QE|exact C].
Qed.

Lemma dce_from_inv f d : forall l n st, skipn n f = l -> loop_inv f d n st -> n <= length f ->
  loop_inv f d (length f) (dce_from f d n st l).
Proof.
  induction l as [|i l IH]; intros n st E H Hn.
  - cbn. apply (f_equal (@length ir)) in E. rewrite skipn_length in E. cbn in E.
    now replace (length f) with n by lia.
  - destruct (nth_skipn _ _ _ _ E) as (N & E2). cbn [dce_from]. apply IH; [exact E2| |].
    + now apply dce_one_inv.
    + apply nth_error_Some_length in N || (assert (nth_error f n <> None) as X by congruence; apply nth_error_Some in X; lia).
Qed.

Lemma dce_nth f n i : nth_error f n = Some i ->
  exists i', nth_error (fst (dce_pass f)) n = Some i' /\ outcome_of f (count_all f) n i i'.
Proof.
  intros N. unfold dce_pass. cbn [fst].
  destruct (dce_from_inv f (count_all f) f 0 ([], None)) as (_ & K & _); [reflexivity| |lia|].
  - repeat apply conj; [reflexivity|lia|discriminate].
  - apply K; [|exact N]. apply nth_error_Some. congruence.
Qed.

Lemma dce_length f : length (fst (dce_pass f)) = length f.
Proof.
  unfold dce_pass. cbn [fst].
  destruct (dce_from_inv f (count_all f) f 0 ([], None)) as (L & _ & _); [reflexivity| |lia|exact L].
  repeat apply conj; [reflexivity|lia|discriminate].
Qed.

(* No way out of a stretch of code that ends in a write of the flag. *)
Lemma quiet_no_case f n j ij m im :
  nth_error f j = Some ij -> writes_flags ij = true -> quiet f n j -> n <= m < j ->
  nth_error f m = Some im -> op im <> MACRO_CASE.
Proof.
  intros Nj Wj Q. remember (j - m) as k eqn:E. revert m im E.
  induction k as [|k IH]; intros m im E Hm Nm; [lia|].
  intros C. destruct (Q m im ltac:(lia) Nm) as (_ & T). unfold is_terminator in T. rewrite Nm, C in T.
  destruct (nth_error f (S m)) as [i2|] eqn:N2.
  2:{ apply nth_error_None in N2. assert (X : nth_error f j <> None) by congruence.
      apply nth_error_Some in X. lia. }
  apply negb_false_iff in T. unfold op_eqb in T. destruct (opcode_eq_dec (op i2) MACRO_CASE) as [C2|]; [|discriminate].
  destruct (Nat.eq_dec (S m) j) as [<-|NE].
  - assert (i2 = ij) by congruence. subst i2. unfold writes_flags in Wj. rewrite C2 in Wj. discriminate.
  - apply (IH (S m) i2); [lia|lia|exact N2|exact C2].
Qed.

Lemma flag_dead_step f n i : flag_dead f n -> nth_error f n = Some i -> writes_flags i = false ->
  flag_dead f (S n) /\ reads_flags i = false /\ is_terminator f n = false /\ op i <> MACRO_CASE.
Proof.
  intros (j & ij & Hj & Nj & Wj & Rj & Q) N Wi.
  assert (n <> j). { intros ->. congruence. }
  destruct (Q n i ltac:(lia) N) as (R & T).
  repeat apply conj; auto.
  - exists j, ij. repeat apply conj; auto; [lia|]. intros m k Hm. apply Q. lia.
  - apply (quiet_no_case f n j ij n i Nj Wj Q); [lia|exact N].
Qed.

Section Sim.
Variable W : Type.
Variable cpool_base : Z.
Variable cover_addr : Z -> Z.
Variable prim : opcode -> size -> ccode -> Z -> Z -> Z -> bool -> (nat -> Z) -> W ->
                option (Z * bool * (nat -> Z) * W).
Notation run := (run W cpool_base cover_addr prim).
Notation step := (step W cpool_base cover_addr prim).
Notation exec := (exec W prim).
Notation fetch := (fetch cpool_base cover_addr).
Notation pc := (pc W).
Notation regs := (regs W).
Notation flag := (flag W).
Notation args := (args W).
Notation outside := (outside W).

Variable f : prog.
Hypothesis RO : results_ok f.
Hypothesis CO : checks_ok f.
Hypothesis AU : allocs_used f.
Let d := count_all f.

Definition dce_rel (s s' : state W) : Prop :=
  pc s' = pc s /\ args s' = args s /\ outside s' = outside s /\
  (forall r, counted d r -> regs s' (renumber d r) = regs s r) /\
  (flag s' = flag s \/ flag_dead f (pc s)).

Definition with_flag (e : effect W) (b : bool) : effect W :=
  Effect W (e_res W e) b (e_args W e) (e_w W e) (e_jump W e) (e_done W e).

(* An instruction that does not read the flag does the same whatever it is. *)
Lemma exec_flag i a b rv fl fl' ar w e :
  match op i with J_ADD | J_SUB | J_MUL => cc i = CC_NONE \/ cc i = CC_O \/ cc i = CC_C | _ => True end ->
  reads_flags i = false ->
  exec (op i) (sz i) (cc i) a b rv fl ar w = Some e ->
  exec (op i) (sz i) (cc i) a b rv fl' ar w = Some (with_flag e (if writes_flags i then e_flag W e else fl')) /\
  (writes_flags i = false -> e_flag W e = fl).
Proof.
  unfold reads_flags, writes_flags, with_flag. intros C R E.
  destruct (op i) eqn:O; try discriminate R; cbn in E |- *; unfold setr, jump in *;
    try (destruct C as [C|[C|C]]; rewrite C in *; cbn in E |- *);
    try (match type of E with context [spec_size ?x] => destruct (spec_size x) end);
    repeat split_match E; try discriminate;
    try (injection E as <-; cbn; split; [reflexivity|]; intros; try discriminate; reflexivity).
  injection E as <-. cbn. split; [destruct (cc_none (cc i)); reflexivity|].
  intros X. destruct (cc_none (cc i)); [reflexivity|discriminate].
Qed.

Lemma exec_pure o s c a b rv fl ar w e :
  produces o = true -> o <> MACRO_GALLOC -> o <> MACRO_LALLOC ->
  exec o s c a b rv fl ar w = Some e ->
  e_args W e = ar /\ e_w W e = w /\ e_jump W e = None /\ e_done W e = false /\ exists v, e_res W e = Some v.
Proof.
  intros P N1 N2 E. destruct o; try discriminate P; try contradiction; cbn in E; unfold setr in E;
    repeat split_match E; try discriminate; injection E as <-; cbn; repeat apply conj; eauto.
Qed.

Lemma exec_cmp i a b rv fl ar w e :
  plain_cmp i -> exec (op i) (sz i) (cc i) a b rv fl ar w = Some e ->
  e = Effect W None (e_flag W e) ar w None false.
Proof.
  intros [O|O] E; rewrite O in E; cbn in E.
  - unfold jump in E. injection E as <-. reflexivity.
  - destruct (prim J_FCMP (sz i) (cc i) a b 0 false ar w) as [[[[? ?] ?] ?]|]; [|discriminate].
    unfold jump in E. injection E as <-. reflexivity.
Qed.

Lemma ren_fetch m rg rg' v :
  (forall r, In r (value_regs v) -> rg' (renumber d r) = rg r) ->
  fetch m rg' (ren d v) = fetch m rg v.
Proof. intros H. destruct v, m; cbn in *; try reflexivity; now rewrite H by now left. Qed.

Lemma nop_step g s i : nth_error g (pc s) = Some i -> op i = J_NOP ->
  step g s = Next W (State W (S (pc s)) (regs s) (flag s) (args s) (outside s)).
Proof.
  intros N O. unfold JitModel.step. rewrite N. unfold reads_result. rewrite O. cbn.
  destruct s; reflexivity.
Qed.

Lemma step_at g s i : nth_error g (pc s) = Some i ->
  step g s =
  match fetch (mode1 (op i)) (regs s) (arg1 i), fetch (mode2 (op i)) (regs s) (arg2 i) with
  | Some a, Some b =>
    match (if reads_result i then option_map (regs s) (result i) else Some 0%Z) with
    | None => Crash W
    | Some rv =>
      match exec (op i) (sz i) (cc i) a b rv (flag s) (args s) (outside s) with
      | None => Crash W
      | Some e => apply W i s e
      end
    end
  | _, _ => Crash W
  end.
Proof. intros N. unfold JitModel.step. now rewrite N. Qed.

Lemma step_in g s : step g s <> Crash W -> exists i, nth_error g (pc s) = Some i.
Proof. unfold JitModel.step. destruct (nth_error g (pc s)); [eauto|congruence]. Qed.

Lemma dce_step s s' : dce_rel s s' -> step f s <> Crash W ->
  match step f s with
  | Next _ t => exists t', step (fst (dce_pass f)) s' = Next W t' /\ dce_rel t t'
  | o => step (fst (dce_pass f)) s' = o
  end.
Proof.
  intros (Rp & Ra & Rw & Rr & Rf) NC.
  destruct (count_all_ok f) as ((DK1 & DK2) & DU). fold d in DK1, DK2, DU.
  destruct (step_in f s NC) as (i & N). rewrite (step_at f s i N) in NC |- *.
  destruct (fetch (mode1 (op i)) (regs s) (arg1 i)) as [a|] eqn:F1; [|congruence].
  destruct (fetch (mode2 (op i)) (regs s) (arg2 i)) as [b|] eqn:F2; [|congruence].
  destruct (if reads_result i then option_map (regs s) (result i) else Some 0%Z) as [rv|] eqn:RV; [|congruence].
  destruct (exec (op i) (sz i) (cc i) a b rv (flag s) (args s) (outside s)) as [e|] eqn:X; [|congruence].
  pose proof (nth_error_In _ _ N) as Hin.
  destruct (dce_nth f (pc s) i N) as (i' & N' & OC). fold d in OC.
  destruct OC as [(-> & KC)|[(NOP & r & Er & NCt & Wf)|(NOP & PC & FD)]].
  - (* kept *)
    assert (US1 : forall r, In r (value_regs (arg1 i)) -> regs s' (renumber d r) = regs s r).
    { intros r H. apply Rr. apply (DU i); [exact Hin|now left]. }
    assert (US2 : forall r, In r (value_regs (arg2 i)) -> regs s' (renumber d r) = regs s r).
    { intros r H. apply Rr. apply (DU i); [exact Hin|right; now left]. }
    rewrite (step_at _ s' (keep d i)) by now rewrite Rp. cbn [op sz cc result arg1 arg2 keep].
    rewrite (ren_fetch _ _ _ _ US1), (ren_fetch _ _ _ _ US2), F1, F2.
    replace (reads_result (keep d i)) with (reads_result i) by reflexivity.
    assert (RV' : (if reads_result i then option_map (regs s') (option_map (renumber d) (result i)) else Some 0%Z) = Some rv).
    { destruct (reads_result i) eqn:RR; [|exact RV]. destruct (result i) as [r|] eqn:Er; [|discriminate].
      cbn in RV |- *. rewrite Rr; [exact RV|]. apply (DU i); [exact Hin|]. right; right. auto. }
    rewrite RV', Ra, Rw.
    assert (XX : exists fl2, exec (op i) (sz i) (cc i) a b rv (flag s') (args s) (outside s) =
                   Some (with_flag e fl2) /\
                 (fl2 = e_flag W e \/ (flag_dead f (S (pc s)) /\ e_jump W e = None))).
    { destruct (flag s') eqn:Fl', (flag s) eqn:Fl;
        try (exists (e_flag W e); split; [|now left]; rewrite X; f_equal; destruct e; reflexivity).
      all: destruct Rf as [Rf|Rf]; [discriminate|].
      all: destruct (reads_flags i) eqn:RF;
        [exfalso; destruct Rf as (j & ij & Hj & Nj & Wj & Rj & Q);
         destruct (Nat.eq_dec (pc s) j) as [<-|NE]; [congruence|];
         destruct (Q (pc s) i ltac:(lia) N) as (R0 & _); congruence|].
      all: match goal with |- exists fl2, exec _ _ _ _ _ _ ?fx _ _ = _ /\ _ =>
             destruct (exec_flag i a b rv (flag s) fx (args s) (outside s) e (CO i Hin) RF) as (X2 & X3);
             [congruence|] end.
      all: eexists; split; [exact X2|].
      all: destruct (writes_flags i) eqn:Wf; [now left|right].
      all: destruct (flag_dead_step f (pc s) i Rf N Wf) as (FD & _ & T & NCs); split; [exact FD|].
      all: destruct (e_jump W e) as [t|] eqn:J; [|reflexivity]; exfalso.
      all: destruct (exec_jump _ _ _ _ _ _ _ _ _ _ _ _ _ X J) as [(O & _)|(O & _)]; [|contradiction].
      all: unfold is_terminator in T; rewrite N, O in T; discriminate. }
    destruct XX as (fl2 & -> & FX).
    unfold apply in NC |- *. cbn [with_flag e_done e_args e_w e_jump e_res e_flag result keep].
    destruct (e_done W e) eqn:Dn; [reflexivity|].
    assert (FREL : fl2 = e_flag W e \/ flag_dead f (match e_jump W e with Some t => t | None => S (pc s) end)).
    { destruct FX as [FX|(FX & ->)]; [now left|now right]. }
    destruct (e_res W e) as [v|].
    + destruct (result i) as [r|] eqn:Er; [|congruence]. cbn [option_map].
      eexists. split; [reflexivity|].
      repeat apply conj; cbn [JitModel.pc JitModel.args JitModel.outside JitModel.regs JitModel.flag]; auto.
      * now rewrite Rp.
      * intros q Cq. unfold upd. destruct (Nat.eqb_spec q r) as [->|NE]; [now rewrite Nat.eqb_refl|].
        destruct (Nat.eqb_spec (renumber d q) (renumber d r)) as [E|_]; [|now apply Rr].
        exfalso. apply NE. apply DK2; [exact Cq| |exact E].
        destruct (KC r eq_refl) as [KC1|KC1]; [exact KC1|]. apply (DU i); [exact Hin|]. right; right. auto.
    + eexists. split; [reflexivity|].
      repeat apply conj; cbn [JitModel.pc JitModel.args JitModel.outside JitModel.regs JitModel.flag]; auto.
      now rewrite Rp.
  - (* the result is never read *)
    assert (PR : produces (op i) = true).
    { destruct (RO i r Hin Er) as [P|P]; [exact P|]. exfalso. apply NCt. apply (DU i); [exact Hin|]. right; right. auto. }
    assert (NA : op i <> MACRO_GALLOC /\ op i <> MACRO_LALLOC).
    { assert (AL : ~ (op i = MACRO_GALLOC \/ op i = MACRO_LALLOC)); [|split; intros O; apply AL; auto].
      intros O. destruct (AU i r Hin O Er) as (j & Hj & U). apply NCt, (DU j); [exact Hj|].
      unfold uses. destruct U as [U|[U|(U1 & U2)]]; auto. }
    destruct (exec_pure _ _ _ _ _ _ _ _ _ _ PR (proj1 NA) (proj2 NA) X) as (E1 & E2 & E3 & E4 & v & E5).
    unfold apply. rewrite E4, E5, Er, E3, E1, E2.
    rewrite (nop_step _ s' i'); [|now rewrite Rp|now destruct NOP as (? & ->)]. eexists. split; [reflexivity|].
    repeat apply conj; cbn [JitModel.pc JitModel.args JitModel.outside JitModel.regs JitModel.flag]; auto.
    + intros q Cq. rewrite upd_other; [now apply Rr|]. intros ->. contradiction.
    + destruct Rf as [Rf|Rf].
      * left. rewrite Rf. symmetry.
        (* the flag is not written *)
        clear - X Wf PR. unfold writes_flags in Wf.
        destruct (op i) eqn:O; try discriminate PR; cbn in X; unfold setr in X;
          try (destruct (cc i) eqn:Cc; try discriminate Wf);
          repeat split_match X; try discriminate; injection X as <-; reflexivity.
      * right. apply (flag_dead_step f (pc s) i Rf N Wf).
  - (* the flag is never read *)
    pose proof (exec_cmp i a b rv _ _ _ e PC X) as EE. rewrite EE. unfold apply. cbn [e_done e_res e_jump e_flag e_args e_w].
    rewrite (nop_step _ s' i'); [|now rewrite Rp|now destruct NOP as (? & ->)]. eexists. split; [reflexivity|].
    repeat apply conj; cbn [JitModel.pc JitModel.args JitModel.outside JitModel.regs JitModel.flag]; auto.
Qed.

Lemma dce_run n : forall s s', dce_rel s s' -> run n f s <> Crash W ->
  match run n f s with
  | Next _ t => exists t', run n (fst (dce_pass f)) s' = Next W t' /\ dce_rel t t'
  | o => run n (fst (dce_pass f)) s' = o
  end.
Proof.
  induction n as [|n IH]; intros s s' R NC; [exists s'; now split|]. cbn [JitModel.run] in *.
  pose proof (dce_step s s' R) as D.
  destruct (step f s) as [t|ar w|] eqn:E; try congruence.
  - destruct (D ltac:(discriminate)) as (t' & -> & R'). now apply IH.
  - rewrite (D ltac:(discriminate)). reflexivity.
Qed.
End Sim.
