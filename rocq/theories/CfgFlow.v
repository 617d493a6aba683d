(* Running code follows the edges of its control flow graph. *)
From Coq Require Import List ZArith Arith Bool Lia.
From Verif Require Import Base JitModel JitSpec JitPassProofs CfgModel CfgSpec CfgProofs CfgLive.
Import ListNotations.

Lemma slice_cons f p q x : p <= q -> nth_error f p = Some x -> slice f p q = x :: slice f (S p) q.
Proof.
  intros L N. unfold slice.
  assert (S1 : skipn p f = x :: skipn (S p) f).
  { clear L. revert p N. induction f as [|y f IH]; intros [|p] N; try discriminate.
    - cbn in N. now injection N as ->.
    - cbn in N. cbn [skipn]. rewrite (IH p N). reflexivity. }
  rewrite S1. replace (S q - p) with (S (q - p)) by lia. cbn [firstn]. now replace (S q - S p) with (q - p) by lia.
Qed.

Lemma slice_last f p x : nth_error f p = Some x -> slice f p p = [x].
Proof.
  intros N. rewrite (slice_cons f p p x (le_n _) N). unfold slice. now rewrite Nat.sub_diag.
Qed.

Lemma slice_in f p q i : In i (slice f p q) -> In i f.
Proof.
  unfold slice. intros H.
  assert (G : forall n (l : list ir), In i (firstn n l) -> In i l).
  { induction n as [|n IH]; intros [|y l] I0; cbn in I0; try destruct I0; [now left|right; auto]. }
  apply G in H. clear G. revert f H. induction p as [|p IH]; intros [|y f] H; auto. right. now apply IH.
Qed.

(* ---------- liveness of the graph ---------- *)

Lemma nlive_live nregs f cs x : tracked nregs f x ->
  forall k, k < length cs -> nlive (map (node_of nregs f) cs) (num nregs x) k <-> live_after f cs x k.
Proof.
  intros T.
  assert (TB : forall b, tracked nregs (body f b) x).
  { intros b. destruct x as [r|]; cbn in *; [exact T|]. destruct T as (T1 & T2). split; intros i.
    - intros r I0. apply T1, (slice_in f (first b) (last b)), I0.
    - intros I0. apply T2, (slice_in f (first b) (last b)), I0. }
  assert (ND : forall k n, nth_error (map (node_of nregs f) cs) k = Some n ->
             exists b, nth_error cs k = Some b /\ succs n = outs b /\
               (ue n (num nregs x) = true <-> exposed (slice f (first b) (last b)) x) /\
               (ue n (num nregs x) = false -> (vk n (num nregs x) = false <-> passes (slice f (first b) (last b)) x))).
  { intros k n N. rewrite nth_error_map in N. destruct (nth_error cs k) as [b|]; [|discriminate]. cbn in N. injection N as <-.
    exists b. split; [reflexivity|]. pose proof (scan_ok nregs (body f b) x (TB b)) as (A & B).
    unfold node_of. destruct (scan nregs (body f b)) as [l kk]. cbn [ue vk succs fst snd] in *. auto. }
  assert (NM : forall k b, nth_error cs k = Some b -> nth_error (map (node_of nregs f) cs) k = Some (node_of nregs f b)).
  { intros k b N. now rewrite nth_error_map, N. }
  intros k _. split.
  - intros H. induction H as [k b s n N I0 Ns U|k b s n N I0 Ns V H IH];
      destruct (ND _ _ N) as (bb & Nb & Sb & _); destruct (ND _ _ Ns) as (c & Nc & _ & A & B); rewrite Sb in I0.
    + eapply live_here; eauto; [exists bb; eauto|now apply A].
    + destruct (ue n (num nregs x)) eqn:U.
      * eapply live_here; eauto; [exists bb; eauto|now apply A].
      * eapply live_later; eauto; [exists bb; eauto|now apply B].
  - intros H. induction H as [k m b (bb & Nb & E) N X|k m b (bb & Nb & E) N P H IH];
      destruct (ND _ _ (NM _ _ N)) as (c & Nc & _ & A & B); assert (c = b) by congruence; subst c;
      destruct (ND _ _ (NM _ _ Nb)) as (c & Nc2 & Sb & _); assert (c = bb) by congruence; subst c; rewrite <- Sb in E.
    + eapply nlive_here; eauto. now apply A.
    + destruct (ue (node_of nregs f b) (num nregs x)) eqn:U.
      * eapply nlive_here; eauto.
      * eapply nlive_later; eauto. now apply B.
Qed.

Lemma live_in_ok nregs f cs lo x k b : tracked nregs f x -> num nregs x <= nregs ->
  liveness nregs (map (node_of nregs f) cs) = Ok lo -> nth_error cs k = Some b ->
  (live_in (node_of nregs f b) (lo k) (num nregs x) = true <-> live_before f cs x k).
Proof.
  intros T L E N.
  destruct (liveness_ok nregs (map (node_of nregs f) cs)) as (lo' & E' & LO). assert (lo' = lo) by congruence. subst lo'.
  assert (TB : tracked nregs (body f b) x).
  { destruct x as [r|]; cbn in *; [exact T|]. destruct T as (T1 & T2). split; intros i.
    - intros r I0. apply T1, (slice_in f (first b) (last b)), I0.
    - intros I0. apply T2, (slice_in f (first b) (last b)), I0. }
  pose proof (scan_ok nregs (body f b) x TB) as (A & B).
  assert (LK : lo k (num nregs x) = true <-> live_after f cs x k).
  { rewrite LO by exact L. apply nlive_live; [exact T|]. apply nth_error_Some. congruence. }
  unfold node_of. destruct (scan nregs (body f b)) as [u v]. unfold live_in, runion, rminus. cbn [ue vk fst snd] in *.
  rewrite orb_true_iff, andb_true_iff, negb_true_iff, LK. unfold live_before. split.
  - intros [H|(H1 & H2)]; exists b; split; auto.
    + left. now apply A.
    + destruct (u (num nregs x)) eqn:U; [left; now apply A|]. right. split; [|exact H1]. now apply B.
  - intros (b' & N' & H). assert (b' = b) by congruence. subst b'.
    destruct (u (num nregs x)) eqn:U; [now left|]. right. destruct H as [H|(H1 & H2)]; [apply A in H; congruence|].
    split; [exact H2|]. now apply B.
Qed.

(* ---------- running ---------- *)

Section Flow.
Variable W : Type.
Variable cpool_base : Z.
Variable cover_addr : Z -> Z.
Variable prim : opcode -> size -> ccode -> Z -> Z -> Z -> bool -> (nat -> Z) -> W ->
                option (Z * bool * (nat -> Z) * W).
Notation step := (step W cpool_base cover_addr prim).
Notation run := (run W cpool_base cover_addr prim).
Notation fetch := (fetch cpool_base cover_addr).
Notation state := (state W).
Notation pc := (pc W). Notation regs := (regs W). Notation flag := (flag W).
Notation args := (args W). Notation outside := (outside W).
Variable f : prog.

Lemma exec_stop o sz c a b rv fl ar w e : exec W prim o sz c a b rv fl ar w = Some e ->
  e_done W e = false -> o <> J_RET /\ o <> MACRO_REEXEC /\ o <> J_TRAP /\ (o = J_JUMP -> c = CC_NONE -> e_jump W e <> None).
Proof.
  intros E D. conjs; intros ->; cbn in E.
  - injection E as <-. discriminate.
  - destruct (prim MACRO_REEXEC sz c 0%Z 0%Z 0%Z false ar w) as [[[[? ?] ?] ?]|]; [|discriminate]. injection E as <-. discriminate.
  - discriminate.
  - intros ->. unfold jump in E. injection E as <-. discriminate.
Qed.

Lemma step_shape s s' : exits_abort prim -> step f s = Next W s' ->
  exists x, nth_error f (pc s) = Some x /\ will_abort x = false /\ op x <> J_RET /\ op x <> MACRO_REEXEC /\
    ((pc s' = S (pc s) /\ (op x = J_JUMP -> cc x <> CC_NONE)) \/ label_of x = Some (pc s')).
Proof.
  intros XA. unfold JitModel.step. destruct (nth_error f (pc s)) as [x|] eqn:N; [|discriminate].
  destruct (fetch (mode1 (op x)) (regs s) (arg1 x)) as [a|] eqn:F1; [|discriminate].
  destruct (fetch (mode2 (op x)) (regs s) (arg2 x)) as [b|] eqn:F2; [|discriminate].
  destruct (if reads_result x then option_map (regs s) (result x) else Some 0%Z) as [rv|]; [|discriminate].
  destruct (exec W prim (op x) (sz x) (cc x) a b rv (flag s) (args s) (outside s)) as [e|] eqn:E; [|discriminate].
  intros A. exists x. split; [reflexivity|].
  assert (ND : e_done W e = false) by (unfold apply in A; destruct (e_done W e); [discriminate|reflexivity]).
  destruct (exec_stop _ _ _ _ _ _ _ _ _ _ E ND) as (O1 & O2 & O3 & O4).
  split.
  { unfold will_abort. destruct (op x) eqn:O; try reflexivity; [congruence|]. destruct (arg1 x) as [| | | | | | | | | |ex | | ] eqn:A1; try reflexivity.
    destruct (abort_exit ex) eqn:AX; [|reflexivity]. cbn in F1. injection F1 as <-. cbn in E. now rewrite XA in E. }
  split; [exact O1|]. split; [exact O2|].
  assert (P : pc s' = match e_jump W e with Some t => t | None => S (pc s) end).
  { unfold apply in A. rewrite ND in A. destruct (e_res W e); [destruct (result x); [|discriminate]|]; injection A as <-; reflexivity. }
  destruct (e_jump W e) as [t|] eqn:J.
  - right. rewrite P. destruct (exec_jump _ _ _ _ _ _ _ _ _ _ _ _ _ E J) as [(O & ->)|(O & ->)]; unfold label_of; rewrite O in *.
    + destruct (arg1 x); cbn in F1; try discriminate. injection F1 as <-. now rewrite Nat2Z.id.
    + destruct (arg2 x); cbn in F2; try discriminate. injection F2 as <-. now rewrite Nat2Z.id.
  - left. split; [exact P|]. intros O C. apply (O4 O C). reflexivity.
Qed.

(* Nothing before [p] in its block stops. *)
Definition on_track (cs : list block) (p : nat) : Prop :=
  forall k b, nth_error cs k = Some b -> first b <= p <= last b ->
    forall i x, first b <= i < p -> nth_error f i = Some x -> will_abort x = false /\ is_ret x = false.

Lemma block_of_unique cs p k m : segs f 0 0 cs (length f) -> block_of cs p k -> block_of cs p m -> k = m.
Proof.
  intros SG B1 B2. pose proof (block_for_ok f cs p k SG B1). pose proof (block_for_ok f cs p m SG B2). congruence.
Qed.

Lemma label_first cs t m b : segs f 0 0 cs (length f) -> labels_marked f ->
  (exists x, In x f /\ label_of x = Some t) -> nth_error cs m = Some b -> first b <= t <= last b -> first b = t.
Proof.
  intros SG LM (x & I0 & L) N R. destruct (LM x t I0 (label_of_arg _ _ L)) as (j & Nj & T).
  destruct (segs_nth f _ _ _ _ SG m b N) as (B & _). destruct (Nat.eq_dec (first b) t) as [E|D]; [exact E|].
  destruct (blk_inner _ _ _ B t j ltac:(lia) Nj). congruence.
Qed.

Lemma flow_step cs s s' : exits_abort prim -> labels_marked f -> cfg_ok f cs ->
  on_track cs (pc s) -> step f s = Next W s' -> pc s' < length f ->
  transfer_ok cs (pc s) (pc s') /\ on_track cs (pc s').
Proof.
  intros XA LM OK TR ST L. pose proof (ok_segs _ _ OK) as SG.
  destruct (step_shape s s' XA ST) as (x & N & WA & O1 & O2 & NX).
  assert (Lp : pc s < length f) by (apply nth_error_Some; congruence).
  destruct (segs_cover f 0 0 cs _ (pc s) SG) as (k & Bk); [lia|].
  destruct (segs_cover f 0 0 cs _ (pc s') SG) as (m & Bm); [lia|].
  pose proof Bk as (b & Nb & Rb). pose proof Bm as (c & Nc & Rc).
  destruct (segs_nth f _ _ _ _ SG k b Nb) as (BB & _). cbn [Nat.add] in BB.
  assert (HERE : forall i y, first b <= i <= pc s -> nth_error f i = Some y -> will_abort y = false /\ is_ret y = false).
  { intros i y R Ny. destruct (Nat.eq_dec i (pc s)) as [->|D].
    - assert (y = x) by congruence. subst y. split; [exact WA|]. unfold is_ret. destruct (op_eqb (op x) J_RET) eqn:Q; [|reflexivity].
      apply op_eqb_true in Q. congruence.
    - apply (TR k b Nb Rb i y); [lia|exact Ny]. }
  destruct NX as [(P & C)|LB].
  - (* to the next instruction *)
    destruct (Nat.eq_dec (pc s) (last b)) as [E|D].
    + (* out of the block *)
      assert (LL : S (last b) < length f) by lia.
      assert (FA : falls f b).
      { exists x. rewrite <- E. split; [exact N|]. destruct (is_terminator f (pc s)) eqn:T.
        - unfold is_terminator in T. rewrite N in T. destruct (op x) eqn:Ox; try discriminate T; auto; congruence.
        - destruct (blk_flags _ _ _ BB) as (F1 & F2). split.
          + destruct (rets b); [|reflexivity]. destruct (proj1 F1 eq_refl) as (i & y & R & Ny & Q).
            destruct (HERE i y ltac:(lia) Ny). congruence.
          + destruct (aborts b); [|reflexivity]. destruct (proj1 F2 eq_refl) as (i & y & R & Ny & Q).
            destruct (HERE i y ltac:(lia) Ny). congruence. }
      pose proof (blk_fall _ _ _ BB LL FA) as ED.
      assert (exists c', nth_error cs (S k) = Some c') as (c' & Nc').
      { destruct (nth_error cs (S k)) eqn:X; [eauto|]. apply nth_error_None in X.
        destruct (segs_last f _ _ _ _ SG) as (e & Ne & Le); [intros ->; destruct k; discriminate|].
        assert (k = length cs - 1) by (assert (k < length cs) by (apply nth_error_Some; congruence); lia). subst k.
        assert (e = b) by congruence. subst e. lia. }
      pose proof (segs_next f _ _ _ _ SG k b c' Nb Nc') as FC.
      destruct (segs_nth f _ _ _ _ SG _ c' Nc') as (BC & _). pose proof (blk_order _ _ _ BC).
      assert (m = S k).
      { apply (block_of_unique cs (pc s')); auto. exists c'. split; [exact Nc'|lia]. }
      subst m. assert (c = c') by congruence. subst c'.
      split.
      * exists k, (S k). conjs; auto. right. split; [exists b; auto|]. exists c. split; [exact Nc|lia].
      * intros k2 b2 N2 R2 i y R3. assert (k2 = S k) by (apply (block_of_unique cs (pc s')); auto; exists b2; auto).
        subst k2. assert (b2 = c) by congruence. subst b2. lia.
    + (* in the block *)
      assert (B2 : block_of cs (pc s') k) by (exists b; split; [exact Nb|lia]).
      split.
      * exists k, k. conjs; auto.
      * intros k2 b2 N2 R2 i y R3 Ny. assert (k2 = k) by (apply (block_of_unique cs (pc s')); auto; exists b2; auto).
        subst k2. assert (b2 = b) by congruence. subst b2. apply (HERE i y); [lia|exact Ny].
  - (* a jump *)
    destruct (ok_labels _ _ OK (pc s) x (pc s') N LB) as (k2 & m2 & B1 & B2 & ED).
    assert (k2 = k) by (apply (block_of_unique cs (pc s)); auto). assert (m2 = m) by (apply (block_of_unique cs (pc s')); auto).
    subst k2 m2.
    assert (FT : forall b2, nth_error cs m = Some b2 -> first b2 <= pc s' <= last b2 -> first b2 = pc s').
    { intros b2 N2 R2. apply (label_first cs (pc s') m); auto. exists x. split; [eapply nth_error_In; eauto|exact LB]. }
    split.
    + exists k, m. conjs; auto. right. split; [exact ED|]. exists c. split; [exact Nc|]. now apply FT.
    + intros k3 b3 N3 R3 i y R4. assert (k3 = m) by (apply (block_of_unique cs (pc s')); auto; exists b3; auto).
      subst k3. rewrite (FT b3 N3 R3) in R4. lia.
Qed.

Lemma run_last : forall n s s', run (S n) f s = Next W s' ->
  exists t, run n f s = Next W t /\ step f t = Next W s'.
Proof.
  induction n as [|n IH]; intros s s' R.
  - exists s. split; [reflexivity|]. cbn in R. destruct (step f s); try discriminate. exact R.
  - cbn [JitModel.run] in R. destruct (step f s) as [t| |] eqn:ST; try discriminate.
    destruct (IH t s' R) as (u & A & B). exists u. split; [|exact B]. cbn [JitModel.run]. now rewrite ST.
Qed.

Lemma flow_run cs : exits_abort prim -> labels_marked f -> cfg_ok f cs ->
  forall n s s', pc s = 0 -> run n f s = Next W s' -> on_track cs (pc s').
Proof.
  intros XA LM OK n s. induction n as [|n IH]; intros s' P R.
  - cbn in R. injection R as <-. rewrite P. intros k b N R i x R2. lia.
  - destruct (run_last n s s' R) as (t & A & B). specialize (IH t P A).
    destruct (Nat.lt_ge_cases (pc s') (length f)) as [L|L].
    + apply (flow_step cs t s'); auto.
    + intros k b N R2. destruct (segs_nth f _ _ _ _ (ok_segs _ _ OK) k b N) as (BB & _).
      pose proof (blk_end _ _ _ BB). lia.
Qed.

(* ---------- dead registers ---------- *)

Definition live_at (cs : list block) (p : nat) (r : nat) : Prop :=
  exists k b, nth_error cs k = Some b /\ first b <= p <= last b /\
    (exposed (slice f p (last b)) (LReg r) \/
     (passes (slice f p (last b)) (LReg r) /\ live_after f cs (LReg r) k)).

Definition alike (cs : list block) (s t : state) : Prop :=
  pc t = pc s /\ flag t = flag s /\ args t = args s /\ outside t = outside s /\
  (pc s < length f -> forall r, live_at cs (pc s) r -> regs t r = regs s r).

Lemma fetch_alike m v rg rg' : (forall r, In r (value_regs v) -> rg' r = rg r) -> fetch m rg' v = fetch m rg v.
Proof. intros H. destruct v; destruct m; cbn in *; try reflexivity; now rewrite H by auto. Qed.

Lemma exposed_head x l y : reads x y -> exposed (x :: l) y.
Proof. intros R. exists [], x, l. conjs; auto; intros j []. Qed.
Lemma exposed_tail x l y : ~ writes x y -> exposed l y -> exposed (x :: l) y.
Proof. intros N (a & i & b & -> & R & P). exists (x :: a), i, b. conjs; auto. intros j [<-|J]; auto. Qed.
Lemma passes_cons x l y : ~ writes x y -> passes l y -> passes (x :: l) y.
Proof. intros N P j [<-|J]; auto. Qed.

(* From a case in the middle of a block there are only cases up to its end. *)
Lemma cases_run k b p x : blk f k b -> first b <= p -> nth_error f p = Some x -> op x = MACRO_CASE ->
  forall d, p + d <= last b -> exists y, nth_error f (p + d) = Some y /\ op y = MACRO_CASE.
Proof.
  intros B L N O. induction d as [|d IH]; intros R.
  - rewrite Nat.add_0_r. eauto.
  - destruct IH as (y & Ny & Oy); [lia|]. rewrite Nat.add_succ_r in *.
    pose proof (blk_end _ _ _ B).
    destruct (nth_error f (S (p + d))) as [z|] eqn:Nz; [|apply nth_error_None in Nz; lia].
    destruct (blk_inner _ _ _ B (S (p + d)) z ltac:(lia) Nz) as (_ & T). cbn [Nat.sub] in T. rewrite Nat.sub_0_r in T.
    unfold is_terminator in T. rewrite Ny, Oy, Nz in T. apply negb_false_iff, op_eqb_true in T. eauto.
Qed.

Lemma slice_nth q : forall p i, p <= S q -> In i (slice f p q) -> exists d, p + d <= q /\ nth_error f (p + d) = Some i.
Proof.
  assert (G : forall n p i, In i (firstn n (skipn p f)) -> exists d, d < n /\ nth_error f (p + d) = Some i).
  { induction n as [|n IH]; intros p i H; [destruct H|].
    destruct (skipn p f) as [|x l] eqn:E; [destruct H|]. destruct (nth_skipn _ _ _ _ E) as (N & E2).
    destruct H as [<-|H].
    - exists 0. rewrite Nat.add_0_r. split; [lia|exact N].
    - rewrite <- E2 in H. destruct (IH (S p) i H) as (d & L & Nd). exists (S d). rewrite Nat.add_succ_r.
      split; [lia|exact Nd]. }
  intros p i L H. destruct (G _ _ _ H) as (d & D & N). exists d. split; [lia|exact N].
Qed.

(* What is live after an instruction and not written by it is live before it. *)
Lemma live_back cs p q x r : segs f 0 0 cs (length f) -> nth_error f p = Some x -> transfer_ok cs p q ->
  (q = S p \/ label_of x = Some q) ->
  live_at cs q r -> ~ writes x (LReg r) -> live_at cs p r.
Proof.
  intros SG N (k & m & Bk & Bm & TR) SH LV NW. destruct LV as (m' & c & Nc & Rc & LV).
  assert (m' = m) by (apply (block_of_unique cs q); auto; exists c; auto). subst m'.
  destruct Bk as (b & Nb & Rb). exists k, b. conjs; auto; try lia.
  destruct TR as [(-> & ->)|((b' & Nb' & ED) & c' & Nc' & FC)].
  - assert (c = b) by congruence. subst c. rewrite (slice_cons f p (last b) x) by (auto; lia).
    destruct LV as [LV|(L1 & L2)]; [left; now apply exposed_tail|right; split; [now apply passes_cons|exact L2]].
  - assert (b' = b) by congruence. assert (c' = c) by congruence. subst b' c' q.
    assert (LA : live_after f cs (LReg r) k).
    { destruct LV as [LV|(L1 & L2)].
      - eapply live_here; eauto; exists b; auto.
      - eapply live_later; eauto; exists b; auto. }
    destruct (Nat.eq_dec p (last b)) as [E|D].
    + subst p. rewrite (slice_last f _ x N). right. split; [|exact LA]. intros j [<-|[]]; exact NW.
    + (* a case in the middle of a block *)
      destruct (segs_nth f _ _ _ _ SG k b Nb) as (BB & _). cbn [Nat.add] in BB.
      destruct SH as [SH|SH].
      { assert (m = k).
        { apply (block_of_unique cs (first c)); auto. exists b. split; [exact Nb|lia]. }
        subst m. assert (c = b) by congruence. subst c. lia. }
      assert (O : op x = MACRO_CASE).
      { pose proof (blk_end _ _ _ BB). destruct (nth_error f (S p)) as [z|] eqn:Nz; [|apply nth_error_None in Nz; lia].
        destruct (blk_inner _ _ _ BB (S p) z ltac:(lia) Nz) as (_ & T). cbn [Nat.sub] in T. rewrite Nat.sub_0_r in T.
        unfold is_terminator in T. rewrite N in T. unfold label_of in SH. destruct (op x); try discriminate; reflexivity. }
      right. split; [|exact LA]. intros j J. apply slice_nth in J as (d & Ld & Nd); [|lia].
      destruct (cases_run k b p x BB (proj1 Rb) N O d Ld) as (y & Ny & Oy). assert (y = j) by congruence. subst y.
      intros (W1 & _). unfold reads_result in W1. now rewrite Oy in W1.
Qed.

Lemma alike_step cs s t : exits_abort prim -> labels_marked f -> results_ok f -> cfg_ok f cs ->
  on_track cs (pc s) -> alike cs s t ->
  match step f s with
  | Next _ s' => exists t', step f t = Next W t' /\ alike cs s' t'
  | o => step f t = o
  end.
Proof.
  intros XA LM RO OK TR (AP & AF & AA & AW & AR). pose proof (ok_segs _ _ OK) as SG.
  destruct (nth_error f (pc s)) as [x|] eqn:N.
  2:{ unfold JitModel.step. rewrite AP, N. reflexivity. }
  assert (Lp : pc s < length f) by (apply nth_error_Some; congruence). specialize (AR Lp).
  destruct (segs_cover f 0 0 cs _ (pc s) SG) as (k & b & Nb & Rb); [lia|].
  assert (HD : forall r, reads x (LReg r) -> regs t r = regs s r).
  { intros r R. apply AR. exists k, b. conjs; auto; try lia. left. rewrite (slice_cons f _ _ x) by (auto; lia).
    now apply exposed_head. }
  destruct (step f s) as [s'| |] eqn:ST.
  - pose proof (step_shape s s' XA ST) as (x' & N' & _ & _ & _ & SH). assert (x' = x) by congruence. subst x'.
    pose proof (flow_step cs s s' XA LM OK TR ST) as FL.
    unfold JitModel.step in ST |- *. rewrite AP, N in *. cbn zeta in *.
    rewrite (fetch_alike _ (arg1 x) (regs s) (regs t)) by (intros r R; apply HD; cbn; auto).
    rewrite (fetch_alike _ (arg2 x) (regs s) (regs t)) by (intros r R; apply HD; cbn; auto).
    destruct (fetch (mode1 (op x)) (regs s) (arg1 x)) as [a|]; [|discriminate].
    destruct (fetch (mode2 (op x)) (regs s) (arg2 x)) as [bb|]; [|discriminate].
    assert (RV : (if reads_result x then option_map (regs t) (result x) else Some 0%Z) =
                 (if reads_result x then option_map (regs s) (result x) else Some 0%Z)).
    { destruct (reads_result x) eqn:RR; [|reflexivity]. destruct (result x) as [r|] eqn:RX; [|reflexivity].
      cbn. rewrite HD; [reflexivity|]. cbn. auto. }
    rewrite RV. destruct (if reads_result x then option_map (regs s) (result x) else Some 0%Z) as [rv|]; [|discriminate].
    rewrite AF, AA, AW. destruct (exec W prim (op x) (sz x) (cc x) a bb rv (flag s) (args s) (outside s)) as [e|] eqn:E; [|discriminate].
    assert (LIVE : pc s' < length f -> forall r, live_at cs (pc s') r -> ~ writes x (LReg r) -> regs t r = regs s r).
    { intros L r LV NW. apply AR. destruct (FL L) as (T1 & _). eapply live_back; eauto. destruct SH as [(SH & _)|SH]; auto. }
    pose proof (exec_res W prim _ _ _ _ _ _ _ _ _ _ E) as ER.
    unfold apply in ST |- *. destruct (e_done W e); [discriminate|].
    destruct (e_res W e) as [v|] eqn:RE.
    + destruct ER as (PR & _). destruct (result x) as [r|] eqn:RX; [|discriminate]. injection ST as <-.
      eexists. split; [reflexivity|]. rewrite AP. split; [reflexivity|]. cbn [JitModel.pc JitModel.regs JitModel.flag JitModel.args JitModel.outside] in *.
      conjs; auto. intros L r' LV. unfold upd. destruct (Nat.eqb_spec r' r) as [->|D]; [reflexivity|].
      apply (LIVE L r' LV). cbn. intros (_ & H). congruence.
    + injection ST as <-. eexists. split; [reflexivity|]. rewrite AP. split; [reflexivity|].
      cbn [JitModel.pc JitModel.regs JitModel.flag JitModel.args JitModel.outside] in *.
      conjs; auto. intros L r LV. apply (LIVE L r LV). cbn. intros (H1 & H2).
      destruct (RO x r (nth_error_In _ _ N) H2) as [H|H]; congruence.
  - unfold JitModel.step in ST |- *. rewrite AP, N in *.
    rewrite (fetch_alike _ (arg1 x) (regs s) (regs t)) by (intros r R; apply HD; cbn; auto).
    rewrite (fetch_alike _ (arg2 x) (regs s) (regs t)) by (intros r R; apply HD; cbn; auto).
    destruct (fetch (mode1 (op x)) (regs s) (arg1 x)) as [a|]; [|discriminate].
    destruct (fetch (mode2 (op x)) (regs s) (arg2 x)) as [bb|]; [|discriminate].
    assert (RV : (if reads_result x then option_map (regs t) (result x) else Some 0%Z) =
                 (if reads_result x then option_map (regs s) (result x) else Some 0%Z)).
    { destruct (reads_result x) eqn:RR; [|reflexivity]. destruct (result x) as [r|] eqn:RX; [|reflexivity].
      cbn. rewrite HD; [reflexivity|]. cbn. auto. }
    rewrite RV. destruct (if reads_result x then option_map (regs s) (result x) else Some 0%Z) as [rv|]; [|discriminate].
    rewrite AF, AA, AW. destruct (exec W prim (op x) (sz x) (cc x) a bb rv (flag s) (args s) (outside s)) as [e|] eqn:E; [|discriminate].
    unfold apply in ST |- *. destruct (e_done W e); [exact ST|].
    destruct (e_res W e); [destruct (result x)|]; discriminate.
  - unfold JitModel.step in ST |- *. rewrite AP, N in *.
    rewrite (fetch_alike _ (arg1 x) (regs s) (regs t)) by (intros r R; apply HD; cbn; auto).
    rewrite (fetch_alike _ (arg2 x) (regs s) (regs t)) by (intros r R; apply HD; cbn; auto).
    destruct (fetch (mode1 (op x)) (regs s) (arg1 x)) as [a|]; [|reflexivity].
    destruct (fetch (mode2 (op x)) (regs s) (arg2 x)) as [bb|]; [|reflexivity].
    assert (RV : (if reads_result x then option_map (regs t) (result x) else Some 0%Z) =
                 (if reads_result x then option_map (regs s) (result x) else Some 0%Z)).
    { destruct (reads_result x) eqn:RR; [|reflexivity]. destruct (result x) as [r|] eqn:RX; [|reflexivity].
      cbn. rewrite HD; [reflexivity|]. cbn. auto. }
    rewrite RV. destruct (if reads_result x then option_map (regs s) (result x) else Some 0%Z) as [rv|]; [|reflexivity].
    rewrite AF, AA, AW. destruct (exec W prim (op x) (sz x) (cc x) a bb rv (flag s) (args s) (outside s)) as [e|] eqn:E; [|reflexivity].
    unfold apply in ST |- *. destruct (e_done W e); [discriminate|].
    destruct (e_res W e); [destruct (result x)|]; try discriminate. reflexivity.
Qed.

Lemma on_track_step cs s s' : exits_abort prim -> labels_marked f -> cfg_ok f cs ->
  on_track cs (pc s) -> step f s = Next W s' -> on_track cs (pc s').
Proof.
  intros XA LM OK TR ST. destruct (Nat.lt_ge_cases (pc s') (length f)) as [L|L].
  - apply (flow_step cs s s'); auto.
  - intros k b N R2. destruct (segs_nth f _ _ _ _ (ok_segs _ _ OK) k b N) as (BB & _).
    pose proof (blk_end _ _ _ BB). lia.
Qed.

Lemma alike_run cs : exits_abort prim -> labels_marked f -> results_ok f -> cfg_ok f cs ->
  forall n s t, on_track cs (pc s) -> alike cs s t ->
  match run n f s with
  | Next _ s' => exists t', run n f t = Next W t' /\ same_view s' t'
  | o => run n f t = o
  end.
Proof.
  intros XA LM RO OK. induction n as [|n IH]; intros s t TR AL.
  - cbn. exists t. split; [reflexivity|]. destruct AL as (A1 & _ & A2 & A3 & _). repeat split; auto.
  - cbn [JitModel.run]. pose proof (alike_step cs s t XA LM RO OK TR AL) as ST.
    destruct (step f s) as [s'| |] eqn:E.
    + destruct ST as (t' & -> & AL'). apply IH; [|exact AL']. eapply on_track_step; eauto.
    + now rewrite ST.
    + now rewrite ST.
Qed.
End Flow.
