(* C31, C32: the control flow graph and liveness. *)
From Coq Require Import List ZArith Arith Bool Lia.
From Verif Require Import Base JitModel JitSpec JitPassProps CfgModel CfgSpec CfgProofs CfgLive CfgFlow.
Import ListNotations.

(* ---- C32 ---- *)

(* The growing list of edges never goes wrong and gives back what was put in. *)
Theorem C32_edge_lists : forall xs, exists e, add_edges no_edges xs = Ok e /\ ecount e = length xs /\
  forall n x, nth_error xs n = Some x -> get_edge e n = Ok x.
Proof.
  intros xs. destruct (add_edges_ok xs no_edges []) as (e & E & R).
  { split; [reflexivity|]. left. repeat split; auto. }
  cbn [app] in R. exists e. split; [exact E|]. split; [apply R|]. intros n x N.
  destruct (get_edge_ok e xs n R) as (y & G & N'); [apply nth_error_Some; congruence|]. congruence.
Qed.

Lemma labels_in f : labels_marked f -> forall x t, In x f -> label_of x = Some t -> t < length f.
Proof.
  intros LM x t I0 L. destruct (LM x t I0 (label_of_arg _ _ L)) as (j & N & _). apply nth_error_Some. congruence.
Qed.

(* The graph is built, its blocks are the instructions in order, and looking up an
   instruction gives its block. *)
Theorem C32_partition : forall f, f <> [] -> labels_marked f ->
  exists bs, get_cfg f = Ok bs /\ partition (length f) bs /\
    (forall pos, pos < length f -> exists k, block_of bs pos k) /\
    (forall pos k, block_of bs pos k -> block_for bs pos = Ok k).
Proof.
  intros f NE LM. assert (L : 0 < length f) by (destruct f; [congruence|cbn; lia]).
  destruct (get_cfg_ok f L (labels_in f LM)) as (cs & E & OK). pose proof (ok_segs _ _ OK) as SG.
  exists cs. split; [exact E|]. split; [|split].
  - assert (NC : cs <> []) by (intros ->; inversion SG; lia).
    split; [|split; [|split]].
    + destruct cs as [|b cs]; [congruence|]. exists b. split; [reflexivity|].
      inversion SG as [|k0 b0 bs0 q0 B0 S0 Q1 Q2 Q3 Q4]. reflexivity.
    + intros k b N. destruct (segs_nth f _ _ _ _ SG k b N) as (B & _). apply B.
    + intros k b c N1 N2. exact (segs_next f _ _ _ _ SG k b c N1 N2).
    + exact (segs_last f _ _ _ _ SG NC).
  - intros pos P. apply (segs_cover f 0 0 cs (length f) pos SG). lia.
  - intros pos k B. exact (block_for_ok f cs pos k SG B).
Qed.

(* Whenever running code goes from one instruction to another it stays in a block or
   follows an edge. *)
Theorem C32_transfers : forall W cpool cover prim f bs rg fl ar w n s s',
  get_cfg f = Ok bs -> labels_marked f -> @exits_abort W prim ->
  run W cpool cover prim n f (start W rg fl ar w) = Next W s ->
  step W cpool cover prim f s = Next W s' -> pc W s' < length f ->
  transfer_ok bs (pc W s) (pc W s').
Proof.
  intros W cpool cover prim f bs rg fl ar w n s s' E LM XA R ST L.
  assert (Lf : 0 < length f) by lia.
  destruct (get_cfg_ok f Lf (labels_in f LM)) as (cs & E' & OK). assert (cs = bs) by congruence. subst cs.
  eapply flow_step; eauto. eapply flow_run; eauto. reflexivity.
Qed.

(* There are no other edges than those that can be taken. *)
Theorem C32_edges : forall f bs k m, get_cfg f = Ok bs -> f <> [] -> labels_marked f ->
  edge bs k m -> edge_real f bs k m.
Proof.
  intros f bs k m E NE LM (b & N & M). assert (L : 0 < length f) by (destruct f; [congruence|cbn; lia]).
  destruct (get_cfg_ok f L (labels_in f LM)) as (cs & E' & OK). assert (cs = bs) by congruence. subst cs.
  pose proof (ok_segs _ _ OK) as SG. destruct (ok_real _ _ OK k b m N M) as [(-> & LL & FA)|(i & x & t & R & Nx & Lx & (c & Nc & Rc))].
  - assert (exists c, nth_error bs (S k) = Some c) as (c & Nc).
    { destruct (nth_error bs (S k)) eqn:X; [eauto|]. apply nth_error_None in X.
      destruct (segs_last f _ _ _ _ SG) as (e & Ne & Le); [intros ->; destruct k; discriminate|].
      assert (k = length bs - 1) by (assert (k < length bs) by (apply nth_error_Some; congruence); lia). subst k.
      assert (e = b) by congruence. subst e. lia. }
    exists b, c. conjs; auto. left. split; [reflexivity|].
    destruct (segs_nth f _ _ _ _ SG k b N) as (BB & _). cbn [Nat.add] in BB.
    destruct FA as (x & Nx & FA). exists x. split; [exact Nx|].
    destruct (is_terminator f (last b)) eqn:T.
    + destruct FA as [(O & C)|O]; rewrite O; auto.
    + destruct FA as (F1 & F2).
      assert (NA : forall i y, first b <= i <= last b -> nth_error f i = Some y -> will_abort y = false).
      { intros i y R Ny. destruct (will_abort y) eqn:WA; [|reflexivity].
        destruct (blk_flags _ _ _ BB) as (_ & FB). rewrite (proj2 FB) in F2; [discriminate|]. exists i, y. split; [lia|auto]. }
      unfold is_terminator in T. rewrite Nx in T. destruct (op x); auto; discriminate T.
  - exists b, c. conjs; auto. right. exists i, x. conjs; try apply R; auto.
    assert (FC : first c = t) by (eapply label_first; eauto; exists x; split; [eapply nth_error_In; eauto|exact Lx]).
    unfold label_of in Lx. destruct (op x); try discriminate.
    + left. split; [reflexivity|]. destruct (arg1 x); try discriminate. congruence.
    + right. split; [reflexivity|]. destruct (arg2 x); try discriminate. congruence.
Qed.

(* A block's list of predecessors is exactly the blocks with an edge to it. *)
Theorem C32_predecessors : forall f bs k m c, get_cfg f = Ok bs -> f <> [] -> labels_marked f ->
  nth_error bs m = Some c -> (In k (ins c) /\ k < length bs <-> edge bs k m).
Proof.
  intros f bs k m c E NE LM N. assert (L : 0 < length f) by (destruct f; [congruence|cbn; lia]).
  destruct (get_cfg_ok f L (labels_in f LM)) as (cs & E' & OK). assert (cs = bs) by congruence. subst cs.
  pose proof (ok_paired _ _ OK k m) as P. assert (Lm : m < length bs) by (apply nth_error_Some; congruence). split.
  - intros (I0 & Lk). destruct P as (_ & P). destruct P as (P & _); [split; [eauto|exact Lk]|]. exact P.
  - intros ED. destruct P as (P & _). destruct P as ((c' & N' & I0) & Lk); [split; [exact ED|exact Lm]|].
    assert (c' = c) by congruence. subst c'. auto.
Qed.

(* ---- C31 ---- *)

(* A register is reported live after a block exactly if there is a path on which it is
   read before it is written. *)
Theorem C31_live_out : forall f nregs bs, exists lo,
  liveness nregs (map (node_of nregs f) bs) = Ok lo /\
  forall k r, k < length bs -> r < nregs -> (lo k r = true <-> live_after f bs (LReg r) k).
Proof.
  intros f nregs bs. destruct (liveness_ok nregs (map (node_of nregs f) bs)) as (lo & E & H).
  exists lo. split; [exact E|]. intros k r Lk Lr. rewrite H by lia.
  exact (nlive_live nregs f bs (LReg r) Lr k Lk).
Qed.

(* The same before a block. *)
Theorem C31_live_in : forall f nregs bs lo k b r,
  liveness nregs (map (node_of nregs f) bs) = Ok lo -> nth_error bs k = Some b -> r < nregs ->
  (live_in (node_of nregs f b) (lo k) r = true <-> live_before f bs (LReg r) k).
Proof.
  intros f nregs bs lo k b r E N L. apply (live_in_ok nregs f bs lo (LReg r) k b); auto. cbn. lia.
Qed.

(* So at the beginning of a block the registers not reported live do not matter. *)
Theorem C31_dead : forall W cpool cover prim f nregs bs lo rg fl ar w n s k b rg',
  get_cfg f = Ok bs -> liveness nregs (map (node_of nregs f) bs) = Ok lo ->
  labels_marked f -> results_ok f -> regs_below nregs f -> @exits_abort W prim ->
  run W cpool cover prim n f (start W rg fl ar w) = Next W s ->
  nth_error bs k = Some b -> pc W s = first b ->
  (forall r, live_in (node_of nregs f b) (lo k) r = true -> rg' r = regs W s r) ->
  let t := State W (pc W s) rg' (flag W s) (args W s) (outside W s) in
  forall m, match run W cpool cover prim m f s with
            | Next _ s' => exists t', run W cpool cover prim m f t = Next W t' /\ same_view s' t'
            | o => run W cpool cover prim m f t = o
            end.
Proof.
  intros W cpool cover prim f nregs bs lo rg fl ar w n s k b rg' E EL LM RO RB XA R N P D t m.
  assert (L : f = [] \/ 0 < length f) by (destruct f; [auto|right; cbn; lia]).
  destruct L as [->|L].
  { destruct m; cbn; [|unfold t, step; cbn; destruct (pc W s); reflexivity]. exists t. split; [reflexivity|]. repeat split; reflexivity. }
  destruct (get_cfg_ok f L (labels_in f LM)) as (cs & E' & OK). assert (cs = bs) by congruence. subst cs.
  assert (LT : forall i y r, In i f -> reads i y -> y = LReg r -> r < nregs).
  { intros i y r I0 RD ->. apply (RB i r I0). unfold ir_regs. rewrite !in_app_iff. cbn in RD.
    destruct RD as [RD|[RD|(_ & RD)]]; auto. right. right. rewrite RD. now left. }
  apply (alike_run W cpool cover prim f bs); auto.
  - eapply flow_run; eauto. reflexivity.
  - repeat apply conj; try reflexivity. intros Lp r LV. cbn [regs t].
    destruct LV as (k' & b' & N' & R' & LV).
    assert (k' = k).
    { apply (block_of_unique f bs (pc W s)); [apply OK|exists b'; auto|]. exists b. split; [exact N|].
      destruct (segs_nth f _ _ _ _ (ok_segs _ _ OK) k b N) as (BB & _). pose proof (blk_order _ _ _ BB). lia. }
    subst k'. assert (b' = b) by congruence. subst b'. rewrite P in LV.
    assert (LB : live_before f bs (LReg r) k) by (exists b; split; [exact N|exact LV]).
    assert (Lr : r < nregs).
    { assert (X : forall j, live_after f bs (LReg r) j -> r < nregs).
      { intros j H. induction H as [j m0 b0 _ _ (a & i & c & Es & RD & _)|]; [|assumption].
        apply (LT i (LReg r) r); auto. apply (slice_in f (first b0) (last b0)). rewrite Es. apply in_app_iff. right. now left. }
      destruct LV as [(a & i & c & Es & RD & _)|(_ & LV)]; [|eapply X; eauto].
      apply (LT i (LReg r) r); auto. apply (slice_in f (first b) (last b)). rewrite Es. apply in_app_iff. right. now left. }
    apply D. now apply (C31_live_in f nregs bs lo k b r).
Qed.

(* The flag is followed in the same way, as register [nregs], if no instruction both
   reads and writes it. *)
Theorem C31_flag_partial : forall f nregs bs, regs_below nregs f -> no_chained_compare f ->
  exists lo, liveness nregs (map (node_of nregs f) bs) = Ok lo /\
  forall k, k < length bs -> (lo k nregs = true <-> live_after f bs LFlag k).
Proof.
  intros f nregs bs RB NC. destruct (liveness_ok nregs (map (node_of nregs f) bs)) as (lo & E & H).
  exists lo. split; [exact E|]. intros k Lk. rewrite H by lia.
  apply (nlive_live nregs f bs LFlag); [|exact Lk]. split; [exact RB|exact NC].
Qed.

(* A chained comparison reads the flag, but is only recorded as writing it: the flag is
   not reported live after a block although the next one reads it first. *)
Definition chained : prog :=
  [ Ir J_CMP SZ_UNSPEC false CC_EQ None (VReg 0) (VInt 7);
    Ir J_CCMP SZ_UNSPEC true CC_EQ None (VReg 1) (VInt 7);
    Ir J_CSET SZ_UNSPEC false CC_NONE (Some 0) VInvalid VInvalid;
    Ir J_SEND SZ_UNSPEC false CC_NONE None (VInt 0) (VReg 0);
    Ir J_RET SZ_UNSPEC false CC_NONE None VInvalid VInvalid ].

Theorem C31_flags_refuted : exists f nregs bs lo, regs_below nregs f /\ labels_marked f /\
  get_cfg f = Ok bs /\ liveness nregs (map (node_of nregs f) bs) = Ok lo /\
  live_after f bs LFlag 0 /\ lo 0 nregs = false.
Proof.
  destruct (liveness_ok 2 (map (node_of 2 chained) (match get_cfg chained with Ok bs => bs | _ => [] end))) as (lo & E & H).
  exists chained, 2, (match get_cfg chained with Ok bs => bs | _ => [] end), lo. repeat apply conj.
  - intros i r I0 R. each I0 ltac:(cbn in R; intuition lia).
  - intros i l I0 [X|X]; each I0 ltac:(discriminate).
  - reflexivity.
  - exact E.
  - eapply (live_here _ _ _ 0 1); [eexists; split; [reflexivity|now left]|reflexivity|].
    cbn. eexists [], _, _. split; [reflexivity|]. split; [reflexivity|intros j []].
  - clear H. revert E. vm_compute. intros E. injection E as <-. reflexivity.
Qed.

(* ---- code that meets the conditions ---- *)

(* A loop. *)
Example demo_blocks : get_cfg demo = Ok
  [ Block 0 1 false false [1] []; Block 2 10 false false [2; 1] [0; 1]; Block 11 12 false true [] [1] ].
Proof. reflexivity. Qed.

Example demo_conditions : labels_marked demo /\ results_ok demo /\ regs_below 5 demo /\ exits_abort no_prim.
Proof.
  destruct demo_meets as (A & B & _ & _ & C & _). repeat apply conj; auto. intros s c a b rv fl ar w _. reflexivity.
Qed.

(* Registers 0 and 1 go round the loop, the others are dead at its ends. *)
Example demo_live : forall lo, liveness 5 (map (node_of 5 demo)
    (match get_cfg demo with Ok bs => bs | _ => [] end)) = Ok lo ->
  map (fun k => filter (lo k) (seq 0 6)) [0; 1; 2] = [[0; 1]; [0; 1]; []].
Proof. vm_compute. intros lo E. injection E as <-. reflexivity. Qed.

(* Cases, which leave a block in the middle, and an exit that does not come back. *)
Definition cases : prog :=
  [ Ir J_RECV SZ_UNSPEC false CC_NONE (Some 0) (VInt 0) VInvalid;
    Ir MACRO_CASE SZ_UNSPEC false CC_NONE (Some 0) (VInt 1) (VLabel 5);
    Ir MACRO_CASE SZ_UNSPEC false CC_NONE (Some 0) (VInt 2) (VLabel 6);
    Ir MACRO_EXIT SZ_UNSPEC false CC_NONE None (VExit 3) VInvalid;
    Ir J_SEND SZ_UNSPEC false CC_NONE None (VInt 1) (VInt 9);
    Ir J_SEND SZ_UNSPEC true CC_NONE None (VInt 0) (VInt 11);
    Ir J_RET SZ_UNSPEC true CC_NONE None VInvalid VInvalid ].

Example cases_blocks : labels_marked cases /\ get_cfg cases = Ok
  [ Block 0 2 false false [1; 2; 3] []; Block 3 4 true false [] [0];
    Block 5 5 false false [3] [0]; Block 6 6 false true [] [2; 0] ].
Proof.
  split; [|reflexivity].
  intros i l I0 X. cbn in I0.
  repeat (destruct I0 as [<-|I0];
    [cbn in X; destruct X as [X|X]; try discriminate X; injection X as <-; eexists; split; reflexivity|]).
  destruct I0.
Qed.

Print Assumptions C32_edge_lists.
Print Assumptions C32_partition.
Print Assumptions C32_transfers.
Print Assumptions C32_edges.
Print Assumptions C32_predecessors.
Print Assumptions C31_live_out.
Print Assumptions C31_live_in.
Print Assumptions C31_dead.
Print Assumptions C31_flag_partial.
Print Assumptions C31_flags_refuted.
