(* C30: register allocation. *)
From Coq Require Import List ZArith NArith Arith Bool Lia Sorting.Permutation Sorting.Sorted.
From Verif Require Import Base JitModel JitSpec JitPassProps CfgModel CfgSpec CfgProofs CfgLive CfgFlow CfgProps
  LscanModel LscanSpec LscanProofs LscanFlow.
Import ListNotations.
Local Opaque rint cnt allowed.

Lemma begin_inv bm : linv bm (-1) [] (Lstate (fun _ => None) [] (allowed bm) STACK_BASE).
Proof.
  constructor; cbn [active slots freeregs next_spill]; try (cbn [In]; tauto); auto.
  - constructor.
  - constructor.
  - cbn [length]. apply cnt_allowed.
Qed.

Lemma perm_filter {A} (g : A -> bool) l m : Permutation l m -> Permutation (filter g l) (filter g m).
Proof.
  intros P. induction P as [|x l m P IH|x y l|l m k P1 IH1 P2 IH2]; cbn [filter]; auto.
  - destruct (g x); auto.
  - destruct (g x), (g y); auto using perm_swap.
  - etransitivity; eauto.
Qed.

Lemma segs_head f k p b l q : segs f k p (b :: l) q -> first b = p /\ blk f k b.
Proof.
  remember (b :: l) as bl eqn:E. intros H. destruct H as [k p|k c bs q B H]; [discriminate|]. injection E as -> ->. auto.
Qed.

Lemma lscan_run bm l sorted : sorted_from l sorted -> NoDup (map ireg l) -> 0 < rint bm ->
  exists sl n st q, lscan bm sorted = Ok (sl, n) /\ linv bm q (rev sorted ++ []) st /\ sl = slots st /\ n = next_spill st - STACK_BASE /\
    ((forall x, pressure l x <= rint bm) -> (forall i, In i l -> proper i) -> n = 0).
Proof.
  intros (P & SS) ND R.
  assert (PR : Permutation l (rev sorted ++ [])) by (rewrite app_nil_r; etransitivity; [exact P|apply Permutation_rev]).
  assert (FL : exists m, forall i, In i sorted -> (m <= ifirst i)%Z).
  { clear. induction sorted as [|a s (m & H)]; [exists 0%Z; intros i []|]. exists (Z.min m (ifirst a)).
    intros i [<-|I0]; [lia|]. specialize (H i I0). lia. }
  destruct FL as (m & FL).
  assert (B : linv bm m [] (Lstate (fun _ => None) [] (allowed bm) STACK_BASE)).
  { destruct (begin_inv bm). constructor; auto. }
  destruct (alloc_all_ok bm sorted m [] _ B R) as (st & q & E & IV & NS); auto.
  - eapply Permutation_NoDup; [|exact ND]. now apply Permutation_map.
  - cbn [In]. tauto.
  - exists (slots st), (next_spill st - STACK_BASE), st, q. unfold lscan. rewrite E. cbn [bind].
    split; [reflexivity|]. split; [exact IV|]. split; [reflexivity|]. split; [reflexivity|].
    intros PQ PP. rewrite NS; [cbn; lia| |].
    + intros x. unfold pressure. rewrite <- (Permutation_length (perm_filter _ _ _ PR)). apply PQ.
    + intros i I0. assert (I1 : In i l) by (eapply Permutation_in; [symmetry; exact PR|exact I0]).
      destruct (PP i I1) as [H|H]; [left; lia|]. right. intros j J.
      assert (J1 : In j l) by (eapply Permutation_in; [symmetry; exact PR|exact J]).
      destruct (PP j J1) as [H'|H']; [lia|]. rewrite (proj1 H), (proj2 H'). reflexivity.
Qed.

(* With at least one register allowed the allocation succeeds.  Every register gets
   an allowed machine register or a spill slot, and registers whose intervals overlap get
   different ones. *)
Theorem C30_alloc : forall bm l sorted, sorted_from l sorted -> NoDup (map ireg l) -> 0 < rint bm ->
  exists sl n, lscan bm sorted = Ok (sl, n) /\
    (forall i, In i l -> exists s, sl (ireg i) = Some s /\ (allowed bm s = true \/ STACK_BASE <= s < STACK_BASE + n)) /\
    (forall i j, In i l -> In j l -> ireg i <> ireg j -> overlap i j -> sl (ireg i) <> sl (ireg j)).
Proof.
  intros bm l sorted SF ND R. destruct (lscan_run bm l sorted SF ND R) as (sl & n & st & q & E & IV & -> & -> & _).
  assert (IN : forall i, In i l -> In i (rev sorted ++ [])).
  { intros i I0. rewrite app_nil_r. apply -> in_rev. eapply Permutation_in; [apply SF|exact I0]. }
  exists (slots st), (next_spill st - STACK_BASE). split; [exact E|]. split.
  - intros i I0. destruct (l_done _ _ _ _ IV i (IN i I0)) as [A|[(s & A & B)|(s & A & B & _)]].
    + destruct (l_slot _ _ _ _ IV i A) as (s & X & Y & _). eauto.
    + exists s. split; [exact A|]. right. lia.
    + exists s. auto.
  - intros i j I0 J0. apply (l_safe _ _ _ _ IV); auto.
Qed.

(* Nothing is spilled unless more registers are in use at some point than are allowed. *)
Theorem C30_no_spills : forall bm l sorted, sorted_from l sorted -> NoDup (map ireg l) -> 0 < rint bm ->
  (forall i, In i l -> proper i) -> (forall p, pressure l p <= rint bm) ->
  exists sl, lscan bm sorted = Ok (sl, 0).
Proof.
  intros bm l sorted SF ND R PP PQ. destruct (lscan_run bm l sorted SF ND R) as (sl & n & st & q & E & _ & _ & _ & Z0).
  exists sl. now rewrite <- (Z0 PQ PP).
Qed.

Lemma interval_regs nregs (li : ranges) : map ireg (map (fun r => Interval r (fst (li r)) (snd (li r))) (seq 0 nregs)) = seq 0 nregs.
Proof. rewrite map_map. cbn. apply map_id. Qed.

(* If the flag is not live across blocks the intervals are computed; there is one for
   each register and it is proper. *)
Theorem C30_intervals : forall f nregs bs lo,
  get_cfg f = Ok bs -> f <> [] -> labels_marked f -> regs_below nregs f ->
  (Z.of_nat (length f) <= UINT_MAX)%Z -> flag_local nregs bs (lin_of nregs f bs lo) lo ->
  exists l, intervals nregs f bs (lin_of nregs f bs lo) lo = Ok l /\
    map ireg l = seq 0 nregs /\ (forall i, In i l -> proper i).
Proof.
  intros f nregs bs lo E NE LM RB LE FL. assert (L : 0 < length f) by (destruct f; [congruence|cbn; lia]).
  destruct (get_cfg_ok f L (labels_in f LM)) as (cs & E' & OK). assert (cs = bs) by congruence. subst cs.
  destruct (intervals_ok nregs f bs (lin_of nregs f bs lo) lo RB OK L FL) as (li & v & EI & _ & _ & SN & _).
  eexists. split; [exact EI|]. split; [apply interval_regs|].
  intros i I0. apply in_map_iff in I0 as (r & <- & _). destruct (SN LE r) as [H|H].
  - right. rewrite H. split; reflexivity.
  - left. exact H.
Qed.

(* Running the code on its slots is the same as running it on its registers, whatever
   else the slots hold: the registers live at the beginning have to be in their slots. *)
Theorem C30_allocated_code : forall W cpool cover prim f nregs bm bs lo l sorted sl n rg rg' fl ar w,
  get_cfg f = Ok bs -> f <> [] -> labels_marked f -> results_ok f -> regs_below nregs f -> @exits_abort W prim ->
  liveness nregs (map (node_of nregs f) bs) = Ok lo ->
  flag_local nregs bs (lin_of nregs f bs lo) lo ->
  intervals nregs f bs (lin_of nregs f bs lo) lo = Ok l -> sorted_from l sorted ->
  0 < rint bm -> lscan bm sorted = Ok (sl, n) ->
  (forall r, lin_of nregs f bs lo 0 r = true -> rg' (slot_of sl r) = rg r) ->
  forall m, match run W cpool cover prim m f (start W rg fl ar w) with
            | Next _ s' => exists t', run W cpool cover prim m (rename (slot_of sl) f) (start W rg' fl ar w) = Next W t' /\ same_view s' t'
            | o => run W cpool cover prim m (rename (slot_of sl) f) (start W rg' fl ar w) = o
            end.
Proof.
  intros W cpool cover prim f nregs bm bs lo l sorted sl n rg rg' fl ar w E NE LM RO RB XA EL FL EI SF R ES ST m.
  assert (L : 0 < length f) by (destruct f; [congruence|cbn; lia]).
  destruct (get_cfg_ok f L (labels_in f LM)) as (cs & E' & OK). assert (cs = bs) by congruence. subst cs.
  destruct (intervals_ok nregs f bs (lin_of nregs f bs lo) lo RB OK L FL) as (li & v & EI' & V0 & CV & _ & OUT).
  assert (l = map (fun r => Interval r (fst (li r)) (snd (li r))) (seq 0 nregs)) by congruence. subst l. clear EI EI'.
  assert (ND : NoDup (map ireg (map (fun r => Interval r (fst (li r)) (snd (li r))) (seq 0 nregs)))) by (rewrite interval_regs; apply seq_NoDup).
  destruct (C30_alloc bm _ sorted SF ND R) as (sl' & n' & ES' & DEF & DIS).
  assert (sl' = sl) by congruence. subst sl'. clear ES'.
  assert (LO : forall k, k < length bs -> forall r, r < nregs -> (lo k r = true <-> live_after f bs (LReg r) k)).
  { intros k Lk r Lr. destruct (C31_live_out f nregs bs) as (lo' & E2 & H). assert (lo' = lo) by congruence. subst lo'. now apply H. }
  assert (LI : forall k b, nth_error bs k = Some b -> forall r, r < nregs ->
     (lin_of nregs f bs lo k r = true <-> live_before f bs (LReg r) k)).
  { intros k b N r Lr. unfold lin_of. rewrite N. now apply C31_live_in. }
  assert (LH : forall p r, p < length f -> on_visited bs v p -> live_at f bs p r -> hit li r p).
  { intros p r Lp OV LV. eapply live_hit; eauto. intros k K. now apply CV. }
  assert (B0 : exists b, nth_error bs 0 = Some b /\ first b = 0 /\ blk f 0 b).
  { pose proof (ok_segs _ _ OK) as SG. destruct bs as [|b bs]; [inversion SG; lia|]. exists b.
    destruct (segs_head _ _ _ _ _ _ SG). auto. }
  destruct B0 as (b0 & N0 & F0 & BB). pose proof (blk_order _ _ _ BB) as BO.
  assert (AT : block_of bs 0 0) by (exists b0; split; [exact N0|lia]).
  assert (U0 : forall k, block_of bs 0 k -> k = 0) by (intros k B; eapply block_of_unique; [apply OK|exact B|exact AT]).
  apply (renamed_run W cpool cover prim f bs nregs (slot_of sl) li lo v); auto.
  - intros k K. now apply CV.
  - intros k K b mm N M. destruct (CV k K) as (_ & C). eapply C; eauto.
  - intros r r' p D H1 H2.
    assert (X : forall x, x < nregs -> In (Interval x (fst (li x)) (snd (li x))) (map (fun r => Interval r (fst (li r)) (snd (li r))) (seq 0 nregs))).
    { intros x Lx. apply in_map_iff. exists x. split; [reflexivity|]. apply in_seq. lia. }
    destruct (Nat.lt_ge_cases r nregs) as [L1|L1]; [|destruct (OUT r p L1 H1)].
    destruct (Nat.lt_ge_cases r' nregs) as [L2|L2]; [|destruct (OUT r' p L2 H2)].
    specialize (DIS _ _ (X r L1) (X r' L2) D (ex_intro _ (Z.of_nat p) (conj H1 H2))). cbn [ireg] in DIS.
    destruct (DEF _ (X r L1)) as (s1 & S1 & _). destruct (DEF _ (X r' L2)) as (s2 & S2 & _). cbn [ireg] in S1, S2.
    unfold slot_of. rewrite S1, S2 in *. congruence.
  - intros k b N Rk i x Ri. cbn [pc start] in Ri. lia.
  - intros k B. apply U0 in B. now subst k.
  - unfold renamed. cbn [pc flag args outside start regs]. conjs; auto. intros _ r LV. apply ST.
    pose proof (live_reg f bs nregs 0 r RB LV) as Lr.
    destruct LV as (k & b & N & Rk & LV). assert (k = 0) by (apply U0; exists b; auto). subst k.
    assert (b = b0) by congruence. subst b.
    assert (LB : live_before f bs (LReg r) 0) by (exists b0; rewrite F0; auto). apply (LI 0 b0 N0); [exact Lr|exact LB].
Qed.

(* Code whose flag is live from one block to the next: the bit for the flag in the live
   sets is used as the number of a register, and a store outside the array follows. *)
Definition flag_across : prog :=
  [ Ir J_CMP SZ_UNSPEC false CC_EQ None (VReg 0) (VInt 7);
    Ir J_NOP SZ_UNSPEC true CC_NONE None VInvalid VInvalid;
    Ir J_JUMP SZ_UNSPEC false CC_T None (VLabel 1) VInvalid;
    Ir J_RET SZ_UNSPEC false CC_NONE None VInvalid VInvalid ].

Theorem C30_flag_refuted : exists f nregs bs lo, labels_marked f /\ results_ok f /\ regs_below nregs f /\
  get_cfg f = Ok bs /\ liveness nregs (map (node_of nregs f) bs) = Ok lo /\
  intervals nregs f bs (lin_of nregs f bs lo) lo = Fault.
Proof.
  destruct (liveness_ok 1 (map (node_of 1 flag_across) (match get_cfg flag_across with Ok bs => bs | _ => [] end))) as (lo & E & _).
  exists flag_across, 1, (match get_cfg flag_across with Ok bs => bs | _ => [] end), lo. repeat apply conj.
  - clear E. intros i l I0 [X|X]; each I0 ltac:(try discriminate). injection X as <-. cbn. eauto.
  - clear E. intros i r I0 X. each I0 ltac:(cbn in *; auto; discriminate).
  - intros i r I0 R. each I0 ltac:(cbn in R; intuition lia).
  - reflexivity.
  - exact E.
  - revert E. vm_compute. intros E. injection E as <-. reflexivity.
Qed.

Local Transparent rint cnt allowed.

(* With no allowed register the allocation reads outside its list. *)
Theorem C30_no_registers_refuted : exists bm l, sorted_from l l /\ NoDup (map ireg l) /\ rint bm = 0 /\ lscan bm l = Fault.
Proof.
  exists 4294967295%N, [Interval 0 0%Z 1%Z]. repeat apply conj; try (vm_compute; reflexivity).
  - repeat constructor.
  - repeat constructor. cbn. tauto.
Qed.

(* ---- the demonstration: five registers, two machine registers ---- *)

Definition demo_bs := match get_cfg demo with Ok bs => bs | _ => [] end.
Definition demo_lo := match liveness 5 (map (node_of 5 demo) demo_bs) with Ok lo => lo | _ => fun _ => rempty end.
Definition two : N := 4294967292%N.
Definition demo_sorted : list interval :=
  [ Interval 0 0%Z 10%Z; Interval 1 1%Z 11%Z; Interval 2 3%Z 7%Z; Interval 3 4%Z 5%Z; Interval 4 7%Z 7%Z ].

Example demo_intervals : intervals 5 demo demo_bs (lin_of 5 demo demo_bs demo_lo) demo_lo = Ok demo_sorted.
Proof. vm_compute. reflexivity. Qed.

Example demo_lscan_meets :
  get_cfg demo = Ok demo_bs /\ liveness 5 (map (node_of 5 demo) demo_bs) = Ok demo_lo /\
  flag_local 5 demo_bs (lin_of 5 demo demo_bs demo_lo) demo_lo /\
  sorted_from demo_sorted demo_sorted /\ NoDup (map ireg demo_sorted) /\ rint two = 2.
Proof.
  split; [vm_compute; reflexivity|]. split; [vm_compute; reflexivity|]. split.
  2:{ split; [|split; [|vm_compute; reflexivity]].
      - split; [apply Permutation_refl|]. repeat constructor; cbn; lia.
      - repeat constructor; cbn; intuition lia. }
  - intros k Lk. change (length demo_bs) with 3 in Lk.
    assert (K : k = 0 \/ k = 1 \/ k = 2) by lia. destruct K as [->|[->| ->]]; vm_compute; split; reflexivity.
Qed.

(* Slots 0 and 1 are machine registers, 100 and up are on the stack. *)
Example demo_slots : match lscan two demo_sorted with
                     | Ok (sl, n) => (map sl [0; 1; 2; 3; 4], n) = ([Some 101; Some 100; Some 1; Some 0; Some 0], 2)
                     | Fault => False
                     end.
Proof. vm_compute. reflexivity. Qed.

Example demo_allocated :
  match lscan two demo_sorted with
  | Ok (sl, _) => result0 (run0 200 (rename (slot_of sl) demo)
      (start unit (fun _ => 77%Z) false (fun k => if (k =? 0)%nat then 10%Z else 0%Z) tt)) = Some 55%Z
  | Fault => False
  end.
Proof. vm_compute. reflexivity. Qed.

Print Assumptions C30_alloc.
Print Assumptions C30_no_spills.
Print Assumptions C30_intervals.
Print Assumptions C30_allocated_code.
Print Assumptions C30_flag_refuted.
Print Assumptions C30_no_registers_refuted.
