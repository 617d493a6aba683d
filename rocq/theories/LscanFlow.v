(* Register allocation and running code. *)
From Coq Require Import List ZArith NArith Arith Bool Lia Sorting.Permutation Sorting.Sorted.
From Verif Require Import Base JitModel JitSpec JitPassProofs CfgModel CfgSpec CfgProofs CfgLive CfgFlow
  LscanModel LscanSpec LscanProofs.
Import ListNotations.

(* ---------- ranges ---------- *)

Definition hit (li : ranges) (r pos : nat) : Prop := (fst (li r) <= Z.of_nat pos <= snd (li r))%Z.
Definition wider (li li' : ranges) : Prop := forall r, (fst (li' r) <= fst (li r))%Z /\ (snd (li r) <= snd (li' r))%Z.

Lemma wider_refl li : wider li li.
Proof. intros r. lia. Qed.
Lemma wider_trans a b c : wider a b -> wider b c -> wider a c.
Proof. intros H1 H2 r. specialize (H1 r). specialize (H2 r). lia. Qed.
Lemma hit_wider li li' r pos : wider li li' -> hit li r pos -> hit li' r pos.
Proof. intros H (A & B). specialize (H r). unfold hit. lia. Qed.

Lemma grow_range_ok nregs r pos li : r < nregs ->
  exists li', grow_range nregs r pos li = Ok li' /\ wider li li' /\ hit li' r pos.
Proof.
  intros L. unfold grow_range. rewrite (proj2 (Nat.ltb_lt _ _) L). destruct (li r) as [a b] eqn:E.
  eexists. split; [reflexivity|]. split.
  - intros x. unfold upd. destruct (Nat.eqb_spec x r) as [->|]; [rewrite E; cbn; lia|lia].
  - unfold hit, upd. rewrite Nat.eqb_refl. cbn. lia.
Qed.

Lemma grow_all_ok nregs pos : forall rs li, (forall r, In r rs -> r < nregs) ->
  exists li', grow_all nregs rs pos li = Ok li' /\ wider li li' /\ forall r, In r rs -> hit li' r pos.
Proof.
  induction rs as [|r rs IH]; intros li H; cbn [grow_all].
  - exists li. conjs; auto using wider_refl. intros r [].
  - destruct (grow_range_ok nregs r pos li) as (l1 & -> & W1 & T1); [apply H; now left|]. cbn [bind].
    destruct (IH l1) as (l2 & E2 & W2 & T2); [intros x X; apply H; now right|].
    exists l2. conjs; auto; [eauto using wider_trans|]. intros x [<-|X]; [eauto using hit_wider|auto].
Qed.

Lemma ir_ranges_ok nregs pos i li : (forall r, In r (ir_regs i) -> r < nregs) ->
  exists li', ir_ranges nregs pos i li = Ok li' /\ wider li li' /\ forall r, In r (ir_regs i) -> hit li' r pos.
Proof.
  intros H. unfold ir_ranges, ir_regs in *.
  assert (O : forall (o : option nat) (l0 : ranges), (forall r, o = Some r -> r < nregs) ->
            exists l', match o with Some r => grow_range nregs r pos l0 | None => Ok l0 end = Ok l' /\ wider l0 l' /\
              forall r, o = Some r -> hit l' r pos).
  { intros [r|] l0 Ho.
    - destruct (grow_range_ok nregs r pos l0) as (l' & A & B & C); [now apply Ho|]. exists l'. conjs; auto.
      intros x X. injection X as <-. exact C.
    - exists l0. conjs; auto using wider_refl. discriminate. }
  destruct (O (result i) li) as (l1 & E1 & W1 & T1).
  { intros r R. apply H. rewrite !in_app_iff, R. right. right. now left. }
  rewrite E1. cbn [bind].
  destruct (O (get_reg (arg1 i)) l1) as (l2 & E2 & W2 & T2).
  { intros r R. apply H. rewrite !in_app_iff. left. now apply get_reg_in. }
  rewrite E2. cbn [bind].
  destruct (O (get_reg (arg2 i)) l2) as (l3 & E3 & W3 & T3).
  { intros r R. apply H. rewrite !in_app_iff. right. left. now apply get_reg_in. }
  exists l3. conjs; auto; [eauto using wider_trans|]. intros r R. rewrite !in_app_iff in R. destruct R as [R|[R|R]].
  - apply get_reg_in in R. eauto using hit_wider.
  - apply get_reg_in in R. auto.
  - destruct (result i) as [x|]; [|destruct R]. destruct R as [->|[]]. eauto using hit_wider, wider_trans.
Qed.

Lemma irs_ranges_ok nregs : forall l pos li, (forall i r, In i l -> In r (ir_regs i) -> r < nregs) ->
  exists li', irs_ranges nregs pos l li = Ok li' /\ wider li li' /\
    forall d x r, nth_error l d = Some x -> In r (ir_regs x) -> hit li' r (pos + d).
Proof.
  induction l as [|i l IH]; intros pos li H; cbn [irs_ranges].
  - exists li. conjs; auto using wider_refl. intros [|d] x r N; discriminate.
  - destruct (ir_ranges_ok nregs pos i li) as (l1 & -> & W1 & T1); [intros r; apply H; now left|]. cbn [bind].
    destruct (IH (S pos) l1) as (l2 & E2 & W2 & T2); [intros j r J; apply H; now right|].
    exists l2. conjs; auto; [eauto using wider_trans|]. intros [|d] x r N R.
    + cbn in N. injection N as <-. rewrite Nat.add_0_r. eauto using hit_wider.
    + rewrite Nat.add_succ_r. apply (T2 d x r N R).
Qed.

Lemma members_in nregs s r : In r (members nregs s) <-> r <= nregs /\ s r = true.
Proof. unfold members. rewrite filter_In, in_seq. intuition lia. Qed.

Section Walk.
Variable nregs : nat.
Variable f : prog.
Variable bs : list block.
Variable lin lout : nat -> rset.

(* Everything about a block is in its ranges. *)
Definition covered (li : ranges) (k : nat) : Prop :=
  forall b, nth_error bs k = Some b ->
    (forall r, r < nregs -> lin k r = true -> hit li r (first b)) /\
    (forall i x r, first b <= i <= last b -> nth_error f i = Some x -> In r (ir_regs x) -> hit li r i) /\
    (forall r, r < nregs -> lout k r = true -> hit li r (last b)).

Lemma covered_wider li li' k : wider li li' -> covered li k -> covered li' k.
Proof. intros W C b N. destruct (C b N) as (A & B & D). conjs; intros; eauto using hit_wider. Qed.

Lemma nth_slice : forall p q i x, p <= i <= q -> nth_error f i = Some x -> nth_error (slice f p q) (i - p) = Some x.
Proof.
  intros p q i x R N. unfold slice.
  assert (G1 : forall n (l : list ir) d, d < n -> nth_error (firstn n l) d = nth_error l d).
  { induction n as [|n IH]; intros [|y l] [|d] L; try lia; try reflexivity. cbn. apply IH. lia. }
  rewrite G1 by lia. clear G1.
  assert (G2 : forall p (l : list ir) d, nth_error (skipn p l) d = nth_error l (p + d)).
  { induction p0 as [|p0 IH]; intros [|y l] d; try reflexivity; [now destruct d|]. cbn. apply IH. }
  rewrite G2. now replace (p + (i - p)) with i by lia.
Qed.

Lemma block_ranges_ok k b li : regs_below nregs f -> nth_error bs k = Some b ->
  lin k nregs = false -> lout k nregs = false ->
  exists li', block_ranges nregs f b (lin k) (lout k) li = Ok li' /\ wider li li' /\ covered li' k.
Proof.
  intros RB N F1 F2. unfold block_ranges.
  destruct (grow_all_ok nregs (first b) (members nregs (lin k)) li) as (l1 & -> & W1 & T1).
  { intros r R. apply members_in in R as (R1 & R2). destruct (Nat.eq_dec r nregs); [congruence|lia]. }
  cbn [bind].
  destruct (irs_ranges_ok nregs (body f b) (first b) l1) as (l2 & -> & W2 & T2).
  { intros i r I0. apply RB. apply (slice_in f (first b) (last b)), I0. }
  cbn [bind].
  destruct (grow_all_ok nregs (last b) (members nregs (lout k)) l2) as (l3 & -> & W3 & T3).
  { intros r R. apply members_in in R as (R1 & R2). destruct (Nat.eq_dec r nregs); [congruence|lia]. }
  exists l3. conjs; auto; [eauto using wider_trans|]. intros b' N'. assert (b' = b) by congruence. subst b'. conjs.
  - intros r L R. assert (hit l1 r (first b)) by (apply T1, members_in; split; [lia|exact R]). eauto using hit_wider, wider_trans.
  - intros i x r R Nx Rx. pose proof (T2 (i - first b) x r (nth_slice (first b) (last b) i x R Nx) Rx) as H.
    replace (first b + (i - first b)) with i in H by lia. eauto using hit_wider.
  - intros r L R. apply T3, members_in. split; [lia|exact R].
Qed.

Definition unvisited (v : nat -> bool) : nat := length (filter (fun k => negb (v k)) (seq 0 (length bs))).

Lemma unvisited_le v v' : (forall k, v k = true -> v' k = true) -> unvisited v' <= unvisited v.
Proof.
  intros H. unfold unvisited. induction (seq 0 (length bs)) as [|x l IH]; cbn; [lia|].
  destruct (v x) eqn:V; [rewrite (H x V); cbn; lia|]. destruct (v' x); cbn; lia.
Qed.
Lemma unvisited_upd v k : k < length bs -> v k = false -> unvisited (upd v k true) < unvisited v.
Proof.
  intros L V. unfold unvisited. assert (I0 : In k (seq 0 (length bs))) by (apply in_seq; lia).
  revert I0. generalize (seq 0 (length bs)). induction l as [|x l IH]; intros I0; [destruct I0|].
  assert (LE : forall l, length (filter (fun y => negb (upd v k true y)) l) <= length (filter (fun y => negb (v y)) l)).
  { induction l0 as [|y l0 IH0]; cbn; [lia|]. unfold upd at 1. destruct (y =? k) eqn:Q; cbn; [destruct (v y); cbn; lia|].
    destruct (v y); cbn; lia. }
  cbn [filter]. destruct (Nat.eq_dec x k) as [->|D].
  - rewrite upd_eq, V. cbn. specialize (LE l). lia.
  - rewrite upd_neq by exact D. destruct I0 as [->|I0]; [congruence|]. specialize (IH I0). destruct (v x); cbn; lia.
Qed.

Hypothesis RB : regs_below nregs f.
Hypothesis EDGES : forall k b m, nth_error bs k = Some b -> In m (outs b) -> m < length bs.
Hypothesis NOFLAG : forall k, k < length bs -> lin k nregs = false /\ lout k nregs = false.
(* A property of ranges kept by growing. *)
Variable Q : ranges -> Prop.
Hypothesis KEEP : forall r pos li li', pos < length f -> Q li -> grow_range nregs r pos li = Ok li' -> Q li'.
Hypothesis INSIDE : forall k b, nth_error bs k = Some b -> first b <= last b < length f.

Lemma grow_all_keep pos : pos < length f -> forall rs li li', Q li -> grow_all nregs rs pos li = Ok li' -> Q li'.
Proof.
  intros L. induction rs as [|r rs IH]; intros li li' H E; cbn [grow_all] in E; [injection E as <-; exact H|].
  destruct (grow_range nregs r pos li) as [l1|] eqn:E1; [|discriminate]. cbn [bind] in E. eauto.
Qed.

Lemma irs_ranges_keep : forall l pos li li', pos + length l <= length f -> Q li -> irs_ranges nregs pos l li = Ok li' -> Q li'.
Proof.
  induction l as [|i l IH]; intros pos li li' L H E; cbn [irs_ranges] in E; [injection E as <-; exact H|]. cbn [length] in L.
  destruct (ir_ranges nregs pos i li) as [l1|] eqn:E1; [|discriminate]. cbn [bind] in E.
  apply (IH (S pos) l1); auto; [lia|]. unfold ir_ranges in E1.
  assert (O : forall (o : option nat) l0 l', Q l0 -> match o with Some r => grow_range nregs r pos l0 | None => Ok l0 end = Ok l' -> Q l').
  { intros [r|] l0 l' H0 E0; [|injection E0 as <-; exact H0]. apply (KEEP r pos l0); auto. lia. }
  destruct (match result i with Some r => grow_range nregs r pos li | None => Ok li end) as [a|] eqn:A; [|discriminate].
  cbn [bind] in E1.
  destruct (match get_reg (arg1 i) with Some r => grow_range nregs r pos a | None => Ok a end) as [c|] eqn:C; [|discriminate].
  cbn [bind] in E1. eauto.
Qed.

Lemma block_ranges_keep k b li li' : nth_error bs k = Some b -> Q li ->
  block_ranges nregs f b (lin k) (lout k) li = Ok li' -> Q li'.
Proof.
  intros N H E. unfold block_ranges in E. pose proof (INSIDE k b N) as I0.
  destruct (grow_all nregs (members nregs (lin k)) (first b) li) as [l1|] eqn:E1; [|discriminate]. cbn [bind] in E.
  destruct (irs_ranges nregs (first b) (body f b) l1) as [l2|] eqn:E2; [|discriminate]. cbn [bind] in E.
  assert (H1 : Q l1) by (eapply grow_all_keep; [|exact H|exact E1]; lia).
  assert (H2 : Q l2).
  { eapply irs_ranges_keep; [|exact H1|exact E2]. unfold body. rewrite firstn_length, skipn_length. lia. }
  eapply grow_all_keep; [|exact H2|exact E]. lia.
Qed.

(* What a walk does. *)
Definition walked (st st' : ranges * (nat -> bool)) : Prop :=
  wider (fst st) (fst st') /\
  (forall k, snd st k = true -> snd st' k = true) /\
  (forall k, snd st' k = true -> snd st k = false ->
     k < length bs /\ covered (fst st') k /\ forall b m, nth_error bs k = Some b -> In m (outs b) -> snd st' m = true).

Lemma walked_refl st : walked st st.
Proof. split; [apply wider_refl|]. split; [auto|]. intros k A B. congruence. Qed.
Lemma walked_trans a b c : walked a b -> walked b c -> walked a c.
Proof.
  intros (A1 & A2 & A3) (B1 & B2 & B3). split; [eauto using wider_trans|]. split; [auto|].
  intros k C D. destruct (snd b k) eqn:E.
  - destruct (A3 k E D) as (X & Y & Z0). conjs; [exact X|eauto using covered_wider|]. intros b0 m N M. apply B2. eapply Z0; eauto.
  - now apply B3.
Qed.

Lemma walk_ok : forall fuel bi st, bi < length bs -> unvisited (snd st) < fuel -> Q (fst st) ->
  exists st', walk fuel nregs f bs lin lout bi st = Ok st' /\ walked st st' /\ snd st' bi = true /\ Q (fst st').
Proof.
  induction fuel as [|fuel IH]; intros bi [li v] L U HQ; [lia|]. cbn [fst snd] in *. cbn [walk].
  destruct (v bi) eqn:V.
  - exists (li, v). split; [reflexivity|]. split; [apply walked_refl|]. split; [exact V|exact HQ].
  - destruct (nth_error bs bi) as [b|] eqn:N; [|apply nth_error_None in N; lia].
    destruct (NOFLAG bi L) as (F1 & F2).
    destruct (block_ranges_ok bi b li RB N F1 F2) as (l1 & E1 & W1 & C1). rewrite E1. cbn [bind].
    pose proof (block_ranges_keep bi b li l1 N HQ E1) as HQ1.
    assert (G : forall ns st, (forall m, In m ns -> m < length bs) -> unvisited (snd st) < fuel -> Q (fst st) ->
              exists st', (fix each (ns : list nat) (st : ranges * (nat -> bool)) : res (ranges * (nat -> bool)) :=
                 match ns with
                 | [] => Ok st
                 | n :: ns' => do! st' <- walk fuel nregs f bs lin lout n st; each ns' st'
                 end) ns st = Ok st' /\ walked st st' /\ (forall m, In m ns -> snd st' m = true) /\ Q (fst st')).
    { induction ns as [|n ns IHn]; intros st HN HU H0.
      - exists st. split; [reflexivity|]. split; [apply walked_refl|]. split; [intros m []|exact H0].
      - destruct (IH n st (HN n (or_introl eq_refl)) HU H0) as (s1 & -> & WK & VN & Q1). cbn [bind].
        destruct (IHn s1) as (s2 & E2 & WK2 & VN2 & Q2); auto.
        + intros m M. apply HN. now right.
        + destruct WK as (_ & V1 & _). pose proof (unvisited_le _ _ V1). lia.
        + exists s2. split; [exact E2|]. split; [eapply walked_trans; eauto|]. split; [|exact Q2]. intros m [<-|M]; [|auto]. now apply WK2. }
    destruct (G (outs b) (l1, upd v bi true)) as (st' & E2 & WK & VO & QF).
    { intros m M. eapply EDGES; eauto. }
    { cbn [snd]. pose proof (unvisited_upd v bi L V). lia. }
    { exact HQ1. }
    exists st'. split; [exact E2|]. destruct WK as (A & B & C). cbn [fst snd] in *.
    split; [|split; [apply B, upd_eq|exact QF]]. split; [eauto using wider_trans|]. split.
    + intros k K. apply B. cbn [snd] in K. unfold upd. destruct (k =? bi); auto.
    + intros k K1 K2. cbn [snd] in K2. destruct (Nat.eq_dec k bi) as [->|D].
      * conjs; [exact L|eauto using covered_wider|]. intros b0 m N0 M. assert (b0 = b) by congruence. subst b0. now apply VO.
      * apply C; [exact K1|]. rewrite upd_neq by exact D. exact K2.
Qed.
End Walk.

Lemma filter_len {A} (g : A -> bool) l : length (filter g l) <= length l.
Proof. induction l as [|x l IH]; cbn; [lia|]. destruct (g x); cbn; lia. Qed.

(* ---------- the ranges of the whole function ---------- *)

Definition start_ranges : ranges * (nat -> bool) := (fun _ => (UINT_MAX, 0%Z), fun _ => false).

(* First used and last used, or never. *)
Definition sane (li : ranges) : Prop :=
  forall r, (li r = (UINT_MAX, 0%Z)) \/ (0 <= fst (li r) <= snd (li r) /\ snd (li r) < UINT_MAX)%Z.

Lemma edges_in f cs : cfg_ok f cs -> forall k b m, nth_error cs k = Some b -> In m (outs b) -> m < length cs.
Proof.
  intros OK k b m N M. pose proof (ok_segs _ _ OK) as SG. destruct (ok_real _ _ OK k b m N M) as [(-> & L & _)|(i & x & t & _ & _ & _ & (c & Nc & _))].
  - destruct (nth_error cs (S k)) eqn:X; [apply nth_error_Some; congruence|]. apply nth_error_None in X.
    destruct (segs_last f _ _ _ _ SG) as (e & Ne & Le); [intros ->; destruct k; discriminate|].
    assert (k < length cs) by (apply nth_error_Some; congruence). assert (k = length cs - 1) by lia. subst k.
    assert (e = b) by congruence. subst e. lia.
  - apply nth_error_Some. congruence.
Qed.

Lemma intervals_ok nregs f cs lin lout : regs_below nregs f -> cfg_ok f cs -> 0 < length f ->
  (forall k, k < length cs -> lin k nregs = false /\ lout k nregs = false) ->
  exists li v, intervals nregs f cs lin lout = Ok (map (fun r => Interval r (fst (li r)) (snd (li r))) (seq 0 nregs)) /\
    v 0 = true /\
    (forall k, v k = true -> covered nregs f cs lin lout li k /\
       forall b m, nth_error cs k = Some b -> In m (outs b) -> v m = true) /\
    (Z.of_nat (length f) <= UINT_MAX -> sane li)%Z /\
    (forall r p, nregs <= r -> ~ hit li r p).
Proof.
  intros RB OK NE NF. pose proof (ok_segs _ _ OK) as SG.
  assert (NC : 0 < length cs) by (destruct cs; [inversion SG; lia|cbn; lia]).
  destruct (walk_ok nregs f cs lin lout RB (edges_in f cs OK) NF
     (fun li => (Z.of_nat (length f) <= UINT_MAX -> sane li)%Z /\ forall r, nregs <= r -> li r = (UINT_MAX, 0%Z))) with (fuel := S (length cs)) (bi := 0) (st := start_ranges)
    as (st' & E & (W & V & C) & V0 & QF).
  - intros r pos li li' L (H & H2) G. unfold grow_range in G. destruct (Nat.ltb_spec r nregs); [|discriminate].
    destruct (li r) as [a b] eqn:LR. injection G as <-. unfold upd. split.
    2:{ intros x Lx. destruct (Nat.eqb_spec x r) as [->|]; [lia|auto]. }
    intros LM x. specialize (H LM). destruct (Nat.eqb_spec x r) as [->|]; [|apply H].
    right. cbn [fst snd]. specialize (H r). rewrite LR in H. cbn [fst snd] in H. unfold UINT_MAX in *.
    destruct H as [H|H]; [injection H as -> ->|]; lia.
  - intros k b N. destruct (segs_nth f _ _ _ _ SG k b N) as (B & _). split; [apply B|apply B].
  - exact NC.
  - unfold unvisited. cbn [snd start_ranges]. pose proof (filter_len (fun k : nat => negb false) (seq 0 (length cs))) as X.
    rewrite seq_length in X. lia.
  - split; [intros LM r; left|intros r _]; reflexivity.
  - destruct QF as (QF & QG). exists (fst st'), (snd st'). unfold intervals. fold start_ranges. rewrite E. cbn [bind].
    conjs; [reflexivity|exact V0| |exact QF|intros r p Lr (H1 & H2); rewrite (QG r Lr) in H1, H2; unfold UINT_MAX in H1; cbn in H1, H2; lia].
    intros k K. destruct (C k K eq_refl) as (_ & A & B). auto.
Qed.

(* ---------- the renamed code ---------- *)

Section Rename.
Variable W : Type.
Variable cpool_base : Z.
Variable cover_addr : Z -> Z.
Variable prim : opcode -> size -> ccode -> Z -> Z -> Z -> bool -> (nat -> Z) -> W ->
                option (Z * bool * (nat -> Z) * W).
Notation step := (step W cpool_base cover_addr prim).
Notation run := (run W cpool_base cover_addr prim).
Notation fetch := (fetch cpool_base cover_addr).
Notation state := (state W).
Notation pc := (pc W). Notation regs := (regs W). Notation flag := (flag W).
Notation args := (args W). Notation outside := (outside W).
Variable f : prog.
Variable cs : list block.
Variable nregs : nat.
Variable sl : nat -> nat.
Variable li : ranges.
Variable lo : nat -> rset.
Variable v : nat -> bool.

Definition renamed (s t : state) : Prop :=
  pc t = pc s /\ flag t = flag s /\ args t = args s /\ outside t = outside s /\
  (pc s < length f -> forall r, live_at f cs (pc s) r -> regs t (sl r) = regs s r).

Definition on_visited (p : nat) : Prop := forall k, block_of cs p k -> v k = true.

Lemma slice_split p q r : p <= q -> q <= S r -> r < length f -> (p < q /\ slice f p r = slice f p (q - 1) ++ slice f q r) \/ p = q.
Proof.
  intros A B C. destruct (Nat.eq_dec p q) as [E|D]; [auto|]. left. split; [lia|]. unfold slice.
  replace (S (q - 1) - p) with (q - p) by lia.
  replace (S r - p) with ((q - p) + (S r - q)) by lia.
  replace (skipn q f) with (skipn (q - p) (skipn p f)).
  2:{ assert (G : forall a b (l : list ir), skipn a (skipn b l) = skipn (b + a) l).
      { intros a b. induction b as [|b IH]; intros l; [reflexivity|]. destruct l; cbn; [now rewrite skipn_nil|apply IH]. }
      rewrite G. f_equal. lia. }
  generalize (skipn p f) (q - p) (S r - q). clear. intros l a b. revert l b.
  induction a as [|a IH]; intros l b; [reflexivity|]. destruct l; cbn; [now rewrite firstn_nil|]. f_equal. apply IH.
Qed.

Lemma live_reg p r : regs_below nregs f -> live_at f cs p r -> r < nregs.
Proof.
  intros RB (k & b & N & R & LV).
  assert (X : forall i y, In i f -> reads i (LReg y) -> y < nregs).
    { intros i y I0 RD. apply (RB i y I0). unfold ir_regs. rewrite !in_app_iff. cbn in RD.
      destruct RD as [RD|[RD|(_ & RD)]]; auto. right. right. rewrite RD. now left. }
    assert (Y : forall j, live_after f cs (LReg r) j -> r < nregs).
    { intros j H. induction H as [j m0 b0 _ _ (a & i & c & Es & RD & _)|]; [|assumption].
      apply (X i r); auto. apply (slice_in f (first b0) (last b0)). rewrite Es. apply in_app_iff. right. now left. }
    destruct LV as [(a & i & c & Es & RD & _)|(_ & LV)]; [|eapply Y; eauto].
    apply (X i r); auto. apply (slice_in f p (last b)). rewrite Es. apply in_app_iff. right. now left.
Qed.

(* What is live at a point is in its range there. *)
Lemma live_hit p r : cfg_ok f cs -> regs_below nregs f -> p < length f ->
  (forall k, k < length cs -> forall r, r < nregs -> (lo k r = true <-> live_after f cs (LReg r) k)) ->
  (forall k b, nth_error cs k = Some b -> forall r, r < nregs ->
     (lin_of nregs f cs lo k r = true <-> live_before f cs (LReg r) k)) ->
  (forall k, v k = true -> covered nregs f cs (lin_of nregs f cs lo) lo li k) ->
  on_visited p -> live_at f cs p r -> hit li r p.
Proof.
  intros OK RB Lp LO LI CV OV (k & b & N & R & LV). pose proof (ok_segs _ _ OK) as SG.
  assert (Lr : r < nregs) by (eapply live_reg; eauto; exists k, b; eauto).
  assert (VK : v k = true) by (apply OV; exists b; auto).
  destruct (CV k VK b N) as (C1 & C2 & C3).
  destruct (segs_nth f _ _ _ _ SG k b N) as (BB & _). pose proof (blk_end _ _ _ BB) as BE.
  (* later *)
  assert (HI : exists j, p <= j <= last b /\ hit li r j).
  { destruct LV as [(a & i & c & Es & RD & _)|(_ & LV)].
    - assert (I0 : In i (slice f p (last b))) by (rewrite Es; apply in_app_iff; right; now left).
      apply slice_nth in I0 as (d & Ld & Nd); [|lia]. exists (p + d). split; [lia|]. apply (C2 (p + d) i r); [lia|exact Nd|].
      unfold ir_regs. rewrite !in_app_iff. cbn in RD. destruct RD as [RD|[RD|(_ & RD)]]; auto. right. right. rewrite RD. now left.
    - exists (last b). split; [lia|]. apply C3; [exact Lr|]. apply LO; auto. apply nth_error_Some. congruence. }
  (* earlier *)
  assert (LO2 : exists i, first b <= i <= p /\ hit li r i).
  { assert (D : (exists i x, first b <= i < p /\ nth_error f i = Some x /\ writes x (LReg r)) \/
                (forall i x, first b <= i < p -> nth_error f i = Some x -> ~ writes x (LReg r))).
    { clear - R. assert (G : forall n, (exists i x, first b <= i < first b + n /\ nth_error f i = Some x /\ writes x (LReg r)) \/
                (forall i x, first b <= i < first b + n -> nth_error f i = Some x -> ~ writes x (LReg r))).
      { induction n as [|n IH]; [right; intros; lia|]. destruct IH as [(i & x & A & B & C)|IH].
        - left. exists i, x. conjs; auto; lia.
        - destruct (nth_error f (first b + n)) as [x|] eqn:N.
          + destruct (writes_dec x (LReg r)) as [H|H].
            * left. exists (first b + n), x. conjs; auto; lia.
            * right. intros i y A B. destruct (Nat.eq_dec i (first b + n)) as [->|D]; [congruence|]. apply (IH i); [lia|exact B].
          + right. intros i y A B. destruct (Nat.eq_dec i (first b + n)) as [->|D]; [congruence|]. apply (IH i); [lia|exact B]. }
      specialize (G (p - first b)). now replace (first b + (p - first b)) with p in G by lia. }
    destruct D as [(i & x & A & B & C)|NW].
    - exists i. split; [lia|]. apply (C2 i x r); [lia|exact B|]. destruct C as (_ & C). unfold ir_regs. rewrite !in_app_iff, C.
      right. right. now left.
    - exists (first b). split; [lia|]. apply C1; [exact Lr|]. apply (LI k b N r Lr). exists b. split; [exact N|].
      destruct (slice_split (first b) p (last b)) as [(LT & E)|E]; [lia|lia|lia| |subst p; exact LV].
      assert (PP : forall j, In j (slice f (first b) (p - 1)) -> ~ writes j (LReg r)).
      { intros j J. apply slice_nth in J as (d & Ld & Nd); [|lia]. apply (NW (first b + d)); [lia|exact Nd]. }
      rewrite E. destruct LV as [(a & i & c & Es & RD & NP)|(PA & LV)].
      + left. exists (slice f (first b) (p - 1) ++ a), i, c. conjs; auto.
        * rewrite Es. apply app_assoc.
        * intros j J. apply in_app_iff in J as [J|J]; auto.
      + right. split; [|exact LV]. intros j J. apply in_app_iff in J as [J|J]; auto. }
  destruct HI as (j & J1 & (J2 & J3)). destruct LO2 as (i & I1 & (I2 & I3)). split; lia.
Qed.

Lemma rename_fetch m x rg rg' : (forall r, In r (value_regs x) -> rg' (sl r) = rg r) ->
  fetch m rg' (rename_value sl x) = fetch m rg x.
Proof. intros H. destruct x; destruct m; cbn in *; try reflexivity; now rewrite H by auto. Qed.

Lemma rename_nth p : nth_error (rename sl f) p = option_map (rename_ir sl) (nth_error f p).
Proof. unfold rename. apply nth_error_map. Qed.

Lemma renamed_step s t : exits_abort prim -> labels_marked f -> results_ok f -> cfg_ok f cs ->
  (forall p r, p < length f -> on_visited p -> live_at f cs p r -> hit li r p) ->
  (forall k, v k = true -> covered nregs f cs (lin_of nregs f cs lo) lo li k) ->
  (forall r r' p, r <> r' -> hit li r p -> hit li r' p -> sl r <> sl r') ->
  on_track f cs (pc s) -> on_visited (pc s) -> renamed s t ->
  match step f s with
  | Next _ s' => exists t', step (rename sl f) t = Next W t' /\ renamed s' t'
  | o => step (rename sl f) t = o
  end.
Proof.
  intros XA LM RO OK LH CV DJ TR VI (AP & AF & AA & AW & AR). pose proof (ok_segs _ _ OK) as SG.
  destruct (nth_error f (pc s)) as [x|] eqn:N.
  2:{ unfold JitModel.step. rewrite AP, rename_nth, N. reflexivity. }
  assert (Lp : pc s < length f) by (apply nth_error_Some; congruence). specialize (AR Lp).
  destruct (segs_cover f 0 0 cs _ (pc s) SG) as (k & b & Nb & Rb); [lia|].
  assert (HD : forall r, reads x (LReg r) -> regs t (sl r) = regs s r).
  { intros r R. apply AR. exists k, b. conjs; auto; try lia. left. rewrite (slice_cons f _ _ x) by (auto; lia).
    now apply exposed_head. }
  assert (RV : (if reads_result x then option_map (regs t) (option_map sl (result x)) else Some 0%Z) =
               (if reads_result x then option_map (regs s) (result x) else Some 0%Z)).
  { destruct (reads_result x) eqn:RR; [|reflexivity]. destruct (result x) as [r|] eqn:RX; [|reflexivity].
    cbn. rewrite HD; [reflexivity|]. cbn. auto. }
  assert (ST2 : step (rename sl f) t =
    match fetch (mode1 (op x)) (regs s) (arg1 x), fetch (mode2 (op x)) (regs s) (arg2 x) with
    | Some a, Some b =>
      match (if reads_result x then option_map (regs s) (result x) else Some 0%Z) with
      | None => Crash W
      | Some rv =>
        match exec W prim (op x) (sz x) (cc x) a b rv (flag s) (args s) (outside s) with
        | None => Crash W
        | Some e => apply W (rename_ir sl x) t e
        end
      end
    | _, _ => Crash W
    end).
  { unfold JitModel.step. rewrite AP, rename_nth, N. cbn [option_map rename_ir op sz cc arg1 arg2 result].
    change (reads_result (rename_ir sl x)) with (reads_result x).
    rewrite !(rename_fetch _ _ (regs s) (regs t)) by (intros r R; apply HD; cbn; auto).
    rewrite RV, AF, AA, AW. reflexivity. }
  rewrite ST2. clear ST2.
  destruct (step f s) as [s'| |] eqn:ST.
  - pose proof (step_shape W cpool_base cover_addr prim f s s' XA ST) as (x' & N' & _ & _ & _ & SH). assert (x' = x) by congruence. subst x'.
    pose proof (flow_step W cpool_base cover_addr prim f cs s s' XA LM OK TR ST) as FL.
    unfold JitModel.step in ST. rewrite N in ST.
    destruct (fetch (mode1 (op x)) (regs s) (arg1 x)) as [a|]; [|discriminate].
    destruct (fetch (mode2 (op x)) (regs s) (arg2 x)) as [bb|]; [|discriminate].
    destruct (if reads_result x then option_map (regs s) (result x) else Some 0%Z) as [rv|]; [|discriminate].
    destruct (exec W prim (op x) (sz x) (cc x) a bb rv (flag s) (args s) (outside s)) as [e|] eqn:E; [|discriminate].
    assert (LB : pc s' < length f -> forall r, live_at f cs (pc s') r -> ~ writes x (LReg r) -> live_at f cs (pc s) r).
    { intros L r LV NW. destruct (FL L) as (T1 & _). eapply live_back; eauto. destruct SH as [(SH & _)|SH]; auto. }
    pose proof (exec_res W prim _ _ _ _ _ _ _ _ _ _ E) as ER.
    unfold apply in ST |- *. cbn [rename_ir result]. destruct (e_done W e); [discriminate|].
    destruct (e_res W e) as [val|] eqn:RE.
    + destruct (result x) as [r|] eqn:RX; [|discriminate]. cbn [option_map]. injection ST as <-.
      eexists. split; [reflexivity|]. rewrite AP. split; [reflexivity|].
      cbn [JitModel.pc JitModel.regs JitModel.flag JitModel.args JitModel.outside] in *.
      conjs; auto. intros L r' LV. destruct (Nat.eq_dec r' r) as [->|D].
      * now rewrite !upd_eq.
      * assert (LP : live_at f cs (pc s) r') by (apply (LB L r' LV); cbn; intros (_ & H); congruence).
        rewrite (upd_neq (regs s)) by exact D. rewrite upd_neq; [now apply AR|].
        apply (DJ r' r (pc s)); auto. destruct (CV k) with (b := b) as (_ & C2 & _); auto.
        { apply VI. exists b. auto. }
        apply (C2 (pc s) x r); [lia|exact N|]. unfold ir_regs. rewrite !in_app_iff, RX. right. right. now left.
    + injection ST as <-. eexists. split; [reflexivity|]. rewrite AP. split; [reflexivity|].
      cbn [JitModel.pc JitModel.regs JitModel.flag JitModel.args JitModel.outside] in *.
      conjs; auto. intros L r LV. apply AR, (LB L r LV). cbn. intros (H1 & H2).
      destruct (RO x r (nth_error_In _ _ N) H2) as [H|H]; congruence.
  - unfold JitModel.step in ST. rewrite N in ST.
    destruct (fetch (mode1 (op x)) (regs s) (arg1 x)) as [a|]; [|discriminate].
    destruct (fetch (mode2 (op x)) (regs s) (arg2 x)) as [bb|]; [|discriminate].
    destruct (if reads_result x then option_map (regs s) (result x) else Some 0%Z) as [rv|]; [|discriminate].
    destruct (exec W prim (op x) (sz x) (cc x) a bb rv (flag s) (args s) (outside s)) as [e|] eqn:E; [|discriminate].
    unfold apply in ST |- *. destruct (e_done W e); [exact ST|].
    destruct (e_res W e); [destruct (result x)|]; discriminate.
  - unfold JitModel.step in ST. rewrite N in ST.
    destruct (fetch (mode1 (op x)) (regs s) (arg1 x)) as [a|]; [|reflexivity].
    destruct (fetch (mode2 (op x)) (regs s) (arg2 x)) as [bb|]; [|reflexivity].
    destruct (if reads_result x then option_map (regs s) (result x) else Some 0%Z) as [rv|]; [|reflexivity].
    destruct (exec W prim (op x) (sz x) (cc x) a bb rv (flag s) (args s) (outside s)) as [e|] eqn:E; [|reflexivity].
    unfold apply in ST |- *. cbn [rename_ir result]. destruct (e_done W e); [discriminate|].
    destruct (e_res W e); [destruct (result x)|]; try discriminate. reflexivity.
Qed.

Lemma visited_step s s' : exits_abort prim -> labels_marked f -> cfg_ok f cs ->
  (forall k, v k = true -> forall b m, nth_error cs k = Some b -> In m (outs b) -> v m = true) ->
  on_track f cs (pc s) -> on_visited (pc s) -> step f s = Next W s' -> on_visited (pc s').
Proof.
  intros XA LM OK CL TR VI ST m Bm. pose proof (ok_segs _ _ OK) as SG.
  assert (L : pc s' < length f).
  { destruct Bm as (c & N & R). destruct (segs_nth f _ _ _ _ SG m c N) as (BB & _). pose proof (blk_end _ _ _ BB). lia. }
  destruct (flow_step W cpool_base cover_addr prim f cs s s' XA LM OK TR ST L) as ((k & m' & Bk & Bm' & T) & _).
  assert (m' = m) by (eapply block_of_unique; eauto). subst m'. pose proof (VI k Bk) as VK.
  destruct T as [(-> & _)|((b & N & E) & _)]; [exact VK|]. eapply CL; eauto.
Qed.

Lemma renamed_run : exits_abort prim -> labels_marked f -> results_ok f -> cfg_ok f cs ->
  (forall p r, p < length f -> on_visited p -> live_at f cs p r -> hit li r p) ->
  (forall k, v k = true -> covered nregs f cs (lin_of nregs f cs lo) lo li k) ->
  (forall k, v k = true -> forall b m, nth_error cs k = Some b -> In m (outs b) -> v m = true) ->
  (forall r r' p, r <> r' -> hit li r p -> hit li r' p -> sl r <> sl r') ->
  forall n s t, on_track f cs (pc s) -> on_visited (pc s) -> renamed s t ->
  match run n f s with
  | Next _ s' => exists t', run n (rename sl f) t = Next W t' /\ same_view s' t'
  | o => run n (rename sl f) t = o
  end.
Proof.
  intros XA LM RO OK LH CV CL DJ. induction n as [|n IH]; intros s t TR VI AL.
  - cbn. exists t. split; [reflexivity|]. destruct AL as (A1 & _ & A2 & A3 & _). repeat split; auto.
  - cbn [JitModel.run]. pose proof (renamed_step s t XA LM RO OK LH CV DJ TR VI AL) as ST.
    destruct (step f s) as [s'| |] eqn:E.
    + destruct ST as (t' & -> & AL'). apply IH; [| |exact AL'].
      * eapply on_track_step; eauto.
      * eapply visited_step; eauto.
    + now rewrite ST.
    + now rewrite ST.
Qed.
End Rename.
