From Coq Require Import List ZArith Arith Bool Lia.
From Verif Require Import Base JitModel JitPassProofs CfgModel CfgSpec.
Import ListNotations.

(* Splits what is visibly a conjunction. *)
Ltac conjs := repeat match goal with |- _ /\ _ => split end.

(* ---------- lists of edges ---------- *)

Definition elist_is (e : elist) (l : list nat) : Prop :=
  ecount e = length l /\
  ((length l <= 4 /\ emax e = 0 /\ estore e = Inline l) \/
   (4 < length l <= emax e /\ 16 <= emax e /\ estore e = External l)).

Lemma add_one_edge_ok e l x : elist_is e l -> exists e', add_one_edge e x = Ok e' /\ elist_is e' (l ++ [x]).
Proof.
  intros (C & R). unfold add_one_edge. rewrite C.
  assert (LX : length (l ++ [x]) = S (length l)) by (rewrite app_length; cbn; lia).
  destruct R as [(L & M & E)|(L & M & E)]; rewrite E.
  - destruct (Nat.ltb_spec (length l) 4).
    + eexists. split; [reflexivity|]. split; cbn; [lia|]. left. repeat split; lia || auto.
    + destruct (Nat.eqb_spec (length l) 4); [|lia]. eexists. split; [reflexivity|].
      split; cbn; [lia|]. right. repeat split; lia || auto.
  - destruct (Nat.ltb_spec (length l) 4); [lia|]. destruct (Nat.eqb_spec (length l) 4); [lia|].
    destruct (Nat.eqb_spec (length l) (emax e)).
    + eexists. split; [reflexivity|]. split; cbn; [lia|]. right. repeat split; lia || auto.
    + destruct (Nat.ltb_spec (length l) (emax e)); [|lia]. eexists. split; [reflexivity|].
      split; cbn; [lia|]. right. repeat split; lia || auto.
Qed.

Lemma add_edges_ok xs : forall e l, elist_is e l -> exists e', add_edges e xs = Ok e' /\ elist_is e' (l ++ xs).
Proof.
  induction xs as [|x xs IH]; intros e l H; cbn [add_edges].
  - exists e. now rewrite app_nil_r.
  - destruct (add_one_edge_ok e l x H) as (e1 & -> & H1). cbn [bind].
    destruct (IH e1 _ H1) as (e2 & E2 & H2). exists e2. split; [exact E2|]. now rewrite <- app_assoc in H2.
Qed.

Lemma get_edge_ok e l n : elist_is e l -> n < length l ->
  exists x, get_edge e n = Ok x /\ nth_error l n = Some x.
Proof.
  intros (C & R) H. unfold get_edge. rewrite C. destruct (Nat.ltb_spec n (length l)); [|lia].
  destruct (nth_error l n) as [x|] eqn:E; [|apply nth_error_None in E; lia].
  exists x. split; [|reflexivity].
  destruct R as [(L & M & S1)|(L & M & S1)]; rewrite S1.
  - destruct (Nat.leb_spec (emax e) 4); [|lia]. now rewrite E.
  - destruct (Nat.leb_spec (emax e) 4); [lia|]. now rewrite E.
Qed.

(* ---------- blocks ---------- *)

Section Build.
Variable f : prog.

(* No block can begin inside. *)
Definition inner (a b : nat) : Prop :=
  forall i x, a < i <= b -> nth_error f i = Some x -> target x = false /\ is_terminator f (i - 1) = false.

Definition flags_ok (b : block) (hi : nat) : Prop :=
  (rets b = true <-> exists i x, first b <= i < hi /\ nth_error f i = Some x /\ is_ret x = true) /\
  (aborts b = true <-> exists i x, first b <= i < hi /\ nth_error f i = Some x /\ will_abort x = true).

(* Control can go on from the end of the block to the next instruction. *)
Definition falls (b : block) : Prop :=
  exists x, nth_error f (last b) = Some x /\
    if is_terminator f (last b)
    then (op x = J_JUMP /\ cc x <> CC_NONE) \/ op x = MACRO_CASE
    else rets b = false /\ aborts b = false.

Record blk (k : nat) (b : block) : Prop := {
  blk_order : first b <= last b;
  blk_end : last b < length f;
  blk_inner : inner (first b) (last b);
  blk_flags : flags_ok b (S (last b));
  blk_leader : S (last b) < length f ->
    is_terminator f (last b) = true \/ exists x, nth_error f (S (last b)) = Some x /\ target x = true;
  blk_fall : S (last b) < length f -> falls b -> In (S k) (outs b) }.

(* The edges of a block when it is closed. *)
Definition built (k : nat) (b : block) : Prop :=
  forall m, In m (outs b) -> m = S k /\ S (last b) < length f /\ falls b.

Inductive segs : nat -> nat -> list block -> nat -> Prop :=
| segs_nil k p : segs k p [] p
| segs_cons k b bs q : blk k b -> segs (S k) (S (last b)) bs q -> segs k (first b) (b :: bs) q.

Lemma segs_snoc k p bs b : segs k p bs (first b) -> blk (k + length bs) b ->
  segs k p (bs ++ [b]) (S (last b)).
Proof.
  intros H B. remember (first b) as q eqn:Q. revert B. induction H as [k p|k c bs q C H IH]; intros B.
  - rewrite Q. cbn [app]. constructor; [now rewrite Nat.add_0_r in B|constructor].
  - cbn [app]. constructor; [exact C|]. apply IH; [exact Q|]. cbn [length] in B. now rewrite Nat.add_succ_r in B.
Qed.

Definition binv (i : nat) (s : building) : Prop :=
  let '(d, c) := s in
  segs 0 0 d (first c) /\ first c <= i /\ first c < length f /\
  (first c < i -> last c = i - 1 /\ inner (first c) (i - 1) /\ (i < length f -> is_terminator f (i - 1) = false)) /\
  flags_ok c i /\ outs c = [] /\ (forall k b, nth_error d k = Some b -> built k b).

Lemma op_eqb_true a b : op_eqb a b = true <-> a = b.
Proof. unfold op_eqb. destruct (opcode_eq_dec a b); split; congruence. Qed.

(* Closing the current block. *)
Lemma close_block d c i fall :
  segs 0 0 d (first c) -> first c <= last c -> last c < length f -> inner (first c) (last c) ->
  flags_ok c (S (last c)) -> outs c = [] -> i = S (last c) ->
  (is_terminator f (last c) = true \/ exists x, nth_error f i = Some x /\ target x = true) ->
  i < length f -> (falls c <-> fall = true) -> (forall k b, nth_error d k = Some b -> built k b) ->
  segs 0 0 (fst (next_block fall i (d, c))) i /\
  (forall k b, nth_error (fst (next_block fall i (d, c))) k = Some b -> built k b).
Proof.
  intros SG O E INN FL OU -> LD LI (FA & FB) BT. cbn [next_block fst].
  assert (B : blk (0 + length d) (with_out c (if fall then [S (length d)] else []))).
  { constructor; cbn [with_out first last]; auto.
    intros _ F. cbn [outs with_out]. rewrite OU. cbn [app]. rewrite FA; [now left|].
    destruct F as (x & N & F). exists x. split; [exact N|exact F]. }
  split; [exact (segs_snoc 0 0 d (with_out c (if fall then [S (length d)] else [])) SG B)|].
  intros k b N. destruct (Nat.lt_ge_cases k (length d)) as [L|L].
  - rewrite nth_error_app1 in N by exact L. now apply BT.
  - rewrite nth_error_app2 in N by exact L. destruct (k - length d) as [|q] eqn:Q; [|destruct q; discriminate].
    cbn in N. injection N as <-. intros m M. cbn [outs with_out] in M. rewrite OU in M. cbn [app] in M.
    destruct fall; [|destruct M]. destruct M as [<-|[]]. cbn [last with_out].
    split; [f_equal; lia|]. split; [exact LI|]. destruct (FB eq_refl) as (x & N & F). exists x. split; [exact N|exact F].
Qed.

Lemma fresh_flags i o : flags_ok (new_block i o) i.
Proof. split; (split; [discriminate|]; intros (j & y & Hj & _); cbn in Hj; lia). Qed.

Lemma build_one_inv i x s : nth_error f i = Some x -> binv i s -> binv (S i) (build_one f i x s).
Proof.
  intros N B. destruct s as [d c]. destruct B as (SG & LE & LT & CUR & FL & OU & BT).
  assert (Hi : i < length f) by (apply nth_error_Some; congruence).
  unfold build_one. cbn [snd fst].
  (* after the first test *)
  set (s1 := if target x && (0 <? i) && negb (first c =? i) then _ else _).
  assert (S1 : let '(d1, c1) := s1 in
    segs 0 0 d1 (first c1) /\ first c1 <= i /\ inner (first c1) i /\ flags_ok c1 i /\ outs c1 = [] /\
    (forall k b, nth_error d1 k = Some b -> built k b)).
  { unfold s1. destruct (target x && (0 <? i) && negb (first c =? i)) eqn:T.
    - apply andb_true_iff in T as (T & T3). apply andb_true_iff in T as (T1 & T2).
      apply negb_true_iff, Nat.eqb_neq in T3.
      destruct CUR as (CL & CI & CT); [lia|]. specialize (CT Hi).
      pose proof (close_block d c i (negb (rets c) && negb (aborts c))) as CB.
      destruct (next_block (negb (rets c) && negb (aborts c)) i (d, c)) as [d1 c1] eqn:NB.
      cbn [next_block] in NB. injection NB as <- <-. cbn [fst new_block first outs] in *.
      destruct CB as (CB1 & CB2); auto; try lia.
      { rewrite CL. exact CI. }
      { replace (S (last c)) with i by lia. exact FL. }
      { right. eauto. }
      { split.
        - intros (y & _ & F). rewrite CL, CT in F. destruct F as (-> & ->). reflexivity.
        - intros F. apply andb_true_iff in F as (F1 & F2). apply negb_true_iff in F1, F2.
          destruct (nth_error f (i - 1)) as [y|] eqn:Ny; [|apply nth_error_None in Ny; lia].
          exists y. rewrite CL, CT. auto. }
      conjs; try lia; try reflexivity; try assumption.
      + intros j y Hj. lia.
      + apply fresh_flags.
    - conjs; auto.
      intros j y Hj Nj. destruct (Nat.eq_dec j i) as [->|NJ].
      + assert (y = x) by congruence. subst y. destruct CUR as (CL & CI & CT); [lia|]. split; [|now apply CT].
        destruct (target x); [|reflexivity]. cbn [andb] in T.
        destruct (Nat.ltb_spec 0 i); [|lia]. destruct (Nat.eqb_spec (first c) i); [lia|discriminate].
      + destruct CUR as (CL & CI & CT); [lia|]. apply (CI j y); [lia|exact Nj]. }
  clearbody s1. destruct s1 as [d1 c1]. cbn [fst snd]. destruct S1 as (SG1 & LE1 & IN1 & FL1 & OU1 & BT1).
  set (c2 := Block _ _ _ _ _ _).
  assert (FL2 : flags_ok c2 (S i)).
  { assert (RA : is_ret x = true -> will_abort x = false).
    { unfold is_ret, will_abort. intros H. apply op_eqb_true in H. now rewrite H. }
    assert (EXT : forall (P : ir -> bool) (v : bool), (v = true <-> exists j y, first c1 <= j < i /\ nth_error f j = Some y /\ P y = true) ->
       ((if P x then true else v) = true <-> exists j y, first c1 <= j < S i /\ nth_error f j = Some y /\ P y = true)).
    { intros P v V. destruct (P x) eqn:Px.
      - split; [|reflexivity]. intros _. exists i, x. repeat split; auto; lia.
      - rewrite V. split; intros (j & y & Hj & Nj & Py); exists j, y; (split; [|now split]); [lia|].
        destruct (Nat.eq_dec j i) as [->|]; [|lia]. congruence. }
    split; cbn [c2 rets aborts first].
    - apply EXT, FL1.
    - rewrite <- (EXT will_abort (aborts c1) (proj2 FL1)).
      destruct (is_ret x) eqn:R; [rewrite (RA eq_refl)|]; reflexivity. }
  destruct (is_terminator f i && (S i <? length f)) eqn:T.
  - apply andb_true_iff in T as (T1 & T2). apply Nat.ltb_lt in T2.
    set (fall := (op_eqb (op x) J_JUMP && negb (cc_none (cc x))) || op_eqb (op x) MACRO_CASE).
    pose proof (close_block d1 c2 (S i) fall) as CB.
    destruct (next_block fall (S i) (d1, c2)) as [d3 c3] eqn:NB. cbn [next_block] in NB. injection NB as <- <-.
    cbn [fst new_block first outs] in *. unfold binv. cbn [new_block first outs last].
    destruct CB as (CB1 & CB2); auto.
    { cbn [c2 last]. split.
      - intros (y & Ny & F). cbn [c2 last] in Ny, F. rewrite T1 in F. assert (y = x) by congruence. subst y.
        unfold fall. apply orb_true_iff. destruct F as [(F1 & F2)|F]; [left|right; now apply op_eqb_true].
        apply andb_true_iff. split; [now apply op_eqb_true|]. destruct (cc x); try reflexivity. now elim F2.
      - intros F. exists x. cbn [c2 last]. rewrite T1. split; [exact N|]. unfold fall in F.
        apply orb_true_iff in F as [F|F]; [left|right; now apply op_eqb_true].
        apply andb_true_iff in F as (F1 & F2). split; [now apply op_eqb_true|]. intros X. now rewrite X in F2. }
    conjs; try lia; try reflexivity; try assumption.
    + apply fresh_flags.
  - unfold binv. cbn [c2 first outs last]. conjs; auto; try lia.
    intros _. split; [lia|]. split; [now replace (S i - 1) with i by lia|]. intros H.
    replace (S i - 1) with i by lia. apply andb_false_iff in T as [T|T]; [exact T|]. apply Nat.ltb_ge in T. lia.
Qed.

Lemma build_from_inv : forall l i s, skipn i f = l -> i <= length f -> binv i s ->
  binv (length f) (build_from f i l s).
Proof.
  induction l as [|x l IH]; intros i s E Hi B; cbn [build_from].
  - apply (f_equal (@length ir)) in E. rewrite skipn_length in E. cbn in E. now replace (length f) with i by lia.
  - destruct (nth_skipn _ _ _ _ E) as (N & E2).
    assert (i < length f) by (apply nth_error_Some; congruence).
    apply IH; [exact E2|lia|now apply build_one_inv].
Qed.

Lemma build_segs : 0 < length f -> segs 0 0 (build f) (length f).
Proof.
  intros NE.   unfold build. pose proof (build_from_inv f 0 ([], new_block 0 [])) as H.
  destruct (build_from f 0 f ([], new_block 0 [])) as [d c]. destruct H as (SG & LE & LT & CUR & FL & OU & BT).
  - reflexivity.
  - lia.
  - cbn [binv new_block first]. conjs; try lia; [constructor|apply fresh_flags|reflexivity|]. intros k b N. destruct k; discriminate.
  - destruct CUR as (CL & CI & _); [lia|].
    replace (length f) with (S (last c)) at 1 by lia. apply segs_snoc; [exact SG|].
    constructor; try lia.
    + now rewrite CL.
    + replace (S (last c)) with (length f) by lia. exact FL.
Qed.

Lemma build_built : 0 < length f -> forall k b, nth_error (build f) k = Some b -> built k b.
Proof.
  intros NE. unfold build. pose proof (build_from_inv f 0 ([], new_block 0 [])) as H.
  destruct (build_from f 0 f ([], new_block 0 [])) as [d c]. destruct H as (SG & LE & LT & CUR & FL & OU & BT).
  - reflexivity.
  - lia.
  - cbn [binv new_block first]. conjs; try lia; [constructor|apply fresh_flags|reflexivity|]. intros k b N. destruct k; discriminate.
  - intros k b N. destruct (Nat.lt_ge_cases k (length d)) as [L|L].
    + rewrite nth_error_app1 in N by exact L. now apply BT.
    + rewrite nth_error_app2 in N by exact L. destruct (k - length d) as [|q]; [|destruct q; discriminate].
      cbn in N. injection N as <-. intros m M. rewrite OU in M. destruct M.
Qed.

Lemma count_build : forall l i s, skipn i f = l ->
  count_blocks f i (first (snd s)) (S (length (fst s))) l =
  S (length (fst (build_from f i l s))).
Proof.
  induction l as [|x l IH]; intros i s E; cbn [count_blocks build_from]; [reflexivity|].
  destruct (nth_skipn _ _ _ _ E) as (_ & E2).
  rewrite <- IH by exact E2. destruct s as [d c]. unfold build_one. cbn [fst snd].
  destruct (target x && (0 <? i) && negb (first c =? i)); cbn [next_block fst snd];
    destruct (is_terminator f i && (S i <? length f)); cbn [next_block fst snd new_block first];
    rewrite ?app_length; cbn [length]; rewrite ?Nat.add_1_r; reflexivity.
Qed.

Lemma build_count : length (build f) = count_blocks f 0 0 1 f.
Proof.
  unfold build. pose proof (count_build f 0 ([], new_block 0 []) eq_refl) as H. cbn [fst snd new_block first length] in H.
  rewrite H. destruct (build_from f 0 f ([], new_block 0 [])) as [d c]. rewrite app_length. cbn. lia.
Qed.

(* Consequences of lying end to end. *)
Lemma segs_nth k p bs q : segs k p bs q -> forall j b, nth_error bs j = Some b ->
  blk (k + j) b /\ p <= first b /\ last b < q.
Proof.
  assert (UP : forall k p bs q, segs k p bs q -> p <= q).
  { intros k0 p0 bs0 q0 H. induction H as [|k0 b bs0 q0 B H IH]; [lia|]. pose proof (blk_order _ _ B). lia. }
  intros H. induction H as [k p|k b bs q B H IH]; intros j c N; [destruct j; discriminate|].
  destruct j as [|j]; cbn in N.
  - injection N as <-. rewrite Nat.add_0_r. split; [exact B|]. split; [lia|]. apply UP in H. lia.
  - destruct (IH j c N) as (B' & L & U). rewrite Nat.add_succ_r. split; [exact B'|].
    pose proof (blk_order _ _ B). lia.
Qed.

Lemma segs_next k p bs q : segs k p bs q -> forall j b c, nth_error bs j = Some b -> nth_error bs (S j) = Some c ->
  first c = S (last b).
Proof.
  intros H. induction H as [k p|k b bs q B H IH]; intros j b1 c N1 N2; [destruct j; discriminate|].
  destruct j as [|j]; cbn in N1, N2.
  - injection N1 as <-. destruct bs; [discriminate|]. cbn in N2. injection N2 as ->. inversion H; subst; reflexivity.
  - eapply IH; eassumption.
Qed.

Lemma segs_order k p bs q : segs k p bs q -> forall i j b c, i < j ->
  nth_error bs i = Some b -> nth_error bs j = Some c -> last b < first c.
Proof.
  intros H. induction H as [k p|k b bs q B H IH]; intros i j b1 c L N1 N2; [destruct i; discriminate|].
  destruct j as [|j]; [lia|]. destruct i as [|i]; cbn in N1, N2.
  - injection N1 as <-. destruct (segs_nth _ _ _ _ H j c N2) as (_ & U & _). lia.
  - apply (IH i j); auto; lia.
Qed.

Lemma segs_cover k p bs q pos : segs k p bs q -> p <= pos < q -> exists j, block_of bs pos j.
Proof.
  intros H. induction H as [k p|k b bs q B H IH]; intros L; [lia|].
  destruct (Nat.le_gt_cases pos (last b)).
  - exists 0, b. split; [reflexivity|lia].
  - destruct IH as (j & c & N & R); [lia|]. exists (S j), c. split; [exact N|exact R].
Qed.

Lemma segs_last k p bs q : segs k p bs q -> bs <> [] ->
  exists b, nth_error bs (length bs - 1) = Some b /\ S (last b) = q.
Proof.
  intros H. induction H as [k p|k b bs q B H IH]; intros L; [congruence|].
  destruct bs as [|c bs].
  - inversion H; subst. exists b. split; reflexivity.
  - destruct IH as (e & N & E); [discriminate|]. exists e. split; [|exact E].
    cbn [length] in *. now replace (S (S (length bs)) - 1) with (S (S (length bs) - 1)) by lia.
Qed.
End Build.

(* ---------- looking a block up ---------- *)

Lemma block_for_from_ok bs pos kt :
  block_of bs pos kt ->
  (forall i j b c, i < j -> nth_error bs i = Some b -> nth_error bs j = Some c -> last b < first c) ->
  (forall i b, nth_error bs i = Some b -> first b <= last b) ->
  forall fuel low high, (0 <= low)%Z -> (low <= Z.of_nat kt <= high)%Z -> (high < Z.of_nat (length bs))%Z ->
  (high - low + 1 < Z.of_nat fuel)%Z ->
  block_for_from fuel bs low high pos = Ok kt.
Proof.
  intros (bt & Nt & Rt) ORD WF fuel. induction fuel as [|fuel IH]; intros low high L0 LK LH LF; [lia|].
  cbn [block_for_from]. destruct (Z.leb_spec low high); [|lia].
  set (mid := ((low + high) / 2)%Z).
  assert (Hm : (low <= mid <= high)%Z).
  { unfold mid. split; [apply Z.div_le_lower_bound; lia|apply Z.div_le_upper_bound; lia]. }
  destruct (nth_error bs (Z.to_nat mid)) as [bb|] eqn:N.
  2:{ apply nth_error_None in N. lia. }
  destruct (Nat.ltb_spec (last bb) pos).
  - apply IH; try lia.
    assert (Z.to_nat mid < kt); [|lia].
    destruct (Nat.lt_trichotomy (Z.to_nat mid) kt) as [L|[L|L]]; [exact L| |].
    + rewrite L in N. assert (bb = bt) by congruence. subst. lia.
    + pose proof (ORD _ _ _ _ L Nt N). pose proof (WF _ _ N). lia.
  - destruct (Nat.ltb_spec pos (first bb)).
    + apply IH; try lia.
      assert (kt < Z.to_nat mid); [|lia].
      destruct (Nat.lt_trichotomy (Z.to_nat mid) kt) as [L|[L|L]]; [| |exact L].
      * pose proof (ORD _ _ _ _ L N Nt). pose proof (WF _ _ N). lia.
      * rewrite L in N. assert (bb = bt) by congruence. subst. lia.
    + f_equal. destruct (Nat.lt_trichotomy (Z.to_nat mid) kt) as [L|[L|L]]; [|exact L|].
      * pose proof (ORD _ _ _ _ L N Nt). lia.
      * pose proof (ORD _ _ _ _ L Nt N). lia.
Qed.

Lemma block_for_ok f bs pos k :
  segs f 0 0 bs (length f) -> block_of bs pos k -> block_for bs pos = Ok k.
Proof.
  intros SG B. unfold block_for. apply block_for_from_ok; auto.
  - eapply segs_order; eauto.
  - intros i b N. destruct (segs_nth _ _ _ _ _ SG i b N) as (X & _). apply X.
  - lia.
  - destruct B as (b & N & _). assert (k < length bs) by (apply nth_error_Some; congruence). lia.
  - lia.
  - lia.
Qed.

(* ---------- the edges of jumps ---------- *)

(* Equal but for further edges. *)
Definition grown (b c : block) : Prop :=
  first c = first b /\ last c = last b /\ aborts c = aborts b /\ rets c = rets b /\ incl (outs b) (outs c).
Definition grown_all (bs cs : list block) : Prop := Forall2 grown bs cs.

Lemma grown_refl b : grown b b.
Proof. unfold grown, incl. tauto. Qed.
Lemma grown_trans a b c : grown a b -> grown b c -> grown a c.
Proof. unfold grown. intuition (try congruence). eauto using incl_tran. Qed.
Lemma grown_all_refl bs : grown_all bs bs.
Proof. induction bs; constructor; auto using grown_refl. Qed.
Lemma grown_all_trans a b c : grown_all a b -> grown_all b c -> grown_all a c.
Proof.
  intros H. revert c. induction H as [|x y a b H1 H2 IH]; intros c Hc; inversion Hc; subst; constructor.
  - eauto using grown_trans.
  - now apply IH.
Qed.
Lemma grown_nth bs cs k b : grown_all bs cs -> nth_error bs k = Some b ->
  exists c, nth_error cs k = Some c /\ grown b c.
Proof.
  intros H. revert k. induction H as [|x y bs cs H1 H2 IH]; intros [|k] N; try discriminate.
  - injection N as <-. now exists y.
  - now apply IH.
Qed.
Lemma grown_block_of bs cs pos k : grown_all bs cs -> block_of bs pos k -> block_of cs pos k.
Proof.
  intros G (b & N & R). destruct (grown_nth _ _ _ _ G N) as (c & Nc & (A & B & _)). exists c.
  rewrite A, B. now split.
Qed.

Lemma upd_block_grown bs k g : (forall b, grown b (g b)) -> grown_all bs (upd_block bs k g).
Proof.
  intros G. unfold upd_block. destruct (nth_error bs k) as [b|] eqn:N; [|apply grown_all_refl].
  revert k N. induction bs as [|x bs IH]; intros [|k] N; try discriminate.
  - cbn in *. injection N as ->. constructor; [apply G|apply grown_all_refl].
  - cbn in *. constructor; [apply grown_refl|]. now apply IH.
Qed.

Lemma upd_block_nth bs k g b : nth_error bs k = Some b -> nth_error (upd_block bs k g) k = Some (g b).
Proof.
  intros N. unfold upd_block. rewrite N.
  assert (k < length bs) by (apply nth_error_Some; congruence).
  rewrite nth_error_app2; rewrite firstn_length_le by lia; [|lia]. now rewrite Nat.sub_diag.
Qed.

Lemma add_edge_grown bs from to : grown_all bs (add_edge bs from to).
Proof.
  unfold add_edge. eapply grown_all_trans; apply upd_block_grown; intros b; unfold grown; cbn;
    repeat apply conj; auto; [apply incl_appl, incl_refl|apply incl_refl].
Qed.

Lemma add_edge_edge bs from to : from < length bs -> edge (add_edge bs from to) from to.
Proof.
  intros H. destruct (nth_error bs from) as [b|] eqn:N; [|apply nth_error_None in N; lia].
  unfold add_edge.
  pose proof (upd_block_nth bs from (fun b => with_out b [to]) b N) as N1.
  destruct (grown_nth _ _ _ _ (upd_block_grown (upd_block bs from (fun b => with_out b [to])) to
     (fun b => with_in b [from]) ltac:(intros x; unfold grown; cbn; repeat apply conj; auto; apply incl_refl)) N1)
    as (c & Nc & (_ & _ & _ & _ & I1)).
  exists c. split; [exact Nc|]. apply I1. cbn. rewrite in_app_iff. right. now left.
Qed.

Lemma grown_edge bs cs k m : grown_all bs cs -> edge bs k m -> edge cs k m.
Proof.
  intros G (b & N & E). destruct (grown_nth _ _ _ _ G N) as (c & Nc & (_ & _ & _ & _ & I1)). exists c.
  split; [exact Nc|now apply I1].
Qed.

(* Growing keeps the blocks end to end. *)
Lemma grown_segs f k p bs cs q : grown_all bs cs -> segs f k p bs q -> segs f k p cs q.
Proof.
  intros G H. revert cs G. induction H as [k p|k b bs q B H IH]; intros cs G; inversion G as [|b0 c bs0 cs0 G1 G2]; subst.
  - constructor.
  - destruct G1 as (E1 & E2 & E3 & E4 & E5). rewrite <- E1. constructor.
    + destruct B as [B1 B2 B3 B4 B5 B6]. constructor; rewrite ?E1, ?E2; auto.
      * unfold flags_ok in *. now rewrite E1, E3, E4.
      * intros L F. apply E5, B6; [exact L|]. unfold falls in *. now rewrite E2, E3, E4 in F.
    + rewrite E2. now apply IH.
Qed.

Lemma jump_edges_ok f : forall l i bs, skipn i f = l -> segs f 0 0 bs (length f) ->
  (forall x t, In x l -> label_of x = Some t -> t < length f) ->
  exists cs, jump_edges (length f) i l bs = Ok cs /\ grown_all bs cs /\
    (forall j x t, nth_error l j = Some x -> label_of x = Some t ->
       exists k m, block_of cs (i + j) k /\ block_of cs t m /\ edge cs k m).
Proof.
  induction l as [|x l IH]; intros i bs E SG LB.
  - exists bs. split; [reflexivity|]. split; [apply grown_all_refl|]. intros j y t N. destruct j; discriminate.
  - destruct (nth_skipn _ _ _ _ E) as (Nx & E2). assert (Hi : i < length f) by (apply nth_error_Some; congruence).
    cbn [jump_edges]. destruct (label_of x) as [t|] eqn:Lx.
    + pose proof (LB x t (or_introl eq_refl) Lx) as Ht. rewrite (proj2 (Nat.ltb_lt _ _) Ht).
      destruct (segs_cover f 0 0 bs _ i SG) as (k & Bk); [lia|].
      destruct (segs_cover f 0 0 bs _ t SG) as (m & Bm); [lia|].
      rewrite (block_for_ok f bs i k SG Bk), (block_for_ok f bs t m SG Bm). cbn [bind].
      pose proof (add_edge_grown bs k m) as G1.
      destruct (IH (S i) (add_edge bs k m) E2) as (cs & R & G2 & P).
      { eapply grown_segs; eauto. }
      { intros y u Hy. apply LB. now right. }
      exists cs. split; [exact R|]. split; [eauto using grown_all_trans|].
      intros [|j] y u Nj Ly.
      * cbn in Nj. injection Nj as <-. assert (u = t) by congruence. subst u. exists k, m.
        rewrite Nat.add_0_r. repeat apply conj.
        -- eauto using grown_block_of, grown_all_trans.
        -- eauto using grown_block_of, grown_all_trans.
        -- eapply grown_edge; [exact G2|]. apply add_edge_edge. destruct Bk as (b & N & _).
           apply nth_error_Some. congruence.
      * rewrite Nat.add_succ_r. now apply (P j y u).
    + destruct (IH (S i) bs E2 SG) as (cs & R & G2 & P).
      { intros y u Hy. apply LB. now right. }
      exists cs. split; [exact R|]. split; [exact G2|].
      intros [|j] y u Nj Ly.
      * cbn in Nj. injection Nj as <-. congruence.
      * rewrite Nat.add_succ_r. now apply (P j y u).
Qed.

(* ---------- no other edges ---------- *)

(* An edge falls through or belongs to a label. *)
Definition real (f : prog) (bs : list block) : Prop :=
  forall k b m, nth_error bs k = Some b -> In m (outs b) ->
    (m = S k /\ S (last b) < length f /\ falls f b) \/
    exists i x t, first b <= i <= last b /\ nth_error f i = Some x /\ label_of x = Some t /\ block_of bs t m.

Lemma grown_nth_back bs cs k c : grown_all bs cs -> nth_error cs k = Some c ->
  exists b, nth_error bs k = Some b /\ grown b c.
Proof.
  intros G. revert k. induction G as [|b c0 bs cs G1 G2 IH]; intros [|k] N; try discriminate.
  - cbn in N. injection N as ->. exists b. split; [reflexivity|exact G1].
  - apply IH, N.
Qed.

Lemma upd_block_other bs k g j : j <> k -> nth_error (upd_block bs k g) j = nth_error bs j.
Proof.
  intros J. unfold upd_block. destruct (nth_error bs k) as [b|] eqn:N; [|reflexivity].
  revert k j N J. induction bs as [|x bs IH]; intros [|k] [|j] N J; try discriminate; try (now elim J); try reflexivity.
  cbn in *. apply IH; auto.
Qed.

Lemma upd_block_length bs k g : length (upd_block bs k g) = length bs.
Proof.
  unfold upd_block. destruct (nth_error bs k) as [b|] eqn:N; [|reflexivity].
  assert (k < length bs) by (apply nth_error_Some; congruence).
  rewrite app_length, firstn_length_le by lia. cbn [length]. rewrite skipn_length. lia.
Qed.

(* What adding an edge does to a block. *)
Lemma add_edge_nth bs k m j : nth_error (add_edge bs k m) j =
  match nth_error bs j with
  | None => None
  | Some b => let b1 := if j =? k then with_out b [m] else b in
              Some (if j =? m then with_in b1 [k] else b1)
  end.
Proof.
  unfold add_edge. set (g1 := fun b => with_out b [m]). set (g2 := fun b => with_in b [k]).
  assert (U : forall bs q g i, nth_error (upd_block bs q g) i =
            match nth_error bs i with None => None | Some b => Some (if i =? q then g b else b) end).
  { intros bs0 q g i. destruct (Nat.eqb_spec i q) as [->|D].
    - destruct (nth_error bs0 q) eqn:N; [now apply upd_block_nth|]. apply nth_error_None.
      rewrite upd_block_length. now apply nth_error_None.
    - rewrite upd_block_other by exact D. now destruct (nth_error bs0 i). }
  rewrite U, U. destruct (nth_error bs j); reflexivity.
Qed.

Lemma add_edge_real f bs i x t k m : real f bs -> nth_error f i = Some x -> label_of x = Some t ->
  block_of bs i k -> block_of bs t m -> real f (add_edge bs k m).
Proof.
  intros R Nx Lx Bk Bm j c q N M.
  pose proof (add_edge_grown bs k m) as G.
  destruct (grown_nth_back _ _ _ _ G N) as (b & Nb & (E1 & E2 & E3 & E4 & _)).
  rewrite add_edge_nth, Nb in N. cbn zeta in N. injection N as N.
  assert (M2 : In q (outs b) \/ (j = k /\ q = m)).
  { rewrite <- N in M. destruct (j =? m); cbn [outs with_in] in M; destruct (Nat.eqb_spec j k) as [J|J]; auto;
      cbn [outs with_out] in M; apply in_app_iff in M as [M|[M|[]]]; auto. }
  rewrite E1, E2. destruct M2 as [M2|(-> & ->)].
  - destruct (R _ _ _ Nb M2) as [(H1 & H2 & H3)|(i0 & x0 & t0 & H1 & H2 & H3 & H4)].
    + left. split; [exact H1|]. split; [exact H2|]. unfold falls in *. now rewrite E2, E3, E4.
    + right. exists i0, x0, t0. conjs; try apply H1; auto. eapply grown_block_of; eauto.
  - right. exists i, x, t. destruct Bk as (b0 & Nb0 & Rb). assert (b0 = b) by congruence. subst b0.
    conjs; try apply Rb; auto. eapply grown_block_of; eauto.
Qed.

Lemma jump_edges_real f : forall l i bs cs, skipn i f = l -> segs f 0 0 bs (length f) -> real f bs ->
  jump_edges (length f) i l bs = Ok cs -> real f cs.
Proof.
  induction l as [|x l IH]; intros i bs cs E SG R J.
  - cbn in J. injection J as <-. exact R.
  - destruct (nth_skipn _ _ _ _ E) as (Nx & E2). assert (Hi : i < length f) by (apply nth_error_Some; congruence).
    cbn [jump_edges] in J. destruct (label_of x) as [t|] eqn:Lx; [|eapply IH; eassumption].
    destruct (Nat.ltb_spec t (length f)) as [Ht|]; [|discriminate].
    destruct (segs_cover f 0 0 bs _ i SG) as (k & Bk); [lia|].
    destruct (segs_cover f 0 0 bs _ t SG) as (m & Bm); [lia|].
    rewrite (block_for_ok f bs i k SG Bk), (block_for_ok f bs t m SG Bm) in J. cbn [bind] in J.
    eapply (IH (S i) (add_edge bs k m)); eauto.
    + eapply grown_segs; eauto. apply add_edge_grown.
    + eapply add_edge_real; eauto.
Qed.

(* ---------- the lists of predecessors ---------- *)

Definition chain (bs : list block) : Prop :=
  (forall b, nth_error bs 0 = Some b -> ins b = []) /\
  (forall b, nth_error bs (length bs - 1) = Some b -> outs b = []) /\
  (forall k b c, nth_error bs k = Some b -> nth_error bs (S k) = Some c ->
     (outs b = [S k] /\ ins c = [k]) \/ (outs b = [] /\ ins c = [])).

Lemma nth_snoc {A} (l : list A) x k y : nth_error (l ++ [x]) k = Some y ->
  (k < length l /\ nth_error l k = Some y) \/ (k = length l /\ y = x).
Proof.
  intros N. destruct (Nat.lt_ge_cases k (length l)) as [L|L].
  - rewrite nth_error_app1 in N by exact L. auto.
  - rewrite nth_error_app2 in N by exact L. destruct (k - length l) as [|q] eqn:Q; [|destruct q; discriminate].
    cbn in N. injection N as ->. right. split; [lia|reflexivity].
Qed.

Lemma chain_last d c c' : outs c' = outs c -> ins c' = ins c -> chain (d ++ [c]) -> chain (d ++ [c']).
Proof.
  intros O I0 (A & B & C). assert (LN : length (d ++ [c']) = length (d ++ [c])) by (rewrite !app_length; reflexivity).
  assert (X : forall k b, nth_error (d ++ [c']) k = Some b ->
              exists b', nth_error (d ++ [c]) k = Some b' /\ outs b = outs b' /\ ins b = ins b').
  { intros k b N. apply nth_snoc in N as [(L & N)|(-> & ->)].
    - exists b. rewrite nth_error_app1 by exact L. auto.
    - exists c. rewrite nth_error_app2, Nat.sub_diag by lia. auto. }
  split; [|split].
  - intros b N. destruct (X _ _ N) as (b' & N' & _ & ->). now apply A.
  - intros b N. rewrite LN in N. destruct (X _ _ N) as (b' & N' & -> & _). now apply B.
  - intros k b e N1 N2. destruct (X _ _ N1) as (b' & N1' & -> & _). destruct (X _ _ N2) as (e' & N2' & _ & ->).
    eapply C; eauto.
Qed.

Lemma chain_next fall i d c : chain (d ++ [c]) ->
  let '(d2, c2) := next_block fall i (d, c) in chain (d2 ++ [c2]).
Proof.
  intros (A & B & C). cbn [next_block].
  set (c1 := with_out c (if fall then [S (length d)] else [])).
  set (c2 := new_block i (if fall then [length d] else [])).
  assert (OC : outs c = []).
  { apply B. rewrite app_length. cbn [length]. replace (length d + 1 - 1) with (length d) by lia.
    rewrite nth_error_app2, Nat.sub_diag by lia. reflexivity. }
  split; [|split].
  - intros b N. apply nth_snoc in N as [(L & N)|(E & _)]; [|rewrite app_length in E; cbn in E; lia].
    apply nth_snoc in N as [(L2 & N)|(E & ->)].
    + apply A. now rewrite nth_error_app1.
    + change (ins c1) with (ins c). apply A. rewrite nth_error_app2 by lia. now rewrite <- E, Nat.sub_diag.
  - intros b N. apply nth_snoc in N as [(L & N)|(E & ->)]; [|reflexivity].
    rewrite !app_length in N, L. cbn in N, L. lia.
  - intros k b e N1 N2. apply nth_snoc in N2 as [(L2 & N2)|(E2 & ->)].
    + apply nth_snoc in N1 as [(L1 & N1)|(E1 & ->)]; [|lia].
      apply nth_snoc in N1 as [(L1' & N1)|(E1 & ->)]; [|rewrite app_length in L2; cbn in L2; lia].
      apply nth_snoc in N2 as [(L2' & N2)|(E2 & ->)].
      * apply C; rewrite nth_error_app1 by assumption; assumption.
      * change (ins c1) with (ins c). apply C; [now rewrite nth_error_app1|].
        rewrite nth_error_app2 by lia. now rewrite E2, Nat.sub_diag.
    + rewrite app_length in E2. cbn in E2. assert (k = length d) by lia. subst k.
      apply nth_snoc in N1 as [(L1 & N1)|(E1 & ->)]; [|rewrite app_length in E1; cbn in E1; lia].
      apply nth_snoc in N1 as [(L1' & N1)|(E1 & ->)]; [lia|].
      cbn [c1 c2 outs ins with_out new_block]. rewrite OC. destruct fall; [left|right]; split; reflexivity.
Qed.

Lemma chain_build f : chain (build f).
Proof.
  unfold build.
  assert (G : forall l i s, chain (fst s ++ [snd s]) ->
            chain (fst (build_from f i l s) ++ [snd (build_from f i l s)])).
  { induction l as [|x l IH]; intros i s H; [exact H|]. cbn [build_from]. apply IH.
    unfold build_one. cbv zeta.
    set (s1 := if target x && (0 <? i) && negb (first (snd s) =? i) then next_block (negb (rets (snd s)) && negb (aborts (snd s))) i s else s).
    assert (H1 : chain (fst s1 ++ [snd s1])).
    { unfold s1. destruct (target x && (0 <? i) && negb (first (snd s) =? i)); [|exact H].
      destruct s as [d c]. cbn [fst snd] in *.
      pose proof (chain_next (negb (rets c) && negb (aborts c)) i d c H) as X. exact X. }
    set (c1 := Block (first (snd s1)) i
              (if is_ret x then aborts (snd s1) else if will_abort x then true else aborts (snd s1))
              (if is_ret x then true else rets (snd s1)) (outs (snd s1)) (ins (snd s1))).
    assert (H2 : chain (fst s1 ++ [c1])) by (eapply chain_last; [| |exact H1]; reflexivity).
    destruct (is_terminator f i && (S i <? length f)); [|exact H2].
    pose proof (chain_next ((op_eqb (op x) J_JUMP && negb (cc_none (cc x))) || op_eqb (op x) MACRO_CASE) (S i) _ _ H2) as X.
    exact X. }
  specialize (G f 0 ([], new_block 0 [])).
  destruct (build_from f 0 f ([], new_block 0 [])) as [d c]. apply G.
  cbn. split; [|split].
  - intros b N. injection N as <-. reflexivity.
  - intros b N. injection N as <-. reflexivity.
  - intros k b e N1 N2. destruct k as [|[|k]]; discriminate.
Qed.

(* Predecessors and successors match. *)
Definition paired (bs : list block) : Prop :=
  forall k m, (exists b, nth_error bs k = Some b /\ In m (outs b)) /\ m < length bs <->
              (exists c, nth_error bs m = Some c /\ In k (ins c)) /\ k < length bs.

Lemma chain_paired bs : chain bs -> paired bs.
Proof.
  intros (A & B & C) k m. split.
  - intros ((b & N & H) & L). assert (Lk : k < length bs) by (apply nth_error_Some; congruence).
    split; [|exact Lk]. destruct (nth_error bs (S k)) as [c|] eqn:N2.
    + destruct (C _ _ _ N N2) as [(E1 & E2)|(E1 & E2)]; rewrite E1 in H; [|destruct H].
      destruct H as [<-|[]]. exists c. rewrite E2. cbn. auto.
    + apply nth_error_None in N2. rewrite (B b) in H; [destruct H|]. now replace (length bs - 1) with k by lia.
  - intros ((c & N & H) & L). assert (Lm : m < length bs) by (apply nth_error_Some; congruence).
    split; [|exact Lm]. destruct m as [|m].
    + rewrite (A c N) in H. destruct H.
    + destruct (nth_error bs m) as [b|] eqn:N2; [|apply nth_error_None in N2; lia].
      destruct (C _ _ _ N2 N) as [(E1 & E2)|(E1 & E2)]; rewrite E2 in H; [|destruct H].
      destruct H as [<-|[]]. exists b. rewrite E1. cbn. auto.
Qed.

Lemma add_edge_length bs k m : length (add_edge bs k m) = length bs.
Proof. unfold add_edge. now rewrite !upd_block_length. Qed.

Lemma paired_add bs k m : k < length bs -> m < length bs -> paired bs -> paired (add_edge bs k m).
Proof.
  intros Lk Lm P i j. specialize (P i j). rewrite !add_edge_nth, !add_edge_length.
  assert (O : (exists b, match nth_error bs i with
               | None => None
               | Some b => let b1 := if i =? k then with_out b [m] else b in
                           Some (if i =? m then with_in b1 [k] else b1)
               end = Some b /\ In j (outs b)) <->
              (exists b, nth_error bs i = Some b /\ In j (outs b)) \/ (i = k /\ j = m /\ i < length bs)).
  { destruct (nth_error bs i) as [b|] eqn:N.
    - assert (i < length bs) by (apply nth_error_Some; congruence). cbn zeta. split.
      + intros (b' & E & H0). injection E as <-.
        destruct (i =? m); cbn [outs with_in] in H0; destruct (Nat.eqb_spec i k); cbn [outs with_out] in H0;
          try (apply in_app_iff in H0 as [H0|[H0|[]]]); eauto; right; auto.
      + intros [(b' & E & H0)|(-> & -> & _)].
        * injection E as <-. eexists. split; [reflexivity|].
          destruct (i =? m); cbn [outs with_in]; destruct (i =? k); cbn [outs with_out]; try apply in_app_iff; auto.
        * eexists. split; [reflexivity|]. rewrite Nat.eqb_refl.
          destruct (k =? m); cbn [outs with_in with_out]; apply in_app_iff; right; now left.
    - apply nth_error_None in N. split; [intros (b & E & _); discriminate|].
      intros [(b & E & _)|(-> & _ & L)]; [discriminate|lia]. }
  assert (O2 : (exists b, match nth_error bs j with
               | None => None
               | Some b => let b1 := if j =? k then with_out b [m] else b in
                           Some (if j =? m then with_in b1 [k] else b1)
               end = Some b /\ In i (ins b)) <->
              (exists b, nth_error bs j = Some b /\ In i (ins b)) \/ (i = k /\ j = m /\ j < length bs)).
  { destruct (nth_error bs j) as [b|] eqn:N.
    - assert (j < length bs) by (apply nth_error_Some; congruence). cbn zeta. split.
      + intros (b' & E & H0). injection E as <-.
        destruct (Nat.eqb_spec j m); cbn [ins with_in] in H0; destruct (j =? k); cbn [ins with_out] in H0;
          try (apply in_app_iff in H0 as [H0|[H0|[]]]); eauto; right; auto.
      + intros [(b' & E & H0)|(-> & -> & _)].
        * injection E as <-. eexists. split; [reflexivity|].
          destruct (j =? m); cbn [ins with_in]; destruct (j =? k); cbn [ins with_out]; try apply in_app_iff; auto.
        * eexists. split; [reflexivity|]. rewrite Nat.eqb_refl.
          destruct (m =? k); cbn [ins with_in with_out]; apply in_app_iff; right; now left.
    - apply nth_error_None in N. split; [intros (b & E & _); discriminate|].
      intros [(b & E & _)|(_ & -> & L)]; [discriminate|lia]. }
  rewrite O, O2. intuition (subst; auto).
Qed.

Lemma jump_edges_paired f : forall l i bs cs, skipn i f = l -> segs f 0 0 bs (length f) -> paired bs ->
  jump_edges (length f) i l bs = Ok cs -> paired cs.
Proof.
  induction l as [|x l IH]; intros i bs cs E SG R J.
  - cbn in J. injection J as <-. exact R.
  - destruct (nth_skipn _ _ _ _ E) as (Nx & E2). assert (Hi : i < length f) by (apply nth_error_Some; congruence).
    cbn [jump_edges] in J. destruct (label_of x) as [t|] eqn:Lx; [|eapply IH; eassumption].
    destruct (Nat.ltb_spec t (length f)) as [Ht|]; [|discriminate].
    destruct (segs_cover f 0 0 bs _ i SG) as (k & Bk); [lia|].
    destruct (segs_cover f 0 0 bs _ t SG) as (m & Bm); [lia|].
    rewrite (block_for_ok f bs i k SG Bk), (block_for_ok f bs t m SG Bm) in J. cbn [bind] in J.
    eapply (IH (S i) (add_edge bs k m)); eauto.
    + eapply grown_segs; eauto. apply add_edge_grown.
    + apply paired_add; auto; [destruct Bk as (b & N & _)|destruct Bm as (b & N & _)];
        apply nth_error_Some; congruence.
Qed.

(* ---------- the whole graph ---------- *)

Record cfg_ok (f : prog) (cs : list block) : Prop := {
  ok_segs : segs f 0 0 cs (length f);
  ok_real : real f cs;
  ok_paired : paired cs;
  ok_labels : forall i x t, nth_error f i = Some x -> label_of x = Some t ->
     exists k m, block_of cs i k /\ block_of cs t m /\ edge cs k m }.

Lemma label_of_arg x t : label_of x = Some t -> arg1 x = VLabel t \/ arg2 x = VLabel t.
Proof. unfold label_of. destruct (op x); try discriminate; [destruct (arg1 x)|destruct (arg2 x)]; try discriminate; intros H; injection H as ->; auto. Qed.

Lemma get_cfg_ok f : 0 < length f ->
  (forall x t, In x f -> label_of x = Some t -> t < length f) ->
  exists cs, get_cfg f = Ok cs /\ cfg_ok f cs.
Proof.
  intros NE LB. unfold get_cfg. rewrite (build_count f), Nat.leb_refl.
  pose proof (build_segs f NE) as SG.
  destruct (jump_edges_ok f f 0 (build f) eq_refl SG LB) as (cs & J & G & P).
  exists cs. split; [exact J|]. constructor.
  - eapply grown_segs; eauto.
  - eapply (jump_edges_real f f 0 (build f)); eauto. intros k b m N M. left. eapply build_built; eauto.
  - eapply (jump_edges_paired f f 0 (build f)); eauto. apply chain_paired, chain_build.
  - intros i x t N L. exact (P i x t N L).
Qed.
