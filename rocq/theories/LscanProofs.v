From Coq Require Import List ZArith NArith Arith Bool Lia Sorting.Permutation Sorting.Sorted.
From Verif Require Import Base JitModel CfgModel CfgSpec CfgProofs LscanModel LscanSpec.
Import ListNotations.

(* ---------- free registers ---------- *)

Definition cnt (fr : freeset) : nat := length (filter fr (seq 0 32)).

Lemma filter_upd (fr : freeset) s b l : NoDup l ->
  length (filter (upd fr s b) l) + (if existsb (Nat.eqb s) l then (if fr s then 1 else 0) else 0) =
  length (filter fr l) + (if existsb (Nat.eqb s) l then (if b then 1 else 0) else 0).
Proof.
  induction l as [|x l IH]; intros ND; [reflexivity|]. inversion ND as [|x0 l0 N1 N2]; subst.
  specialize (IH N2). cbn [filter existsb]. unfold upd at 1. rewrite (Nat.eqb_sym x s).
  destruct (Nat.eqb_spec s x) as [->|D]; cbn [orb].
  - assert (E : existsb (Nat.eqb x) l = false).
    { destruct (existsb (Nat.eqb x) l) eqn:E; [|reflexivity]. apply existsb_exists in E as (y & I0 & Q).
      apply Nat.eqb_eq in Q. subst y. contradiction. }
    rewrite E in IH. destruct b, (fr x); cbn [length]; lia.
  - destruct (fr x); cbn [length]; lia.
Qed.

Lemma cnt_upd fr s b : s < 32 ->
  cnt (upd fr s b) + (if fr s then 1 else 0) = cnt fr + (if b then 1 else 0).
Proof.
  intros L. unfold cnt. pose proof (filter_upd fr s b (seq 0 32) (seq_NoDup _ _)) as H.
  assert (E : existsb (Nat.eqb s) (seq 0 32) = true).
  { apply existsb_exists. exists s. split; [apply in_seq; lia|apply Nat.eqb_refl]. }
  rewrite E in H. exact H.
Qed.

Lemma lowest_some fr s : lowest fr = Some s -> s < 32 /\ fr s = true.
Proof. unfold lowest. intros H. apply find_some in H as (I0 & F). apply in_seq in I0. split; [lia|exact F]. Qed.
Lemma lowest_none fr : lowest fr = None -> cnt fr = 0.
Proof.
  unfold lowest, cnt. intros H. generalize (find_none _ _ H). clear. induction (seq 0 32) as [|x l IH]; intros F; [reflexivity|].
  cbn [filter]. rewrite (F x (or_introl eq_refl)). apply IH. intros y I0. apply F. now right.
Qed.

Lemma allowed_lt bm s : allowed bm s = true -> s < 32.
Proof. unfold allowed. intros H. apply andb_true_iff in H as (H & _). now apply Nat.ltb_lt. Qed.

Lemma filter_negb (p : nat -> bool) l : length (filter (fun x => negb (p x)) l) + length (filter p l) = length l.
Proof. induction l as [|x l IH]; cbn; [reflexivity|]. destruct (p x); cbn; lia. Qed.

Lemma cnt_allowed bm : cnt (allowed bm) = rint bm.
Proof.
  unfold cnt, rint, popcount. pose proof (filter_negb (fun r => N.testbit bm (N.of_nat r)) (seq 0 32)) as H.
  rewrite seq_length in H.
  assert (E : filter (allowed bm) (seq 0 32) = filter (fun x => negb (N.testbit bm (N.of_nat x))) (seq 0 32)).
  { apply filter_ext_in. intros a I0. apply in_seq in I0. unfold allowed. destruct (Nat.ltb_spec a 32); [reflexivity|lia]. }
  rewrite E. lia.
Qed.

Local Opaque rint cnt allowed lowest.

(* ---------- the list of active intervals ---------- *)

Definition by_last (a b : interval) : Prop := (ilast a <= ilast b)%Z.

Lemma insert_perm i act : Permutation (i :: act) (insert_active i act).
Proof.
  induction act as [|a act IH]; cbn [insert_active]; [apply Permutation_refl|].
  destruct (ilast a <=? ilast i)%Z; [|apply Permutation_refl].
  eapply Permutation_trans; [apply perm_swap|]. now constructor.
Qed.

Lemma insert_sorted i act : StronglySorted by_last act -> StronglySorted by_last (insert_active i act).
Proof.
  induction act as [|a act IH]; intros H; cbn [insert_active].
  - constructor; [constructor|constructor].
  - inversion H as [|a0 l0 H1 H2]; subst. destruct (Z.leb_spec (ilast a) (ilast i)).
    + constructor; [now apply IH|]. apply Forall_forall. intros x X.
      apply (Permutation_in x (Permutation_sym (insert_perm i act))) in X. destruct X as [<-|X]; [assumption|].
      rewrite Forall_forall in H2. now apply H2.
    + constructor; [exact H|]. apply Forall_forall. intros x [<-|X]; [unfold by_last; lia|].
      rewrite Forall_forall in H2. specialize (H2 x X). unfold by_last in *. lia.
Qed.

Lemma sorted_app_inv l1 l2 : StronglySorted by_last (l1 ++ l2) -> StronglySorted by_last l1 /\ StronglySorted by_last l2.
Proof.
  induction l1 as [|x l1 IH]; cbn; intros H; [split; [constructor|exact H]|].
  inversion H as [|a0 l0 H1 H2]; subst. destruct (IH H1) as (A & B). split; [|exact B]. constructor; [exact A|].
  rewrite Forall_forall in *. intros y Y. apply H2, in_app_iff. auto.
Qed.

Lemma NoDup_app_remove_l {A} (l l' : list A) : NoDup (l ++ l') -> NoDup l'.
Proof. induction l as [|x l IH]; cbn; intros H; [exact H|]. inversion H; auto. Qed.
Lemma NoDup_app_remove_r {A} (l l' : list A) : NoDup (l ++ l') -> NoDup l.
Proof.
  induction l as [|x l IH]; cbn; intros H; [constructor|]. inversion H as [|x0 l0 H1 H2]; subst.
  constructor; [|auto]. intros X. apply H1, in_app_iff. auto.
Qed.

(* ---------- the state ---------- *)

Section Alloc.
Variable bm : N.

(* [dn] are the intervals done; those to come begin at [p] or later. *)
Record linv (p : Z) (dn : list interval) (st : lstate) : Prop := {
  l_act : forall a, In a (active st) -> In a dn;
  l_nodup : NoDup (map ireg (active st));
  l_sorted : StronglySorted by_last (active st);
  l_slot : forall a, In a (active st) -> exists s, slots st (ireg a) = Some s /\ allowed bm s = true /\ freeregs st s = false;
  l_distinct : forall a b, In a (active st) -> In b (active st) -> slots st (ireg a) = slots st (ireg b) -> ireg a = ireg b;
  l_free : forall s, freeregs st s = true -> allowed bm s = true;
  l_count : length (active st) + cnt (freeregs st) = rint bm;
  l_spill : STACK_BASE <= next_spill st;
  l_done : forall d, In d dn ->
    In d (active st) \/
    (exists s, slots st (ireg d) = Some s /\ STACK_BASE <= s < next_spill st) \/
    (exists s, slots st (ireg d) = Some s /\ allowed bm s = true /\ (ilast d < p)%Z);
  l_safe : forall d e, In d dn -> In e dn -> ireg d <> ireg e -> overlap d e ->
    slots st (ireg d) <> slots st (ireg e) }.

Lemma linv_later p q dn st : (p <= q)%Z -> linv p dn st -> linv q dn st.
Proof.
  intros L [H1 H2 H3 H4 H5 H6 H7 H8 H9 H10]. constructor; auto. intros d D.
  destruct (H9 d D) as [A|[A|(s & A & B & C)]]; auto. right. right. exists s. conjs; auto. lia.
Qed.

Lemma slot_small s : allowed bm s = true -> s < STACK_BASE.
Proof. intros H. apply allowed_lt in H. unfold STACK_BASE. lia. Qed.

Lemma expire_ok sl pos : forall act fr act' fr',
  (forall a, In a act -> exists s, sl (ireg a) = Some s /\ allowed bm s = true /\ fr s = false) ->
  (forall a b, In a act -> In b act -> sl (ireg a) = sl (ireg b) -> ireg a = ireg b) ->
  NoDup (map ireg act) ->
  expire sl pos act fr = Ok (act', fr') ->
  exists dr, act = dr ++ act' /\ (forall a, In a dr -> (ilast a < pos)%Z) /\
    length act + cnt fr = length act' + cnt fr' /\
    (forall s, fr s = true -> fr' s = true) /\
    (forall s, fr' s = true -> fr s = true \/ exists a, In a dr /\ sl (ireg a) = Some s) /\
    (StronglySorted by_last act -> forall a, In a act' -> (pos <= ilast a)%Z).
Proof.
  induction act as [|a act IH]; intros fr act' fr' SL DI ND E; cbn [expire] in E.
  - injection E as <- <-. exists []. conjs; auto; cbn [In]; tauto.
  - destruct (Z.leb_spec pos (ilast a)) as [L|L].
    + injection E as <- <-. exists []. conjs; auto; try (cbn [In]; tauto).
      intros SO b [<-|B]; [exact L|]. inversion SO as [|a0 l0 H1 H2]; subst. rewrite Forall_forall in H2. specialize (H2 b B).
      unfold by_last in H2. lia.
    + destruct (SL a (or_introl eq_refl)) as (s & Ss & As & Fs). rewrite Ss in E.
      rewrite (proj2 (Nat.ltb_lt _ _) (slot_small s As)) in E.
      cbn [map] in ND. inversion ND as [|x0 l0 ND1 ND2]; subst.
      destruct (IH (upd fr s true) act' fr') as (dr & E1 & E2 & E3 & E4 & E5 & E6); auto.
      * intros b B. destruct (SL b (or_intror B)) as (s2 & S2 & A2 & F2). exists s2. conjs; auto.
        unfold upd. destruct (Nat.eqb_spec s2 s) as [->|]; [|exact F2]. exfalso. apply ND1.
        rewrite (DI a b (or_introl eq_refl) (or_intror B)) by congruence. now apply in_map.
      * intros b c B C. apply DI; now right.
      * exists (a :: dr). conjs.
        -- now rewrite E1.
        -- intros b [<-|B]; [exact L|now apply E2].
        -- pose proof (cnt_upd fr s true (allowed_lt _ _ As)) as C. rewrite Fs in C. cbn [length] in *. lia.
        -- intros s2 F. apply E4. unfold upd. destruct (s2 =? s); auto.
        -- intros s2 F. destruct (E5 s2 F) as [F2|(b & B & F2)].
           ++ unfold upd in F2. destruct (Nat.eqb_spec s2 s) as [->|]; [|auto]. right. exists a. split; [now left|exact Ss].
           ++ right. exists b. split; [now right|exact F2].
        -- intros SO. apply E6. inversion SO; auto.
Qed.

Lemma expire_total sl pos : forall act fr,
  (forall a, In a act -> exists s, sl (ireg a) = Some s /\ allowed bm s = true) ->
  exists r, expire sl pos act fr = Ok r.
Proof.
  induction act as [|a act IH]; intros fr SL; cbn [expire]; [eauto|].
  destruct (pos <=? ilast a)%Z; [eauto|]. destruct (SL a (or_introl eq_refl)) as (s & Ss & As). rewrite Ss.
  rewrite (proj2 (Nat.ltb_lt _ _) (slot_small s As)). apply IH. intros b B. apply SL. now right.
Qed.

Lemma no_overlap_before d e : (ilast d < ifirst e)%Z -> ~ overlap d e.
Proof. intros L (p & (A & B) & (C & D)). lia. Qed.

Lemma overlap_sym d e : overlap d e -> overlap e d.
Proof. intros (p & A & B). exists p. auto. Qed.

Lemma upd_neq {A} (g : nat -> A) r x v : x <> r -> upd g r v x = g x.
Proof. intros D. unfold upd. destruct (Nat.eqb_spec x r); [contradiction|reflexivity]. Qed.
Lemma upd_eq {A} (g : nat -> A) r v : upd g r v r = v.
Proof. unfold upd. now rewrite Nat.eqb_refl. Qed.

Lemma same_reg dn (U : NoDup (map ireg dn)) a b : In a dn -> In b dn -> ireg a = ireg b -> a = b.
Proof.
  intros A B E. induction dn as [|x dn IH]; [destruct A|]. cbn in U. inversion U as [|x0 l0 U1 U2]; subst.
  destruct A as [<-|A], B as [<-|B]; auto.
  - elim U1. rewrite E. now apply in_map.
  - elim U1. rewrite <- E. now apply in_map.
Qed.

(* One interval. *)
Lemma alloc_one_ok p dn st this : linv p dn st -> (p <= ifirst this)%Z -> 0 < rint bm ->
  NoDup (map ireg (this :: dn)) ->
  exists st', alloc_one (rint bm) this st = Ok st' /\ linv (ifirst this) (this :: dn) st' /\
    (next_spill st' = next_spill st \/
     (exists act, (forall a, In a act -> In a dn /\ (ifirst this <= ilast a)%Z) /\ NoDup (map ireg act) /\ length act = rint bm)).
Proof.
  intros IV LP RP U. destruct IV as [H1 H2 H3 H4 H5 H6 H7 H8 H9 H10].
  assert (TD : ~ In (ireg this) (map ireg dn)) by (cbn in U; inversion U; assumption).
  assert (UD : NoDup (map ireg dn)) by (cbn in U; inversion U; assumption).
  unfold alloc_one.
  destruct (expire_total (slots st) (ifirst this) (active st) (freeregs st)) as ([act fr] & EX).
  { intros a A. destruct (H4 a A) as (s & X & Y & _). eauto. }
  rewrite EX. cbn [bind].
  destruct (expire_ok (slots st) (ifirst this) (active st) (freeregs st) act fr H4 H5 H2 EX)
    as (dr & E1 & E2 & E3 & E4 & E5 & E6). specialize (E6 H3).
  (* what is left *)
  assert (IA : forall a, In a act -> In a (active st)) by (intros a A; rewrite E1; apply in_app_iff; auto).
  assert (ND : NoDup (map ireg act)) by (rewrite E1, map_app in H2; now apply NoDup_app_remove_l in H2).
  assert (SO : StronglySorted by_last act) by (rewrite E1 in H3; now apply sorted_app_inv in H3).
  assert (NT : forall d, In d dn -> ireg d <> ireg this) by (intros d D X; apply TD; rewrite <- X; now apply in_map).
  assert (FA : forall a, In a act -> exists s, slots st (ireg a) = Some s /\ allowed bm s = true /\ fr s = false).
  { intros a A. destruct (H4 a (IA a A)) as (s & X & Y & Z0). exists s. conjs; auto.
    destruct (fr s) eqn:F; [|reflexivity]. destruct (E5 s F) as [F2|(b & B & F2)]; [congruence|].
    exfalso. assert (EQ : ireg a = ireg b).
    { apply H5; [auto|rewrite E1; apply in_app_iff; auto|congruence]. }
    rewrite E1, map_app in H2. clear -H2 A B EQ. induction dr as [|x dr IH]; [destruct B|].
    cbn in H2. inversion H2 as [|x0 l0 N1 N2]; subst. destruct B as [->|B]; [|now apply IH].
    apply N1, in_app_iff. right. rewrite <- EQ. now apply in_map. }
  assert (FR : forall s, fr s = true -> allowed bm s = true).
  { intros s F. destruct (E5 s F) as [F2|(b & B & F2)]; [now apply H6|].
    destruct (H4 b) as (s2 & X & Y & _); [rewrite E1; apply in_app_iff; auto|]. congruence. }
  assert (DN : forall d, In d dn -> In d act \/ (exists s, slots st (ireg d) = Some s /\ STACK_BASE <= s < next_spill st) \/
             (exists s, slots st (ireg d) = Some s /\ allowed bm s = true /\ (ilast d < ifirst this)%Z)).
  { intros d D. destruct (H9 d D) as [A|[A|(s & A & B & C)]].
    - rewrite E1 in A. apply in_app_iff in A as [A|A]; [|auto]. right. right.
      destruct (H4 d) as (s & X & Y & _); [rewrite E1; apply in_app_iff; auto|]. exists s. conjs; auto.
    - auto.
    - right. right. exists s. conjs; auto. lia. }
  assert (ACT : forall a, In a act -> In a dn) by auto.
  assert (DI : forall a b, In a act -> In b act -> slots st (ireg a) = slots st (ireg b) -> ireg a = ireg b) by auto.
  destruct (Nat.eqb_spec (length act) (rint bm)) as [FULL|NF].
  - (* spilling *)
    assert (EXT : exists act0, (forall a, In a act0 -> In a dn /\ (ifirst this <= ilast a)%Z) /\ NoDup (map ireg act0) /\ length act0 = rint bm).
    { exists act. conjs; auto. }
    destruct (rev act) as [|spill ract] eqn:RA.
    { assert (act = []) by (apply (f_equal (@rev _)) in RA; now rewrite rev_involutive in RA). subst act. cbn in FULL. lia. }
    assert (AE : act = rev ract ++ [spill]).
    { rewrite <- (rev_involutive act), RA. reflexivity. }
    assert (SPA : In spill act) by (rewrite AE; apply in_app_iff; right; now left).
    destruct (Z.ltb_spec (ilast this) (ilast spill)) as [LS|LS].
    + (* the last active interval gives its register away *)
      eexists. split; [reflexivity|]. split; [|right; exact EXT].
      destruct (FA spill SPA) as (s0 & S0 & A0 & F0).
      set (act1 := rev ract) in *. set (act2 := insert_active this act1).
      assert (PM : Permutation (this :: act1) act2) by apply insert_perm.
      assert (IN2 : forall a, In a act2 -> a = this \/ (In a act1 /\ In a act /\ ireg a <> ireg spill)).
      { intros a A. apply (Permutation_in a (Permutation_sym PM)) in A. destruct A as [<-|A]; [auto|]. right.
        assert (A' : In a act) by (rewrite AE; apply in_app_iff; auto). conjs; auto.
        intros X. rewrite AE, map_app in ND. cbn in ND. apply NoDup_remove_2 in ND. apply ND.
        rewrite app_nil_r, <- X. now apply in_map. }
      assert (SPT : ireg spill <> ireg this) by (apply NT; auto).
      set (sl := upd (upd (slots st) (ireg this) (slots st (ireg spill))) (ireg spill) (Some (next_spill st))).
      assert (SLT : sl (ireg this) = Some s0).
      { unfold sl. rewrite upd_neq by congruence. now rewrite upd_eq. }
      assert (SLS : sl (ireg spill) = Some (next_spill st)) by (unfold sl; apply upd_eq).
      assert (SLO : forall d, In d dn -> ireg d <> ireg spill -> sl (ireg d) = slots st (ireg d)).
      { intros d D X. unfold sl. rewrite upd_neq by exact X. apply upd_neq. now apply NT. }
      assert (OLD : forall d s, In d dn -> ireg d <> ireg spill -> slots st (ireg d) = Some s -> s < next_spill st).
      { intros d s D X Y. destruct (DN d D) as [A|[(s' & A & B)|(s' & A & B & _)]].
        - destruct (FA d A) as (s' & A' & B' & _). apply slot_small in B'. assert (s' = s) by congruence. lia.
        - assert (s' = s) by congruence. lia.
        - apply slot_small in B. assert (s' = s) by congruence. lia. }
      assert (S0N : s0 <> next_spill st) by (apply slot_small in A0; lia).
      (* an older interval in the register that is given away does not overlap *)
      assert (OT : forall d, In d dn -> ireg d <> ireg spill -> overlap this d -> slots st (ireg d) <> Some s0).
      { intros d D X OV Y. destruct (DN d D) as [A|[(s' & A & B)|(s' & A & B & C)]].
        - apply X. apply DI; auto. congruence.
        - apply slot_small in A0. assert (s' = s0) by congruence. lia.
        - apply (no_overlap_before d this C). now apply overlap_sym. }
      constructor; cbn [active slots freeregs next_spill]; fold sl; fold act1; fold act2.
      * intros a A. destruct (IN2 a A) as [->|(_ & A' & _)]; [now left|right; auto].
      * apply (Permutation_NoDup (l := map ireg (this :: act1))); [now apply Permutation_map|]. cbn. constructor.
        -- intros X. apply TD. apply in_map_iff in X as (a & Q & A). rewrite <- Q. apply in_map, ACT. rewrite AE. apply in_app_iff; auto.
        -- rewrite AE, map_app in ND. now apply NoDup_app_remove_r in ND.
      * apply insert_sorted. rewrite AE in SO. now apply sorted_app_inv in SO.
      * intros a A. destruct (IN2 a A) as [->|(_ & A' & X)].
        -- exists s0. auto.
        -- destruct (FA a A') as (s & P1 & P2 & P3). exists s. rewrite SLO by auto. auto.
      * intros a b A B Q. destruct (IN2 a A) as [->|(_ & A' & X)], (IN2 b B) as [->|(_ & B' & Y)]; auto.
        -- exfalso. rewrite SLT, SLO in Q by auto. apply Y. apply DI; auto. congruence.
        -- exfalso. rewrite SLT, SLO in Q by auto. apply X. apply DI; auto. congruence.
        -- rewrite !SLO in Q by auto. now apply DI.
      * exact FR.
      * rewrite <- (Permutation_length PM). cbn [length]. rewrite AE, app_length in E3. cbn in E3. lia.
      * lia.
      * intros d [<-|D].
        -- left. apply (Permutation_in _ PM). now left.
        -- destruct (Nat.eq_dec (ireg d) (ireg spill)) as [X|X].
           ++ right. left. exists (next_spill st). rewrite X. split; [exact SLS|lia].
           ++ destruct (DN d D) as [A|[(s' & A & B)|(s' & A & B & C)]].
              ** left. apply (Permutation_in _ PM). right. rewrite AE in A. apply in_app_iff in A as [A|[<-|[]]]; [exact A|congruence].
              ** right. left. exists s'. rewrite SLO by auto. split; [exact A|lia].
              ** right. right. exists s'. rewrite SLO by auto. auto.
      * intros d e [<-|D] [<-|E] NE OV.
        -- congruence.
        -- rewrite SLT. destruct (Nat.eq_dec (ireg e) (ireg spill)) as [X|X].
           ++ rewrite X, SLS. congruence.
           ++ rewrite SLO by auto. apply not_eq_sym. now apply OT.
        -- rewrite SLT. destruct (Nat.eq_dec (ireg d) (ireg spill)) as [X|X].
           ++ rewrite X, SLS. congruence.
           ++ rewrite SLO by auto. apply OT; auto. now apply overlap_sym.
        -- destruct (Nat.eq_dec (ireg d) (ireg spill)) as [X|X], (Nat.eq_dec (ireg e) (ireg spill)) as [Y|Y].
           ++ congruence.
           ++ rewrite X, SLS, SLO by auto. intros Q. symmetry in Q. apply OLD in Q; auto. lia.
           ++ rewrite Y, SLS, SLO by auto. intros Q. apply OLD in Q; auto. lia.
           ++ rewrite !SLO by auto. now apply H10.
    + (* the new interval gets no register *)
      eexists. split; [reflexivity|]. split; [|right; exact EXT].
      set (sl := upd (slots st) (ireg this) (Some (next_spill st))).
      assert (SLT : sl (ireg this) = Some (next_spill st)) by apply upd_eq.
      assert (SLO : forall d, In d dn -> sl (ireg d) = slots st (ireg d)) by (intros d D; apply upd_neq; now apply NT).
      assert (OLD : forall d s, In d dn -> slots st (ireg d) = Some s -> s < next_spill st).
      { intros d s D Y. destruct (DN d D) as [A|[(s' & A & B)|(s' & A & B & _)]].
        - destruct (FA d A) as (s' & A' & B' & _). apply slot_small in B'. assert (s' = s) by congruence. lia.
        - assert (s' = s) by congruence. lia.
        - apply slot_small in B. assert (s' = s) by congruence. lia. }
      constructor; cbn [active slots freeregs next_spill]; fold sl; auto.
      * intros a A. right. auto.
      * intros a A. destruct (FA a A) as (s & P1 & P2 & P3). exists s. rewrite SLO by auto. auto.
      * intros a b A B Q. rewrite !SLO in Q by auto. now apply DI.
      * lia.
      * intros d [<-|D].
        -- right. left. exists (next_spill st). split; [exact SLT|lia].
        -- destruct (DN d D) as [A|[(s' & A & B)|(s' & A & B & C)]]; [now left| |].
           ++ right. left. exists s'. rewrite SLO by auto. split; [exact A|lia].
           ++ right. right. exists s'. rewrite SLO by auto. auto.
      * intros d e [<-|D] [<-|E] NE OV.
        -- congruence.
        -- rewrite SLT, SLO by auto. intros Q. symmetry in Q. apply OLD in Q; auto. lia.
        -- rewrite SLT, SLO by auto. intros Q. apply OLD in Q; auto. lia.
        -- rewrite !SLO by auto. now apply H10.
  - (* a free register *)
    destruct (lowest fr) as [bit|] eqn:LW.
    2:{ apply lowest_none in LW. lia. }
    apply lowest_some in LW as (LB & FB). eexists. split; [reflexivity|]. split; [|left; reflexivity].
    set (sl := upd (slots st) (ireg this) (Some bit)).
    assert (SLT : sl (ireg this) = Some bit) by apply upd_eq.
    assert (SLO : forall d, In d dn -> sl (ireg d) = slots st (ireg d)) by (intros d D; apply upd_neq; now apply NT).
    assert (PM : Permutation (this :: act) (insert_active this act)) by apply insert_perm.
    assert (IN2 : forall a, In a (insert_active this act) -> a = this \/ In a act).
    { intros a A. apply (Permutation_in a (Permutation_sym PM)) in A. destruct A as [<-|A]; auto. }
    assert (NB : forall a, In a act -> slots st (ireg a) <> Some bit).
    { intros a A Q. destruct (FA a A) as (s & P1 & _ & P3). assert (s = bit) by congruence. congruence. }
    assert (OT : forall d, In d dn -> overlap this d -> slots st (ireg d) <> Some bit).
    { intros d D OV Y. destruct (DN d D) as [A|[(s' & A & B)|(s' & A & B & C)]].
      - now apply (NB d).
      - apply FR, slot_small in FB. assert (s' = bit) by congruence. lia.
      - apply (no_overlap_before d this C). now apply overlap_sym. }
    constructor; cbn [active slots freeregs next_spill]; fold sl.
    + intros a A. destruct (IN2 a A) as [->|A']; [now left|right; auto].
    + apply (Permutation_NoDup (l := map ireg (this :: act))); [now apply Permutation_map|]. cbn. constructor; [|exact ND].
      intros X. apply TD. apply in_map_iff in X as (a & Q & A). rewrite <- Q. apply in_map; auto.
    + now apply insert_sorted.
    + intros a A. destruct (IN2 a A) as [->|A'].
      * exists bit. conjs; auto. apply upd_eq.
      * destruct (FA a A') as (s & P1 & P2 & P3). exists s. rewrite SLO by auto. conjs; auto.
        unfold upd. destruct (s =? bit); auto.
    + intros a b A B Q. destruct (IN2 a A) as [->|A'], (IN2 b B) as [->|B']; auto.
      * exfalso. rewrite SLT, SLO in Q by auto. symmetry in Q. now apply (NB b).
      * exfalso. rewrite SLT, SLO in Q by auto. now apply (NB a).
      * rewrite !SLO in Q by auto. now apply DI.
    + intros s F. unfold upd in F. destruct (s =? bit); [discriminate|]. now apply FR.
    + rewrite <- (Permutation_length PM). cbn [length]. pose proof (cnt_upd fr bit false LB) as C. rewrite FB in C. lia.
    + exact H8.
    + intros d [<-|D].
      * left. apply (Permutation_in _ PM). now left.
      * destruct (DN d D) as [A|[(s' & A & B)|(s' & A & B & C)]].
        -- left. apply (Permutation_in _ PM). now right.
        -- right. left. exists s'. rewrite SLO by auto. auto.
        -- right. right. exists s'. rewrite SLO by auto. auto.
    + intros d e [<-|D] [<-|E] NE OV.
      * congruence.
      * rewrite SLT, SLO by auto. apply not_eq_sym. now apply OT.
      * rewrite SLT, SLO by auto. apply OT; auto. now apply overlap_sym.
      * rewrite !SLO by auto. now apply H10.
Qed.

Lemma alloc_all_ok : forall l p dn st, linv p dn st -> 0 < rint bm ->
  NoDup (map ireg (rev l ++ dn)) -> (forall i, In i l -> (p <= ifirst i)%Z) ->
  StronglySorted (fun a b => (ifirst a <= ifirst b)%Z) l ->
  (forall d, In d dn -> (ifirst d <= p)%Z) ->
  exists st' q, alloc_all (rint bm) l st = Ok st' /\ linv q (rev l ++ dn) st' /\
    ((forall x, pressure (rev l ++ dn) x <= rint bm) ->
     (forall i, In i (rev l ++ dn) -> (ifirst i <= ilast i)%Z \/ forall j, In j (rev l ++ dn) -> (ilast j < ifirst i)%Z) ->
     next_spill st' = next_spill st).
Proof.
  induction l as [|i l IH]; intros p dn st IV RP ND LB SO DF.
  - exists st, p. conjs; auto.
  - cbn [rev] in *. rewrite <- app_assoc in *. cbn [app] in *.
    assert (ND1 : NoDup (map ireg (i :: dn))) by (rewrite map_app in ND; now apply NoDup_app_remove_l in ND).
    inversion SO as [|x0 l0 SO1 SO2]; subst. rewrite Forall_forall in SO2.
    pose proof (LB i (or_introl eq_refl)) as LI.
    destruct (alloc_one_ok p dn st i IV LI RP ND1) as (st1 & A1 & IV1 & SP).
    cbn [alloc_all]. rewrite A1. cbn [bind].
    destruct (IH (ifirst i) (i :: dn) st1 IV1 RP ND) as (st' & q & AL & IV' & NS); auto.
    { intros d [<-|D]; [lia|]. specialize (DF d D). lia. }
    exists st', q. conjs; auto. intros PR NE. rewrite (NS PR NE).
    destruct SP as [SP|(act & HA & NA & LA)]; [exact SP|]. exfalso.
    (* all of [act] and [i] are at the beginning of [i] *)
    assert (INI : In i (rev l ++ i :: dn)) by (apply in_app_iff; right; now left).
    destruct (NE i INI) as [OK|BAD].
    + assert (G : forall L, NoDup (map ireg L) -> incl L (rev l ++ i :: dn) ->
                (forall a, In a L -> covers a (ifirst i)) -> length L <= pressure (rev l ++ i :: dn) (ifirst i)).
      { intros L NL IL CL. unfold pressure.
        assert (E : length L = length (filter (fun j => (ifirst j <=? ifirst i)%Z && (ifirst i <=? ilast j)%Z) L)).
        { clear -CL. induction L as [|x L IHL]; [reflexivity|]. cbn [filter].
          destruct (CL x (or_introl eq_refl)) as (C1 & C2). apply Z.leb_le in C1, C2. rewrite C1, C2. cbn. f_equal. apply IHL.
          intros a A. apply CL. now right. }
        rewrite E. apply NoDup_incl_length.
        - apply NoDup_filter. eapply NoDup_map_inv; eauto.
        - intros a A. apply filter_In in A as (A & B). apply filter_In. split; [now apply IL|exact B]. }
      assert (LL : length (i :: act) <= rint bm).
      { eapply Nat.le_trans; [apply G|apply PR].
        - cbn. constructor; [|exact NA]. intros X. apply in_map_iff in X as (a & Q & A). destruct (HA a A) as (D & _).
          cbn in ND1. inversion ND1 as [|x1 l1 N1 N2]; subst. apply N1. rewrite <- Q. now apply in_map.
        - intros a [<-|A]; [exact INI|]. apply in_app_iff. right. right. now apply HA.
        - intros a [<-|A].
          + split; lia.
          + destruct (HA a A) as (D & E). split; [|lia]. specialize (DF a D). lia. }
      cbn in LL. lia.
    + destruct act as [|a act]; [cbn in LA; lia|]. destruct (HA a (or_introl eq_refl)) as (D & E).
      assert (ilast a < ifirst i)%Z; [|lia]. apply BAD. apply in_app_iff. right. now right.
Qed.

End Alloc.
