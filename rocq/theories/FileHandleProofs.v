(* Lemmas on the table of open files *)
From Coq Require Import List ZArith Arith Bool Lia.
From Verif Require Import Base FileHandleSpec FileHandleModel.
Import ListNotations.
Local Open Scope Z_scope.

(** ** Handles *)

Definition enc (g : Z) (i : nat) : Z := Z.lor (Z.shiftl g 16) (Z.of_nat i).

Lemma enc_index : forall g i, Z.of_nat i < 2 ^ 16 ->
  Z.land (enc g i) HANDLE_MAX_INDEX = Z.of_nat i.
Proof.
  intros g i H. unfold enc. change HANDLE_MAX_INDEX with (Z.ones 16).
  rewrite Z.land_lor_distr_l, !Z.land_ones by lia.
  rewrite Z.shiftl_mul_pow2 by lia. rewrite Z.mod_mul by lia.
  rewrite Z.mod_small by lia. reflexivity.
Qed.
Lemma enc_gen : forall g i, Z.of_nat i < 2 ^ 16 -> Z.shiftr (enc g i) 16 = g.
Proof.
  intros g i H. unfold enc. rewrite Z.shiftr_lor, Z.shiftr_shiftl_l by lia.
  rewrite (Z.shiftr_div_pow2 (Z.of_nat i)) by lia. rewrite Z.div_small by lia.
  rewrite Z.lor_0_r, Z.sub_diag. apply Z.shiftl_0_r.
Qed.
Lemma enc_nonzero : forall g i, 1 <= g -> enc g i <> 0.
Proof.
  intros g i H E. unfold enc in E. apply Z.lor_eq_0_iff in E. destruct E as [E _].
  rewrite Z.shiftl_mul_pow2 in E by lia. lia.
Qed.

(** ** Lists of slots *)

Lemma store_length : forall hs i s, (i < length hs)%nat -> length (store hs i s) = length hs.
Proof.
  intros hs i s L. unfold store. rewrite app_length, firstn_length. cbn [length].
  rewrite skipn_length. lia.
Qed.
Lemma store_same : forall hs i s, (i < length hs)%nat -> nth_error (store hs i s) i = Some s.
Proof.
  intros hs i s L. unfold store.
  rewrite nth_error_app2; rewrite firstn_length, Nat.min_l by lia; [|lia].
  rewrite Nat.sub_diag. reflexivity.
Qed.
Lemma store_other : forall hs i j s, (i < length hs)%nat -> j <> i ->
  nth_error (store hs i s) j = nth_error hs j.
Proof.
  induction hs as [|a hs IH]; intros i j s L N; [cbn in L; lia|].
  destruct i as [|i]; unfold store; cbn.
  - destruct j as [|j]; [contradiction|]. reflexivity.
  - destruct j as [|j]; [reflexivity|]. cbn. apply IH; [cbn in L; lia|congruence].
Qed.

(* What a slot counts for: an open file, and every time it was closed. *)
Definition weight (s : slot) : Z := (match sl_file s with Some _ => 1 | None => 0 end) + (sl_gen s - 1).
Fixpoint total (hs : list slot) : Z :=
  match hs with [] => 0 | s :: hs => weight s + total hs end.

Lemma total_app : forall a b, total (a ++ b) = total a + total b.
Proof. induction a as [|s a IH]; intros b; cbn [app total]; [lia|rewrite IH; lia]. Qed.
Lemma total_store : forall hs i s s0, nth_error hs i = Some s0 ->
  total (store hs i s) = total hs - weight s0 + weight s.
Proof.
  induction hs as [|a hs IH]; intros i s s0 E; [destruct i; discriminate|].
  destruct i as [|i].
  - cbn in E. injection E as ->. unfold store. cbn. lia.
  - change (store (a :: hs) (S i) s) with (a :: store hs i s). cbn [total].
    rewrite (IH i s s0 E). lia.
Qed.
Lemma total_fresh : forall n, total (repeat fresh_slot n) = 0.
Proof. induction n as [|n IH]; [reflexivity|]. cbn [repeat total]. rewrite IH. reflexivity. Qed.

Definition gens (hs : list slot) : Prop := Forall (fun s => 1 <= sl_gen s) hs.
Lemma weight_nonneg : forall s, 1 <= sl_gen s -> 0 <= weight s.
Proof. intros s G. unfold weight. destruct (sl_file s); lia. Qed.
Lemma total_nonneg : forall hs, gens hs -> 0 <= total hs.
Proof.
  induction hs as [|s hs IH]; intros G; cbn [total]; [lia|].
  inversion G as [|? ? G1 G2]; subst. pose proof (weight_nonneg s G1). specialize (IH G2). lia.
Qed.
Lemma weight_le : forall hs i s, gens hs -> nth_error hs i = Some s -> weight s <= total hs.
Proof.
  induction hs as [|a hs IH]; intros i s G E; [destruct i; discriminate|].
  inversion G as [|? ? G1 G2]; subst. pose proof (weight_nonneg a G1).
  pose proof (total_nonneg hs G2). cbn [total]. destruct i as [|i].
  - cbn in E. injection E as ->. lia.
  - specialize (IH i s G2 E). lia.
Qed.
Lemma gens_nth : forall hs i s, gens hs -> nth_error hs i = Some s -> 1 <= sl_gen s.
Proof.
  intros hs i s G E. apply nth_error_In in E.
  exact (proj1 (Forall_forall _ hs) G s E).
Qed.
Lemma gens_store : forall hs i s, gens hs -> 1 <= sl_gen s -> gens (store hs i s).
Proof.
  intros hs i s G SG. unfold store, gens in *. apply Forall_app. split.
  - rewrite <- (firstn_skipn i hs) in G. apply Forall_app in G. exact (proj1 G).
  - constructor; [exact SG|]. rewrite <- (firstn_skipn (S i) hs) in G.
    apply Forall_app in G. exact (proj2 G).
Qed.

(** ** The search *)

Lemma free_slot_ok : forall hs k,
  (k <= free_slot hs k <= k + length hs)%nat /\
  (free_slot hs k = (k + length hs)%nat ->
     forall s, In s hs -> sl_file s <> None \/ HANDLE_MAX_INDEX <= sl_gen s) /\
  ((free_slot hs k < k + length hs)%nat ->
     exists s, nth_error hs (free_slot hs k - k) = Some s /\ sl_file s = None).
Proof.
  induction hs as [|s hs IH]; intros k; cbn [free_slot length].
  - split; [lia|]. split; [intros _ s []|lia].
  - assert ((sl_file s <> None \/ HANDLE_MAX_INDEX <= sl_gen s) ->
      (k <= free_slot hs (S k) <= k + S (length hs))%nat /\
      (free_slot hs (S k) = (k + S (length hs))%nat ->
        forall s0, In s0 (s :: hs) -> sl_file s0 <> None \/ HANDLE_MAX_INDEX <= sl_gen s0) /\
      ((free_slot hs (S k) < k + S (length hs))%nat ->
        exists s0, nth_error (s :: hs) (free_slot hs (S k) - k) = Some s0 /\ sl_file s0 = None))
      as R.
    { intros B. destruct (IH (S k)) as (A1 & A2 & A3). split; [lia|]. split.
      - intros E s0 [<-|I]; [exact B|]. apply A2; [lia|exact I].
      - intros L. destruct (A3 ltac:(lia)) as (s0 & E & F). exists s0.
        replace (free_slot hs (S k) - k)%nat with (S (free_slot hs (S k) - S k)) by lia.
        split; [exact E|exact F]. }
    destruct (sl_file s) as [f|] eqn:F.
    + apply R. left. discriminate.
    + destruct (Z.ltb_spec (sl_gen s) HANDLE_MAX_INDEX) as [L|G].
      * split; [lia|]. split; [lia|]. intros _. exists s. rewrite Nat.sub_diag.
        split; [reflexivity|exact F].
      * apply R. right. exact G.
Qed.

Lemma all_blocked : forall hs, gens hs ->
  (forall s, In s hs -> sl_file s <> None \/ HANDLE_MAX_INDEX <= sl_gen s) ->
  Z.of_nat (length hs) <= total hs.
Proof.
  induction hs as [|s hs IH]; intros G H; cbn [length total]; [lia|].
  inversion G as [|? ? G1 G2]; subst.
  specialize (IH G2 (fun s0 I => H s0 (or_intror I))).
  specialize (H s (or_introl eq_refl)). unfold weight.
  destruct (sl_file s); [lia|]. destruct H as [H|H]; [contradiction|].
  unfold HANDLE_MAX_INDEX in H. lia.
Qed.

(** ** The table *)

(* The table is doubled. *)
Definition size_ok (hs : list slot) : Prop :=
  Z.of_nat (length hs) <= 2 ^ 16 /\
  (length hs = 0%nat \/ exists k, 4 <= k /\ Z.of_nat (length hs) = 2 ^ k).
Lemma size_grows : forall hs n, size_ok hs -> Z.of_nat (length hs) <= n -> n < 2 ^ 16 - 2 ->
  size_ok (hs ++ repeat fresh_slot (Nat.max (length hs * 2) 16 - length hs)).
Proof.
  intros hs n [B S] L N. unfold size_ok. rewrite app_length, repeat_length.
  destruct S as [S|(k & K & E)].
  - rewrite S. cbn. split; [lia|]. right. exists 4. split; [lia|reflexivity].
  - assert (k < 16) as KL by (apply (Z.pow_lt_mono_r_iff 2); lia).
    assert (2 ^ (k + 1) <= 2 ^ 16) as U by (apply Z.pow_le_mono_r; lia).
    assert (2 ^ 4 <= 2 ^ k) as D by (apply Z.pow_le_mono_r; lia). change (2 ^ 4) with 16 in D.
    rewrite Z.pow_add_r in U by lia. change (2 ^ 1) with 2 in U.
    assert (Z.of_nat (length hs + (Nat.max (length hs * 2) 16 - length hs)) = 2 ^ (k + 1)) as ->.
    { rewrite Z.pow_add_r by lia. change (2 ^ 1) with 2. lia. }
    rewrite Z.pow_add_r by lia. change (2 ^ 1) with 2. split; [exact U|].
    right. exists (k + 1). split; [lia|]. rewrite Z.pow_add_r by lia. reflexivity.
Qed.

(* [n] files were opened. *)
Definition wf (t : table) (n : Z) : Prop :=
  gens (handles t) /\ total (handles t) = n /\ size_ok (handles t).

(* Extending the table *)
Definition room (hs : list slot) (i : nat) : list slot :=
  if Nat.eqb i (length hs)
  then hs ++ repeat fresh_slot (Nat.max (length hs * 2) 16 - length hs)
  else hs.

Lemma handle_for_ok : forall t n f name user mode,
  wf t n -> n < 2 ^ 16 - 2 ->
  exists t' i s,
    handle_for t f name user mode = Some (t', enc (sl_gen s) i) /\
    Z.of_nat i < 2 ^ 16 /\ 1 <= sl_gen s <= n + 1 /\
    (forall s0, nth_error (handles t) i = Some s0 -> sl_file s0 = None /\ s0 = s) /\
    nth_error (handles t') i = Some (Slot (Some f) name user mode (sl_gen s)) /\
    (forall j s0, j <> i -> nth_error (handles t) j = Some s0 -> nth_error (handles t') j = Some s0) /\
    wf t' (n + 1).
Proof.
  intros [hs hint] n f name user mode (G & T & LN) N. unfold handle_for. cbn [handles free_hint] in *.
  set (index := match nth_error hs hint with
                | None => free_slot hs 0
                | Some s => match sl_file s with Some _ => free_slot hs 0 | None => hint end
                end).
  assert ((index = length hs /\ Z.of_nat (length hs) <= n) \/
          (exists s, nth_error hs index = Some s /\ sl_file s = None)) as IX.
  { assert ((free_slot hs 0 = length hs /\ Z.of_nat (length hs) <= n) \/
            exists s, nth_error hs (free_slot hs 0) = Some s /\ sl_file s = None) as FS.
    { destruct (free_slot_ok hs 0) as (A & B & C). cbn [plus] in *.
      destruct (Nat.eq_dec (free_slot hs 0) (length hs)) as [E|NE].
      - left. split; [exact E|]. rewrite <- T. apply all_blocked; [exact G|]. apply B. exact E.
      - right. destruct C as (s & E & F); [lia|]. rewrite Nat.sub_0_r in E. eauto. }
    unfold index. destruct (nth_error hs hint) as [s|] eqn:E; [|exact FS].
    destruct (sl_file s) eqn:F; [exact FS|]. right. eauto. }
  assert (Z.of_nat index < 2 ^ 16) as IB.
  { destruct IX as [[-> L]|(s & E & _)]; [lia|].
    assert (index < length hs)%nat by (apply nth_error_Some; congruence).
    destruct LN as [LN _]. lia. }
  rewrite (proj2 (Z.ltb_ge HANDLE_MAX_INDEX (Z.of_nat index)))
    by (unfold HANDLE_MAX_INDEX; lia).
  change (if (index =? length hs)%nat
          then hs ++ repeat fresh_slot (Nat.max (length hs * 2) 16 - length hs)
          else hs) with (room hs index).
  assert (gens (room hs index) /\ total (room hs index) = n /\
          size_ok (room hs index) /\
          (forall j s0, nth_error hs j = Some s0 -> nth_error (room hs index) j = Some s0) /\
          exists s, nth_error (room hs index) index = Some s /\ sl_file s = None /\
            (forall s0, nth_error hs index = Some s0 -> s0 = s))
    as (G' & T' & L' & K & s & E & F & U).
  { unfold room. destruct (Nat.eqb_spec index (length hs)) as [EI|NI].
    - assert (Z.of_nat (length hs) <= n) as LH.
      { destruct IX as [[_ L]|(s & E & _)]; [exact L|].
        assert (index < length hs)%nat by (apply nth_error_Some; congruence). lia. }
      split.
      { apply Forall_app. split; [exact G|]. apply Forall_forall. intros s I.
        apply repeat_spec in I. subst s. cbn. lia. }
      split; [rewrite total_app, total_fresh; lia|].
      split; [apply (size_grows hs n); assumption|].
      split.
      { intros j s0 E. rewrite nth_error_app1; [exact E|].
        apply nth_error_Some. congruence. }
      exists fresh_slot. split.
      { rewrite nth_error_app2 by lia. rewrite EI, Nat.sub_diag.
        destruct (Nat.max (length hs * 2) 16 - length hs)%nat eqn:X; [lia|]. reflexivity. }
      split; [reflexivity|]. intros s0 E.
      assert (index < length hs)%nat by (apply nth_error_Some; congruence). lia.
    - split; [exact G|]. split; [exact T|]. split; [exact LN|]. split; [auto|].
      destruct IX as [[E _]|(s & E & F)]; [contradiction|].
      exists s. split; [exact E|]. split; [exact F|]. congruence. }
  rewrite E. cbv zeta.
  assert (index < length (room hs index))%nat as LI by (apply nth_error_Some; congruence).
  pose proof (gens_nth _ _ _ G' E) as G1.
  pose proof (weight_le _ _ _ G' E) as W1. unfold weight in W1. rewrite F in W1.
  eexists _, index, s. split; [reflexivity|]. cbn [handles].
  split; [exact IB|]. split; [lia|]. split.
  { intros s0 E0. specialize (U s0 E0). subst s0. split; [exact F|reflexivity]. }
  split; [apply store_same; exact LI|]. split.
  { intros j s0 J E0. rewrite store_other by assumption. apply K. exact E0. }
  unfold wf. cbn [handles]. split; [apply gens_store; [exact G'|cbn; exact G1]|].
  split.
  - rewrite (total_store _ _ _ _ E). unfold weight. cbn [sl_file sl_gen]. rewrite F. lia.
  - destruct L' as [B S]. unfold size_ok. rewrite store_length by exact LI. split; assumption.
Qed.

(** ** Decoding *)

(* The file object that holds [h] is associated with the slot [i]. *)
Definition holds (t : table) (h : Z) (i : nat) (s : slot) : Prop :=
  nth_error (handles t) i = Some s /\ sl_file s <> None /\ h = enc (sl_gen s) i /\
  Z.of_nat i < 2 ^ 16 /\ 1 <= sl_gen s.

Lemma decode_holds : forall t h i s, holds t h i s -> decode_handle t h = Some (i, s).
Proof.
  intros t h i s (E & F & -> & B & G). unfold decode_handle.
  rewrite enc_index, enc_gen by exact B.
  rewrite (proj2 (Z.eqb_neq (enc (sl_gen s) i) 0)) by (apply enc_nonzero; exact G).
  assert (i < length (handles t))%nat by (apply nth_error_Some; congruence).
  rewrite (proj2 (Z.leb_gt _ _)) by lia. cbn [orb]. rewrite Nat2Z.id, E.
  destruct (sl_file s); [|contradiction]. rewrite Z.eqb_refl. reflexivity.
Qed.
Lemma decode_zero : forall t, decode_handle t 0 = None.
Proof. reflexivity. Qed.
Lemma decode_inv : forall t h i s, decode_handle t h = Some (i, s) ->
  nth_error (handles t) i = Some s /\ sl_file s <> None /\
  i = Z.to_nat (Z.land h HANDLE_MAX_INDEX) /\ sl_gen s = Z.shiftr h 16.
Proof.
  intros t h i s. unfold decode_handle.
  destruct ((h =? 0) || (Z.of_nat (length (handles t)) <=? Z.land h HANDLE_MAX_INDEX));
    [discriminate|].
  destruct (nth_error (handles t) (Z.to_nat (Z.land h HANDLE_MAX_INDEX))) as [s0|] eqn:E;
    [|discriminate].
  destruct (sl_file s0) as [f|] eqn:F; [|discriminate].
  destruct (Z.eqb_spec (sl_gen s0) (Z.shiftr h 16)) as [G|G]; cbn [negb]; [|discriminate].
  intros X. injection X as <- <-. split; [exact E|]. split; [congruence|].
  split; [reflexivity|exact G].
Qed.

Lemma drop_wf : forall t h n, wf t n -> n <= 2 ^ 16 - 2 -> wf (fst (drop_handle t h)) n.
Proof.
  intros t h n (G & T & SZ) N. unfold drop_handle.
  destruct (decode_handle t h) as [[i s]|] eqn:D; [|split; [exact G|split; [exact T|exact SZ]]].
  apply decode_inv in D. destruct D as (E & F & _ & _).
  pose proof (gens_nth _ _ _ G E) as G1.
  pose proof (weight_le _ _ _ G E) as W. unfold weight in W.
  destruct (sl_file s) as [f|] eqn:FS; [|contradiction].
  assert ((sl_gen s + 1) mod 2 ^ 16 = sl_gen s + 1) as M by (apply Z.mod_small; lia).
  cbn [fst]. unfold wf. cbn [handles]. rewrite M.
  split; [apply gens_store; [exact G|cbn; lia]|].
  split.
  - rewrite (total_store _ _ _ _ E). unfold weight. cbn [sl_file sl_gen]. rewrite FS. lia.
  - destruct SZ as [B S]. unfold size_ok.
    rewrite store_length by (apply nth_error_Some; congruence). split; assumption.
Qed.

(** ** File objects *)

Definition slot_of (a : assoc) (s : slot) : Prop :=
  sl_file s = Some (a_file a) /\ sl_user s = a_own a /\ sl_name s = a_name a /\
  sl_mode s = a_mode a.

Record inv (w : files) (o : objects) (n : Z) : Prop := {
  i_wf : wf (tab w) n;
  i_closed : forall v, o v = None -> obj w v = 0;
  i_open : forall v a, o v = Some a ->
    exists i s, holds (tab w) (obj w v) i s /\ slot_of a s;
  i_distinct : forall v1 v2 i s1 s2,
    holds (tab w) (obj w v1) i s1 -> holds (tab w) (obj w v2) i s2 -> v1 = v2
}.

Lemma start_inv : inv start all_closed 0.
Proof.
  split.
  - split; [constructor|]. split; [reflexivity|]. split; [cbn; lia|left; reflexivity].
  - reflexivity.
  - discriminate.
  - intros v1 v2 i s1 s2 (E & _). destruct i; discriminate.
Qed.

Lemma open_cases : forall w o n v, inv w o n ->
  (o v = None /\ obj w v = 0 /\ decode_handle (tab w) (obj w v) = None) \/
  (exists a i s, o v = Some a /\ obj w v <> 0 /\ holds (tab w) (obj w v) i s /\
     slot_of a s /\ decode_handle (tab w) (obj w v) = Some (i, s)).
Proof.
  intros w o n v I. destruct (o v) as [a|] eqn:E.
  - right. destruct (i_open w o n I v a E) as (i & s & H & S). exists a, i, s.
    split; [reflexivity|]. split.
    { destruct H as (_ & _ & -> & _ & G). apply enc_nonzero. exact G. }
    split; [exact H|]. split; [exact S|]. apply decode_holds. exact H.
  - left. pose proof (i_closed w o n I v E) as Z. split; [reflexivity|].
    split; [exact Z|]. rewrite Z. apply decode_zero.
Qed.

Lemma opened_inv : forall w o n v f name user mode,
  inv w o n -> o v = None -> n < 2 ^ 16 - 2 ->
  exists t h, handle_for (tab w) f name user mode = Some (t, h) /\
    inv (Files t (upd (obj w) v h)) (set o v (Some (Assoc f user name mode))) (n + 1).
Proof.
  intros w o n v f name user mode I OV N.
  destruct (handle_for_ok (tab w) n f name user mode (i_wf w o n I) N)
    as (t & i & s & HF & B & G & NEW & AT & KEEP & WF).
  exists t, (enc (sl_gen s) i). split; [exact HF|].
  assert (forall u j s0, u <> v -> holds (tab w) (obj w u) j s0 ->
            j <> i /\ holds t (obj w u) j s0) as OLD.
  { intros u j s0 U (E & F & H & BJ & GJ).
    assert (j <> i) as JI.
    { intros ->. destruct (NEW s0 E) as [FN _]. contradiction. }
    split; [exact JI|]. split; [apply KEEP; assumption|].
    split; [exact F|]. split; [exact H|]. split; [exact BJ|exact GJ]. }
  set (s1 := Slot (Some f) name user mode (sl_gen s)) in *.
  assert (holds t (enc (sl_gen s) i) i s1) as MINE.
  { split; [exact AT|]. split; [discriminate|]. split; [reflexivity|].
    split; [exact B|]. cbn. lia. }
  split; cbn [tab obj].
  - exact WF.
  - intros u. unfold set. destruct (Nat.eqb_spec u v) as [->|U]; [discriminate|].
    intros OU. rewrite upd_other by exact U. exact (i_closed w o n I u OU).
  - intros u a. unfold set. destruct (Nat.eqb_spec u v) as [->|U].
    + intros X. injection X as <-. exists i, s1. rewrite upd_same.
      split; [exact MINE|]. repeat split.
    + intros OU. destruct (i_open w o n I u a OU) as (j & s0 & H & S).
      exists j, s0. rewrite upd_other by exact U. split; [apply OLD; assumption|exact S].
  - (* every object other than v that is held in the new table was held before *)
    assert (forall u j s0, u <> v -> holds t (obj w u) j s0 ->
              exists s2, holds (tab w) (obj w u) j s2) as BACK.
    { intros u j s0 U H. destruct (open_cases w o n u I) as [(_ & Z & _)|(a & k & s2 & _ & _ & H2 & _)].
      - exfalso. destruct H as (_ & _ & H & _ & GG). rewrite Z in H.
        symmetry in H. exact (enc_nonzero _ _ GG H).
      - assert (j = k) as ->; [|exists s2; exact H2].
        destruct H as (_ & _ & H & BJ & _), H2 as (_ & _ & H2 & BK & _).
        rewrite H in H2. apply (f_equal (fun x => Z.land x HANDLE_MAX_INDEX)) in H2.
        rewrite !enc_index in H2 by assumption. lia. }
    intros v1 v2 j s2 s3 H1 H2.
    destruct (Nat.eq_dec v1 v) as [->|N1], (Nat.eq_dec v2 v) as [->|N2].
    + reflexivity.
    + rewrite upd_same in H1. rewrite upd_other in H2 by exact N2. exfalso.
      destruct (BACK v2 j s3 N2 H2) as (s4 & H4). destruct (OLD v2 j s4 N2 H4) as [JI _].
      apply JI. destruct H1 as (_ & _ & H1 & BJ & _).
      apply (f_equal (fun x => Z.land x HANDLE_MAX_INDEX)) in H1.
      rewrite !enc_index in H1 by assumption. lia.
    + rewrite upd_same in H2. rewrite upd_other in H1 by exact N1. exfalso.
      destruct (BACK v1 j s2 N1 H1) as (s4 & H4). destruct (OLD v1 j s4 N1 H4) as [JI _].
      apply JI. destruct H2 as (_ & _ & H2 & BJ & _).
      apply (f_equal (fun x => Z.land x HANDLE_MAX_INDEX)) in H2.
      rewrite !enc_index in H2 by assumption. lia.
    + rewrite upd_other in H1, H2 by assumption.
      destruct (BACK v1 j s2 N1 H1) as (s4 & H4), (BACK v2 j s3 N2 H2) as (s5 & H5).
      exact (i_distinct w o n I v1 v2 j s4 s5 H4 H5).
Qed.

Lemma close_inv : forall w o n v,
  inv w o n -> n <= 2 ^ 16 - 2 ->
  inv (fst (file_close w v)) (set o v None) n /\
  snd (file_close w v) =
    Closes (match o v with Some a => if a_own a then Some (a_file a) else None | None => None end).
Proof.
  intros w o n v I N. unfold file_close.
  pose proof (drop_wf (tab w) (obj w v) n (i_wf w o n I) N) as WF.
  destruct (open_cases w o n v I) as [(OV & Z & D)|(a & i & s & OV & NZ & H & S & D)];
    unfold drop_handle in *; rewrite D in *; cbn [fst snd] in *; rewrite OV.
  - split; [|reflexivity]. split; cbn [tab obj].
    + exact WF.
    + intros u. unfold set. destruct (Nat.eqb_spec u v) as [->|U]; intros OU.
      * apply upd_same.
      * rewrite upd_other by exact U. exact (i_closed w o n I u OU).
    + intros u b. unfold set. destruct (Nat.eqb_spec u v) as [->|U]; [discriminate|].
      intros OU. rewrite upd_other by exact U. exact (i_open w o n I u b OU).
    + intros v1 v2 j s1 s2 H1 H2.
      assert (forall u j s, holds (tab w) (upd (obj w) v 0 u) j s -> u <> v) as NV.
      { intros u j0 s0 (_ & _ & X & _ & GG) ->. rewrite upd_same in X.
        symmetry in X. exact (enc_nonzero _ _ GG X). }
      pose proof (NV _ _ _ H1). pose proof (NV _ _ _ H2).
      rewrite upd_other in H1, H2 by assumption. exact (i_distinct w o n I v1 v2 j s1 s2 H1 H2).
  - destruct S as (SF & SU & SN & SM). rewrite SU, SF. split; [|destruct (a_own a); reflexivity].
    set (s' := Slot None (sl_name s) (a_own a) (sl_mode s) ((sl_gen s + 1) mod 2 ^ 16)) in *.
    rewrite SU in WF. fold s' in WF.
    assert (i < length (handles (tab w)))%nat as LI
      by (destruct H as (E & _); apply nth_error_Some; congruence).
    assert (forall u j s0, holds (Table (store (handles (tab w)) i s') i)
              (upd (obj w) v 0 u) j s0 -> u <> v /\ j <> i /\ holds (tab w) (obj w u) j s0)
      as BACK.
    { intros u j s0 HH.
      assert (u <> v) as UV.
      { intros ->. destruct HH as (_ & _ & X & _ & GG). rewrite upd_same in X.
        symmetry in X. exact (enc_nonzero _ _ GG X). }
      split; [exact UV|]. rewrite upd_other in HH by exact UV.
      destruct HH as (E & F & X & BJ & GJ). cbn [handles] in E.
      destruct (Nat.eq_dec j i) as [->|JI].
      - rewrite store_same in E by exact LI. injection E as <-. contradiction.
      - split; [exact JI|]. rewrite store_other in E by assumption.
        split; [exact E|]. split; [exact F|]. split; [exact X|]. split; [exact BJ|exact GJ]. }
    split; cbn [tab obj].
    + exact WF.
    + intros u. unfold set. destruct (Nat.eqb_spec u v) as [->|U]; intros OU.
      * apply upd_same.
      * rewrite upd_other by exact U. exact (i_closed w o n I u OU).
    + intros u b. unfold set. destruct (Nat.eqb_spec u v) as [->|U]; [discriminate|].
      intros OU. rewrite upd_other by exact U.
      destruct (i_open w o n I u b OU) as (j & s0 & HH & SS). exists j, s0. split; [|exact SS].
      assert (j <> i) as JI.
      { intros ->. apply U. exact (i_distinct w o n I u v i s0 s HH H). }
      destruct HH as (E & R). split; [|exact R]. cbn [handles].
      rewrite store_other by assumption. exact E.
    + intros v1 v2 j s1 s2 H1 H2.
      destruct (BACK v1 j s1 H1) as (_ & _ & K1), (BACK v2 j s2 H2) as (_ & _ & K2).
      exact (i_distinct w o n I v1 v2 j s1 s2 K1 K2).
Qed.

Definition cost (x : op) : Z := if is_open x then 1 else 0.

Lemma step_inv : forall w o n x,
  inv w o n -> n + cost x <= 2 ^ 16 - 2 ->
  snd (step w x) = snd (spec_step o x) /\
  exists n', n' <= n + cost x /\ inv (fst (step w x)) (fst (spec_step o x)) n'.
Proof.
  intros w o n x I N.
  assert (0 <= n) as N0
    by (destruct (i_wf w o n I) as (G & T & _); pose proof (total_nonneg _ G); lia).
  destruct x as [v name mode host status|v|v|v|v|v]; unfold cost in N |- *;
    cbn [is_open step spec_step fst snd] in *.
  - unfold x_file_open, spec_open.
    assert (forall f user nm, o v = None ->
      snd (match handle_for (tab w) f nm user mode with
           | None => (w, Failed)
           | Some (t, h) => (Files t (upd (obj w) v h),
               if status then Status 0 else if 0 =? 0 then Status 0 else Failed)
           end) = open_status status 0 /\
      exists n', n' <= n + 1 /\
        inv (fst (match handle_for (tab w) f nm user mode with
           | None => (w, Failed)
           | Some (t, h) => (Files t (upd (obj w) v h),
               if status then Status 0 else if 0 =? 0 then Status 0 else Failed)
           end)) (set o v (Some (Assoc f user nm mode))) n') as OP.
    { intros f user nm OV.
      destruct (opened_inv w o n v f nm user mode I OV ltac:(lia)) as (t & h & E & I').
      rewrite E. cbn [fst snd]. split; [reflexivity|].
      exists (n + 1). split; [lia|exact I']. }
    assert (forall r : outcome, snd (w, r) = r /\ exists n', n' <= n + 1 /\ inv (fst (w, r)) o n')
      as SAME by (intros r; split; [reflexivity|]; exists n; split; [lia|exact I]).
    destruct (open_cases w o n v I) as [(OV & Z & D)|(a & i & s & OV & NZ & H & S & D)];
      rewrite OV.
    + rewrite Z. change (negb (0 =? 0)) with false. cbv iota.
      destruct (Nat.eqb (length name) 0); [apply SAME|].
      destruct (list_eq_dec Z.eq_dec (host_name name) std_input) as [E|_];
        [rewrite E; apply (OP 0 false std_input OV)|].
      destruct (list_eq_dec Z.eq_dec (host_name name) std_output) as [E|_];
        [rewrite E; apply (OP 1 false std_output OV)|].
      destruct host; [apply OP; exact OV|apply SAME|apply SAME|apply SAME].
    + rewrite (proj2 (Z.eqb_neq (obj w v) 0)) by exact NZ. cbn [negb]. apply SAME.
  - destruct (close_inv w o n v I ltac:(lia)) as [I' R]. split; [exact R|].
    exists n. split; [lia|exact I'].
  - unfold file_use. split; [|exists n; split; [lia|exact I]].
    destruct (open_cases w o n v I) as [(OV & Z & D)|(a & i & s & OV & NZ & H & S & D)];
      rewrite D, OV; [reflexivity|]. rewrite (proj1 S). reflexivity.
  - unfold file_mode. split; [|exists n; split; [lia|exact I]].
    destruct (open_cases w o n v I) as [(OV & Z & D)|(a & i & s & OV & NZ & H & S & D)];
      rewrite D, OV; [reflexivity|]. destruct S as (_ & _ & _ & ->). reflexivity.
  - unfold file_logical_name. split; [|exists n; split; [lia|exact I]].
    destruct (open_cases w o n v I) as [(OV & Z & D)|(a & i & s & OV & NZ & H & S & D)];
      rewrite D, OV; [reflexivity|]. destruct S as (_ & _ & -> & _). reflexivity.
  - unfold file_state. split; [|exists n; split; [lia|exact I]].
    destruct (open_cases w o n v I) as [(OV & Z & D)|(a & i & s & OV & NZ & H & S & D)];
      rewrite D, OV; reflexivity.
Qed.

Lemma opens_cons : forall x xs, Z.of_nat (opens (x :: xs)) = cost x + Z.of_nat (opens xs).
Proof. intros x xs. unfold opens, cost. cbn [filter]. destruct (is_open x); cbn [length]; lia. Qed.

Lemma run_ok : forall xs w o n,
  inv w o n -> n + Z.of_nat (opens xs) <= 2 ^ 16 - 2 -> run w xs = spec_run o xs.
Proof.
  induction xs as [|x xs IH]; intros w o n I N; [reflexivity|]. cbn [run spec_run].
  rewrite opens_cons in N.
  destruct (step_inv w o n x I ltac:(lia)) as [R (n' & L & I')].
  destruct (step w x) as [w' r], (spec_step o x) as [o' r']. cbn [fst snd] in *. subst r'.
  f_equal. apply (IH w' o' n' I'). lia.
Qed.

(** ** Copies of handles *)

Definition dead (t : table) (h : Z) : Prop :=
  exists s, nth_error (handles t) (Z.to_nat (Z.land h HANDLE_MAX_INDEX)) = Some s /\
    Z.shiftr h 16 < sl_gen s.

Lemma dead_decode : forall t h, dead t h -> decode_handle t h = None.
Proof.
  intros t h (s & E & G). destruct (decode_handle t h) as [[i s0]|] eqn:D; [|reflexivity].
  apply decode_inv in D. destruct D as (E0 & _ & -> & G0). rewrite E in E0.
  injection E0 as ->. lia.
Qed.

Definition tcost (x : top) : Z := if is_topen x then 1 else 0.

Lemma tstep_ok : forall t n x, wf t n -> n + tcost x <= 2 ^ 16 - 2 ->
  wf (tstep t x) (n + tcost x) /\ (forall h, dead t h -> dead (tstep t x) h).
Proof.
  intros t n x W N. destruct x as [f|c]; unfold tcost in *; cbn [is_topen tstep] in *.
  - destruct (handle_for_ok t n f [] true 0 W ltac:(lia))
      as (t' & i & s & -> & B & G & NEW & AT & KEEP & WF).
    split; [exact WF|]. intros h (s0 & E & GG).
    destruct (Nat.eq_dec (Z.to_nat (Z.land h HANDLE_MAX_INDEX)) i) as [EI|NI].
    + rewrite EI in E. destruct (NEW s0 E) as [_ ->].
      unfold dead. rewrite EI. eexists. split; [exact AT|]. cbn. exact GG.
    + exists s0. split; [apply KEEP; assumption|exact GG].
  - rewrite Z.add_0_r in *. split; [apply drop_wf; assumption|].
    intros h (s0 & E & GG). unfold drop_handle.
    destruct (decode_handle t c) as [[i s]|] eqn:D; cbn [fst]; [|exists s0; split; assumption].
    apply decode_inv in D. destruct D as (ED & F & _ & _).
    destruct W as (G & T & _).
    pose proof (gens_nth _ _ _ G ED) as G1.
    pose proof (weight_le _ _ _ G ED) as W1. unfold weight in W1.
    destruct (sl_file s) as [f|] eqn:FS; [|contradiction].
    assert (i < length (handles t))%nat as LI by (apply nth_error_Some; congruence).
    unfold dead. cbn [handles].
    destruct (Nat.eq_dec (Z.to_nat (Z.land h HANDLE_MAX_INDEX)) i) as [EI|NI].
    + rewrite EI in *. rewrite store_same by exact LI. eexists. split; [reflexivity|].
      cbn [sl_gen]. rewrite ED in E. injection E as ->.
      rewrite Z.mod_small by lia. lia.
    + rewrite store_other by assumption. exists s0. split; assumption.
Qed.

Lemma topens_cons : forall x xs, Z.of_nat (topens (x :: xs)) = tcost x + Z.of_nat (topens xs).
Proof.
  intros x xs. unfold topens, tcost. cbn [filter]. destruct (is_topen x); cbn [length]; lia.
Qed.

Lemma trun_ok : forall xs t n, wf t n -> n + Z.of_nat (topens xs) <= 2 ^ 16 - 2 ->
  wf (trun t xs) (n + Z.of_nat (topens xs)) /\ (forall h, dead t h -> dead (trun t xs) h).
Proof.
  unfold trun. induction xs as [|x xs IH]; intros t n W N; cbn [fold_left].
  - change (Z.of_nat (topens [])) with 0. rewrite Z.add_0_r. split; [exact W|auto].
  - rewrite topens_cons in *.
    destruct (tstep_ok t n x W ltac:(lia)) as [W1 D1].
    destruct (IH (tstep t x) (n + tcost x) W1 ltac:(lia)) as [W2 D2].
    split; [rewrite Z.add_assoc; exact W2|]. intros h D. apply D2, D1, D.
Qed.

Lemma drop_dead : forall t n h i s, wf t n -> n <= 2 ^ 16 - 2 ->
  decode_handle t h = Some (i, s) -> dead (fst (drop_handle t h)) h.
Proof.
  intros t n h i s (G & T & _) N D. unfold drop_handle. rewrite D. cbn [fst].
  apply decode_inv in D. destruct D as (ED & F & EI & EG).
  pose proof (gens_nth _ _ _ G ED) as G1.
  pose proof (weight_le _ _ _ G ED) as W1. unfold weight in W1.
  destruct (sl_file s) as [f|] eqn:FS; [|contradiction].
  assert (i < length (handles t))%nat as LI by (apply nth_error_Some; congruence).
  unfold dead. rewrite <- EI. cbn [handles]. rewrite store_same by exact LI.
  eexists. split; [reflexivity|]. cbn [sl_gen]. rewrite Z.mod_small by lia. lia.
Qed.
