From Coq Require Import ZArith List Bool Arith Lia.
From Verif Require Import Base CoverModel CoverProofs CoverReportModel CoverReportSpec.
Import ListNotations.

Definition cnt (p : item -> bool) (l : list item) : nat := length (filter p l).

Lemma cnt_app p a b : cnt p (a ++ b) = cnt p a + cnt p b.
Proof. unfold cnt. now rewrite filter_app, app_length. Qed.

Lemma cnt_number (P : item -> Prop) p l :
  (forall x, p x = true <-> P x) -> number P l (cnt p l).
Proof.
  intros H. induction l as [|x l IH]; [constructor|].
  unfold cnt in *. cbn [filter]. destruct (p x) eqn:E.
  - cbn [length]. constructor; [now apply H|exact IH].
  - constructor; [|exact IH]. intros Q. apply H in Q. congruence.
Qed.

Lemma number_fun {A} (P : A -> Prop) l n m : number P l n -> number P l m -> n = m.
Proof.
  intros H. revert m. induction H; intros m H'; inversion H'; subst; auto; contradiction.
Qed.

Lemma kind_eqb_spec a b : kind_eqb a b = true <-> a = b.
Proof. destruct a, b; cbn; split; congruence. Qed.

Lemma kind_eqb_refl a : kind_eqb a a = true.
Proof. now apply kind_eqb_spec. Qed.

Definition hitb (it : item) : bool := ((i_atleast it <=? i_data it) && (0 <? i_atleast it))%Z.
Definition exclb (o : options) (it : item) : bool :=
  Z.testbit (i_flags it) 25 || bin_unreachable o it.
Definition coveredb (o : options) (it : item) : bool := hitb it || exclb o it.

Lemma hitb_spec it : hitb it = true <-> hit_enough it.
Proof. unfold hitb, hit_enough. rewrite andb_true_iff, Z.leb_le, Z.ltb_lt. lia. Qed.

Lemma unreach_spec o it :
  bin_unreachable o it = true <-> (o_unreachable o = true /\ not_reachable it).
Proof.
  unfold bin_unreachable, not_reachable, unreachable, COV_FLAG_UNREACHABLE_BIT.
  destruct (o_unreachable o); [|split; [discriminate|intros [H _]; discriminate]].
  destruct (i_kind it); rewrite ?Z.ltb_lt; (split; [intros H|intros (_ & [[H1 H]|[H1 H]])]);
    try discriminate; auto.
Qed.

Lemma coveredb_spec o it : coveredb o it = true <-> covered (o_unreachable o) it.
Proof.
  unfold coveredb, exclb, covered, excluded.
  rewrite !orb_true_iff, hitb_spec, unreach_spec. tauto.
Qed.

Definition of (k : item_kind) (it : item) : bool := kind_eqb (i_kind it) k.

(* c' is c with the items of `own` counted in it and those of `below` in the
   nested numbers. *)
Definition adds (o : options) (c : ctx) (own below : list item) (c' : ctx) : Prop :=
  (forall k,
     fst (c_flat c' k) = fst (c_flat c k) + cnt (of k) own /\
     snd (c_flat c' k) = snd (c_flat c k) + cnt (fun it => of k it && coveredb o it) own /\
     fst (c_nested c' k) = fst (c_nested c k) + cnt (of k) below /\
     snd (c_nested c' k) = snd (c_nested c k) + cnt (fun it => of k it && coveredb o it) below /\
     n_hits (c_chains c' k) = n_hits (c_chains c k) + cnt (fun it => of k it && hitb it) own /\
     n_excl (c_chains c' k) = n_excl (c_chains c k)
       + cnt (fun it => of k it && (negb (hitb it) && exclb o it)) own /\
     n_miss (c_chains c' k) = n_miss (c_chains c k)
       + cnt (fun it => of k it && negb (coveredb o it)) own) /\
  c_skipped c' = c_skipped c.

Lemma adds_nil o c : adds o c [] [] c.
Proof. split; [intros k; cbn; repeat split; lia|reflexivity]. Qed.

Lemma adds_trans o c o1 b1 c1 o2 b2 c2 :
  adds o c o1 b1 c1 -> adds o c1 o2 b2 c2 -> adds o c (o1 ++ o2) (b1 ++ b2) c2.
Proof.
  intros [H1 S1] [H2 S2]. split; [|congruence].
  intros k. rewrite !cnt_app. specialize (H1 k). specialize (H2 k).
  destruct H1 as (A1 & A2 & A3 & A4 & A5 & A6 & A7).
  destruct H2 as (B1 & B2 & B3 & B4 & B5 & B6 & B7).
  repeat split; lia.
Qed.

(* The lists of every kind hold at most m items. *)
Definition room (m : nat) (c : ctx) : Prop :=
  forall k, n_hits (c_chains c k) <= m /\ n_excl (c_chains c k) <= m /\ n_miss (c_chains c k) <= m.

Lemma cnt_length p l : cnt p l <= length l.
Proof.
  unfold cnt. induction l as [|x l IH]; cbn; [lia|]. destruct (p x); cbn; lia.
Qed.

Lemma room_adds o c own below c' m :
  adds o c own below c' -> room m c -> room (m + length own) c'.
Proof.
  intros [H _] R k. specialize (H k). specialize (R k).
  destruct H as (_ & _ & _ & _ & A5 & A6 & A7).
  rewrite A5, A6, A7.
  pose proof (cnt_length (fun it => of k it && hitb it) own).
  pose proof (cnt_length (fun it => of k it && (negb (hitb it) && exclb o it)) own).
  pose proof (cnt_length (fun it => of k it && negb (coveredb o it)) own).
  lia.
Qed.

Lemma room_le m m' c : m <= m' -> room m c -> room m' c.
Proof. intros L R k. specialize (R k). lia. Qed.

Lemma append_one_ok o it c m :
  room m c -> m <= o_limit o ->
  exists c', append_one o (i_kind it) it c = (c', false) /\ adds o c [it] [it] c'.
Proof.
  intros R L. destruct (R (i_kind it)) as (R1 & R2 & R3).
  unfold append_one. cbn [c_chains count_total].
  fold (hitb it). change COV_FLAG_EXCLUDED_BIT with 25%Z. fold (exclb o it).
  destruct (hitb it) eqn:EH; [|destruct (exclb o it) eqn:EX].
  - destruct (Nat.ltb_spec (o_limit o) (n_hits (c_chains c (i_kind it)))); [lia|].
    eexists. split; [reflexivity|]. split; [|reflexivity].
    intros k. unfold cnt, of, coveredb, with_chain, count_hit, count_total, add_hit, add_total, set.
    cbn [c_flat c_nested c_chains filter]. rewrite EH, ?kind_eqb_refl.
    destruct (kind_eqb k (i_kind it)) eqn:E.
    + apply kind_eqb_spec in E. subst k. rewrite !kind_eqb_refl. cbn. repeat split; lia.
    + destruct (kind_eqb (i_kind it) k) eqn:E'.
      { apply kind_eqb_spec in E'. subst k. rewrite kind_eqb_refl in E. discriminate. }
      cbn. repeat split; lia.
  - destruct (Nat.ltb_spec (o_limit o) (n_excl (c_chains c (i_kind it)))); [lia|].
    eexists. split; [reflexivity|]. split; [|reflexivity].
    intros k. unfold cnt, of, coveredb, with_chain, count_hit, count_total, add_hit, add_total, set.
    cbn [c_flat c_nested c_chains filter]. rewrite EH, EX, ?kind_eqb_refl.
    destruct (kind_eqb k (i_kind it)) eqn:E.
    + apply kind_eqb_spec in E. subst k. rewrite !kind_eqb_refl. cbn. repeat split; lia.
    + destruct (kind_eqb (i_kind it) k) eqn:E'.
      { apply kind_eqb_spec in E'. subst k. rewrite kind_eqb_refl in E. discriminate. }
      cbn. repeat split; lia.
  - destruct (Nat.ltb_spec (o_limit o) (n_miss (c_chains c (i_kind it)))); [lia|].
    eexists. split; [reflexivity|]. split; [|reflexivity].
    intros k. unfold cnt, of, coveredb, with_chain, count_hit, count_total, add_hit, add_total, set.
    cbn [c_flat c_nested c_chains filter]. rewrite EH, EX, ?kind_eqb_refl.
    destruct (kind_eqb k (i_kind it)) eqn:E.
    + apply kind_eqb_spec in E. subst k. rewrite !kind_eqb_refl. cbn. repeat split; lia.
    + destruct (kind_eqb (i_kind it) k) eqn:E'.
      { apply kind_eqb_spec in E'. subst k. rewrite kind_eqb_refl in E. discriminate. }
      cbn. repeat split; lia.
Qed.

Lemma append_loop_ok o k rest : forall g c m,
  (forall x, In x g -> i_kind x = k) ->
  room m c -> m + length g <= o_limit o ->
  exists c', append_loop o k (length g) false (g ++ rest) c = Ok c' /\ adds o c g g c'.
Proof.
  induction g as [|x g IH]; intros c m K R L.
  - exists c. split; [reflexivity|apply adds_nil].
  - cbn [length append_loop app].
    rewrite <- (K x) by now left.
    destruct (append_one_ok o x c m R) as (c1 & E1 & A1); [cbn in L; lia|].
    rewrite E1. rewrite (K x) by now left.
    destruct (IH c1 (m + 1)) as (c2 & E2 & A2).
    + intros y I. apply K. now right.
    + exact (room_adds _ _ _ _ _ _ A1 R).
    + cbn in L. lia.
    + exists c2. split; [exact E2|]. exact (adds_trans _ _ _ _ _ _ _ _ A1 A2).
Qed.

Lemma items_loop_ok o its : in_groups its -> forall v c m,
  room m c -> m + length its <= o_limit o -> length its <= v ->
  exists c', items_loop o true v its c = Ok c' /\ adds o c its its c'.
Proof.
  induction 1 as [|it r rest E K G IH]; intros v c m R L V.
  - exists c. split; [destruct v; reflexivity|apply adds_nil].
  - rewrite app_length in L, V. cbn [length] in L, V.
    destruct v as [|v]; [lia|].
    cbn [app items_loop].
    destruct (Z.leb_spec (i_consecutive it) 0); [lia|].
    rewrite E, Nat2Z.id.
    destruct (append_loop_ok o (i_kind it) rest (it :: r) c m) as (c1 & E1 & A1).
    + intros x [<-|I]; [reflexivity|now apply K].
    + exact R.
    + cbn [length]. lia.
    + cbn [length app] in E1. rewrite E1. cbn [bind].
      replace (skipn (S (length r)) (it :: r ++ rest)) with rest.
      2: { cbn [skipn]. now rewrite skipn_app, skipn_all, Nat.sub_diag. }
      destruct (IH v c1 (m + S (length r))) as (c2 & E2 & A2).
      * exact (room_adds _ _ _ _ _ _ A1 R).
      * lia.
      * lia.
      * exists c2. split; [exact E2|]. exact (adds_trans _ _ _ _ _ _ _ _ A1 A2).
Qed.

Lemma in_below_self s k : In k (s_children s) -> In k (scopes_below s).
Proof.
  destruct s as [t n h l b its kids]. cbn. intros I. apply in_flat_map.
  exists k. split; [exact I|now left].
Qed.

Lemma in_below_trans s k t : In k (s_children s) -> In t (scopes_below k) -> In t (scopes_below s).
Proof.
  destruct s as [t' n h l b its kids]. cbn. intros I J. apply in_flat_map.
  exists k. split; [exact I|now right].
Qed.

Definition reportable (o : options) (s : scope) : Prop :=
  (forall t, In t (scopes_below s) -> in_groups (s_items t) /\ o_source o (s_loc t) = true) /\
  (forall t, In t (scopes_below s) -> s_instance t = true ->
     length (own_items t) <= o_limit o).

Lemma reportable_child o s k : reportable o s -> In k (s_children s) -> reportable o k.
Proof.
  intros [H1 H2] I. split; intros t J.
  - apply H1. exact (in_below_trans s k t I J).
  - apply H2. exact (in_below_trans s k t I J).
Qed.

Lemma room_empty m : room m empty.
Proof. intros k. cbn. lia. Qed.

Lemma report_children_ok o : forall s c m,
  reportable o s -> room m c -> m + length (own_items s) <= o_limit o ->
  exists c', report_children o s c = Ok c' /\ adds o c (own_items s) (reported_below s) c'.
Proof.
  apply (scope_induction (fun s => forall c m,
    reportable o s -> room m c -> m + length (own_items s) <= o_limit o ->
    exists c', report_children o s c = Ok c' /\ adds o c (own_items s) (reported_below s) c')).
  intros t n h l b its kids IH c m RP.
  assert (RK : forall k, In k kids -> reportable o k)
    by (intros k I; exact (reportable_child _ _ _ RP I)).
  assert (GK : forall k, In k kids -> in_groups (s_items k) /\ o_source o (s_loc k) = true).
  { intros k I. apply RP. apply in_below_self. exact I. }
  assert (LK : forall k, In k kids -> s_instance k = true -> length (own_items k) <= o_limit o).
  { intros k I. apply RP. apply in_below_self. exact I. }
  clear RP.
  cbn [report_children own_items reported_below].
  revert c m. induction kids as [|k ks IHks]; intros c m R L.
  - exists c. split; [reflexivity|apply adds_nil].
  - cbn [flat_map] in *.
    destruct (s_instance k) eqn:EI.
    + destruct (IH k (or_introl eq_refl) empty 0) as (sub & E1 & A1).
      { apply RK. now left. } { apply room_empty. }
      { apply LK; [now left|exact EI]. }
      rewrite E1. cbn [bind].
      set (c1 := Ctx (c_flat c) (add_stats (c_nested c) (c_nested sub)) (c_chains c) (c_skipped c)).
      assert (A : adds o c [] (reported_below k) c1).
      { split; [|reflexivity]. intros k0. destruct A1 as [A1 _].
        destruct (A1 k0) as (_ & _ & B3 & B4 & _).
        cbn [c1 c_flat c_nested c_chains add_stats cnt filter length fst snd].
        rewrite B3, B4. cbn [empty c_nested fst snd]. repeat split; lia. }
      destruct (IHks (fun x I => IH x (or_intror I)) (fun x I => RK x (or_intror I))
                  (fun x I => GK x (or_intror I)) (fun x I => LK x (or_intror I)) c1 m)
        as (c2 & E2 & A2).
      { exact R. } { exact L. }
      exists c2. split; [exact E2|]. exact (adds_trans _ _ _ _ _ _ _ _ A A2).
    + rewrite !app_length in L.
      destruct (GK k (or_introl eq_refl)) as (G1 & G2). rewrite G2.
      destruct (items_loop_ok o (s_items k) G1 (length (s_items k)) c m R) as (c1 & E1 & A1);
        [lia|lia|].
      rewrite E1. cbn [bind].
      assert (R1 := room_adds _ _ _ _ _ _ A1 R).
      destruct (IH k (or_introl eq_refl) c1 (m + length (s_items k))) as (c2 & E2 & A2).
      { apply RK. now left. } { exact R1. } { lia. }
      rewrite E2. cbn [bind].
      assert (R2 := room_adds _ _ _ _ _ _ A2 R1).
      destruct (IHks (fun x I => IH x (or_intror I)) (fun x I => RK x (or_intror I))
                  (fun x I => GK x (or_intror I)) (fun x I => LK x (or_intror I)) c2 _ R2)
        as (c3 & E3 & A3).
      { lia. }
      exists c3. split; [exact E3|].
      exact (adds_trans _ _ _ _ _ _ _ _ (adds_trans _ _ _ _ _ _ _ _ A1 A2) A3).
Qed.
