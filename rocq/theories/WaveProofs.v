(* Lemmas about WaveModel.v. *)
From Coq Require Import List NArith Bool Sorted Lia.
From Verif Require Import Base WaveModel WaveSpec.
Import ListNotations.
Open Scope N_scope.

Section P.
Context {V : Type} (eqv : V -> V -> bool).
Hypothesis eqv_ok : forall a b, eqv a b = true <-> a = b.

Definition view (l : list (tx V)) : waveform := map (fun t => (twhen t, tval t)) l.
Definition sorted (l : list (tx V)) : Prop := StronglySorted N.lt (map (@twhen V) l).

Lemma view_fst l : map fst (view l) = map (@twhen V) l.
Proof. unfold view. rewrite map_map. reflexivity. Qed.

Lemma sorted_cons x l : sorted (x :: l) <-> sorted l /\ Forall (fun y => twhen x < twhen y) l.
Proof.
  unfold sorted. split; intros H.
  - change (map (@twhen V) (x :: l)) with (twhen x :: map (@twhen V) l) in H.
    apply StronglySorted_inv in H. destruct H as [A B]. split; [exact A|].
    rewrite Forall_map in B. exact B.
  - change (map (@twhen V) (x :: l)) with (twhen x :: map (@twhen V) l).
    constructor; [apply H|]. rewrite Forall_map. apply H.
Qed.

Lemma view_in l t x : In (t, x) (view l) <-> In (Tx t x) l.
Proof.
  unfold view. rewrite in_map_iff. split.
  - intros ([a b] & E & H). cbn in E. injection E as -> ->. assumption.
  - intros H. exists (Tx t x). auto.
Qed.

Lemma sub64_le when reject : reject <= when -> when < 2 ^ 63 -> sub64 when reject = when - reject.
Proof.
  intros H1 H2. unfold sub64, two64.
  replace (when + 2 ^ 64 - reject) with ((when - reject) + 1 * 2 ^ 64) by lia.
  rewrite N.mod_add by lia. apply N.mod_small.
  assert (2 ^ 63 < 2 ^ 64) by reflexivity. lia.
Qed.

Lemma add64_small a b : a + b < 2 ^ 63 -> add64 a b = a + b.
Proof.
  intros H. unfold add64, two64. apply N.mod_small.
  assert (2 ^ 63 < 2 ^ 64) by reflexivity. lia.
Qed.

Lemma scan_spec when reject v l : reject <= when -> when < 2 ^ 63 -> sorted l ->
  fst (insert_scan eqv when reject v l) =
    filter (fun it => (twhen it <? when) &&
       ((twhen it + reject <? when) || eqv (tval it) v)) l /\
  snd (insert_scan eqv when reject v l) = filter (fun it => when <=? twhen it) l.
Proof.
  intros Hr Hw. induction l as [|it l IH]; intros S; [split; reflexivity|].
  apply sorted_cons in S. destruct S as [S F].
  specialize (IH S). cbn [insert_scan filter].
  destruct (N.ltb_spec (twhen it) when) as [L|L].
  - replace (when <=? twhen it) with false by (symmetry; apply N.leb_gt; assumption).
    destruct (insert_scan eqv when reject v l) as [kept rest].
    cbn [fst snd] in IH. destruct IH as [-> ->].
    rewrite sub64_le by assumption.
    cbn [andb].
    replace (when - reject <=? twhen it) with (negb (twhen it + reject <? when)).
    2:{ destruct (N.ltb_spec (twhen it + reject) when), (N.leb_spec (when - reject) (twhen it));
        cbn; try reflexivity; exfalso; lia. }
    destruct (twhen it + reject <? when); cbn [negb andb orb];
      [split; reflexivity|].
    destruct (eqv (tval it) v); cbn [negb]; split; reflexivity.
  - replace (when <=? twhen it) with true by (symmetry; apply N.leb_le; assumption).
    cbn [andb fst snd].
    assert (A : Forall (fun x => when <= twhen x) l).
    { eapply Forall_impl; [|exact F]. cbn. intros a Ha.
      apply N.lt_le_incl. eapply N.le_lt_trans; eassumption. }
    split.
    + symmetry. clear -A. induction A as [|x l Hx A IH]; [reflexivity|]. cbn [filter].
      replace (twhen x <? when) with false by (symmetry; apply N.ltb_ge; assumption).
      exact IH.
    + f_equal. symmetry. clear -A. induction A as [|x l Hx A IH]; [reflexivity|]. cbn [filter].
      replace (when <=? twhen x) with true by (symmetry; apply N.leb_le; assumption).
      f_equal. exact IH.
Qed.

Lemma sorted_filter f l : sorted l -> sorted (filter f l).
Proof.
  induction l as [|x l IH]; intros S; [constructor|]. apply sorted_cons in S. destruct S as [S F]. cbn [filter].
  destruct (f x); [|auto]. apply sorted_cons. split; [apply IH; assumption|].
  rewrite Forall_forall in *. intros y Hy.
  apply filter_In in Hy. apply F. tauto.
Qed.

Lemma sorted_app_one l w : sorted l -> Forall (fun x => twhen x < twhen w) l -> sorted (l ++ [w]).
Proof.
  intros S F. induction F as [|x l Hx F IH]; [repeat constructor|].
  apply sorted_cons in S. destruct S as [S G].
  cbn [app]. apply sorted_cons. split; [apply IH; assumption|].
  rewrite Forall_app. split; [assumption|]. repeat constructor. assumption.
Qed.

(* The exact effect of an assignment. *)
Definition window (when reject : N) (v : V) (it : tx V) : bool :=
  (twhen it <? when) && ((twhen it + reject <? when) || eqv (tval it) v).

Lemma insert_eq l v when reject : reject <= when -> when < 2 ^ 63 -> sorted l ->
  insert_transaction eqv l (Tx when v) when reject =
  (filter (window when reject v) l ++ [Tx when v],
   existsb (fun it => twhen it =? when) l).
Proof.
  intros Hr Hw S. unfold insert_transaction.
  destruct (insert_scan eqv when reject (tval (Tx when v)) l) as [kept rest] eqn:E.
  destruct (scan_spec when reject v l Hr Hw S) as [A B].
  cbn [tval] in E. rewrite E in A, B. cbn [fst snd] in A, B. rewrite A, B.
  f_equal. clear. induction l as [|x l IH]; [reflexivity|]. cbn [filter existsb].
  destruct (N.leb_spec when (twhen x)) as [L|L]; cbn [existsb].
  - rewrite IH. reflexivity.
  - rewrite IH. destruct (N.eqb_spec (twhen x) when); [lia|reflexivity].
Qed.

Lemma insert_sorted l v when reject : sorted l ->
  sorted (filter (window when reject v) l ++ [Tx when v]).
Proof.
  intros S. apply sorted_app_one; [apply sorted_filter; assumption|].
  rewrite Forall_forall. intros x Hx. apply filter_In in Hx. destruct Hx as [_ Hx].
  unfold window in Hx. apply andb_true_iff in Hx. destruct Hx as [Hx _].
  apply N.ltb_lt in Hx. exact Hx.
Qed.

Lemma insert_preempts l v when reject : sorted l ->
  preempts when reject v (view l) (view (filter (window when reject v) l ++ [Tx when v])).
Proof.
  intros S. split; [|split; [|split]].
  - unfold strictly_increasing. rewrite view_fst. apply insert_sorted. assumption.
  - apply view_in. rewrite in_app_iff. right. left. reflexivity.
  - intros t x H. apply view_in in H. rewrite in_app_iff in H. destruct H as [H|[H|[]]].
    + right. apply filter_In in H. destruct H as [H W]. split; [apply view_in; assumption|].
      unfold window in W. apply andb_true_iff in W. apply N.ltb_lt. apply W.
    + left. congruence.
  - intros t x H L. apply view_in in H. apply view_in. rewrite in_app_iff. left.
    apply filter_In. split; [assumption|]. unfold window. cbn.
    replace (t <? when) with true by (symmetry; apply N.ltb_lt; lia).
    replace (t + reject <? when) with true by (symmetry; apply N.ltb_lt; lia). reflexivity.
Qed.

(* Invariant of driver histories. *)
Definition dinv (now : N) (l : list (tx V)) : Prop :=
  sorted l /\ Forall (fun x => now <= twhen x) l /\ now < 2 ^ 63 /\
  Forall (fun x => twhen x < 2 ^ 63) l.

Lemma assign_ok now d after reject v : dinv now (dwave d) ->
  reject <= after -> now + after < 2 ^ 63 ->
  assign eqv now d after reject v =
    (Drv (dcur d) (filter (window (now + after) reject v) (dwave d) ++ [Tx (now + after) v]) (ddisc d),
     negb (existsb (fun it => twhen it =? now + after) (dwave d))) /\
  dinv now (filter (window (now + after) reject v) (dwave d) ++ [Tx (now + after) v]).
Proof.
  intros (S & F & Hn & B) Hr Hw. unfold assign. rewrite add64_small by assumption.
  rewrite insert_eq by (assumption || lia). split; [reflexivity|].
  split; [apply insert_sorted; assumption|]. split; [|split; [assumption|]].
  - rewrite Forall_app. split.
    + rewrite Forall_forall in *. intros x Hx. apply filter_In in Hx. apply F. tauto.
    + repeat constructor. cbn. lia.
  - rewrite Forall_app. split.
    + rewrite Forall_forall in *. intros x Hx. apply filter_In in Hx. apply B. tauto.
    + repeat constructor. cbn. lia.
Qed.

Lemma neg64_big t : 0 < t < 2 ^ 63 -> 2 ^ 63 < neg64 t.
Proof.
  intros H. unfold neg64, two64. rewrite N.mod_small.
  - change (2 ^ 64) with (2 ^ 63 + 2 ^ 63). lia.
  - lia.
Qed.

Lemma wake_ok now t d : dinv now (dwave d) -> now <= t -> t < 2 ^ 63 ->
  Forall (fun x => t <= twhen x) (dwave d) ->
  dinv t (dwave (fst (update_driver t d))) /\
  dwave (fst (update_driver t d)) = filter (fun x => t <? twhen x) (dwave d) /\
  dcur (fst (update_driver t d)) =
    match find (fun x => twhen x =? t) (dwave d) with Some x => x | None => dcur d end /\
  (snd (update_driver t d) = true <-> exists v, In (Tx t v) (dwave d)).
Proof.
  intros (S & F & Hn & B) Hle Ht Hov. unfold update_driver.
  destruct (dwave d) as [|w l] eqn:E.
  - cbn. rewrite E. split; [split; [constructor|split; [constructor|split; [assumption|constructor]]]|].
    split; [reflexivity|]. split; [reflexivity|]. split; [discriminate|].
    intros (v & []).
  - apply sorted_cons in S. destruct S as [S G].
    inversion Hov; subst. inversion B; subst.
    assert (A : filter (fun x => t <? twhen x) l = l).
    { clear -G H1. induction l as [|x l IH]; [reflexivity|].
      inversion G; subst. cbn [filter].
      replace (t <? twhen x) with true by (symmetry; apply N.ltb_lt; lia).
      f_equal. apply IH. assumption. }
    assert (NF : t < twhen w -> find (fun x => twhen x =? t) l = None).
    { intros L. clear -G L. induction l as [|x l IH]; [reflexivity|].
      inversion G; subst. cbn [find].
      destruct (N.eqb_spec (twhen x) t); [lia|]. apply IH; assumption. }
    destruct (N.eqb_spec (twhen w) t) as [Ew|Ew].
    + cbn [fst snd dwave dcur]. split; [|split; [|split]].
      * split; [assumption|]. split; [|split; [assumption|assumption]].
        rewrite Forall_forall in *. intros x Hx. apply H2. assumption.
      * cbn [filter]. destruct (N.ltb_spec t (twhen w)); [lia|]. symmetry. exact A.
      * cbn [find]. destruct (N.eqb_spec (twhen w) t); [reflexivity|contradiction].
      * split; [|reflexivity]. intros _. exists (tval w). left. subst t. destruct w; reflexivity.
    + assert (L : t < twhen w) by lia.
      assert (NE : (twhen w =? neg64 t) = false).
      { apply N.eqb_neq. destruct (N.eq_dec t 0) as [->|].
        - change (neg64 0) with 0. lia.
        - pose proof (neg64_big t ltac:(lia)). lia. }
      rewrite NE. cbn [fst snd]. rewrite E. split; [|split; [|split]].
      * split; [apply sorted_cons; split; assumption|]. split; [|split; [assumption|assumption]].
        constructor; assumption.
      * cbn [filter]. destruct (N.ltb_spec t (twhen w)); [|lia]. f_equal. symmetry. exact A.
      * cbn [find]. destruct (N.eqb_spec (twhen w) t); [lia|]. rewrite (NF L). reflexivity.
      * split; [discriminate|]. intros (v & [Hv|Hv]); [subst w; cbn in L; lia|].
        rewrite Forall_forall in G. specialize (G _ Hv). cbn in G. lia.
Qed.

(* LRM comparison. *)
Lemma lrm_head T r v w : 
  exists b x, snd (lrm_marked eqv T r v w) = (b, x) /\
   (b = true -> match w with [] => x = v | (t, y) :: _ => x = y end).
Proof.
  destruct w as [|[t y] w]; cbn; [do 2 eexists; split; [reflexivity|auto]|].
  destruct (lrm_marked eqv T r v w) as [kept [sm sv]]. do 2 eexists. split; [reflexivity|auto].
Qed.

(* If the head is inside the window and marked then everything from it on has
   the value [v]. *)
Lemma lrm_marked_window T r v : forall w kept b x,
  lrm_marked eqv T r v w = (kept, (b, x)) -> b = true ->
  StronglySorted N.lt (map fst w) ->
  match w with
  | [] => True
  | (t, _) :: _ => T <= t + r -> Forall (fun tv => snd tv = v) w
  end.
Proof.
  induction w as [|[t y] w IH]; intros kept b x E Hb S; [exact I|].
  intros Hw. cbn [lrm_marked] in E.
  destruct (lrm_marked eqv T r v w) as [kept' [sm sv]] eqn:Em.
  injection E as E1 E2 E3. rewrite Hb in E2. clear Hb. rewrite orb_true_iff in E2.
  destruct E2 as [E2|E2]; [apply N.ltb_lt in E2; lia|].
  apply andb_true_iff in E2. destruct E2 as [Hsm Hq]. apply eqv_ok in Hq.
  cbn [map] in S. apply StronglySorted_inv in S. destruct S as [S G].
  specialize (IH _ _ _ eq_refl Hsm S).
  destruct w as [|[t' y'] w'].
  - cbn in Em. injection Em as <- <- <-. constructor; [cbn; congruence|constructor].
  - destruct (lrm_head T r v ((t', y') :: w')) as (b' & x' & Eh & Hx).
    rewrite Em in Eh. cbn in Eh. injection Eh as <- <-. specialize (Hx Hsm). subst sv y.
    assert (FF : Forall (fun tv => snd tv = v) ((t', y') :: w')).
    { apply IH. inversion G; subst. cbn in *. lia. }
    constructor; [|exact FF]. rewrite Hx. exact (Forall_inv FF).
Qed.

Lemma lrm_subset T r v : forall w, StronglySorted N.lt (map fst w) ->
  Forall (fun tv => fst tv < T) w ->
  forall t x, In (t, x) (fst (lrm_marked eqv T r v w)) ->
   (t, x) = (T, v) \/ (In (t, x) w /\ (t + r < T \/ x = v)).
Proof.
  induction w as [|[t0 y] w IH]; intros S F t x Hin.
  - cbn in Hin. destruct Hin as [H|[]]. left. congruence.
  - cbn [lrm_marked] in Hin.
    destruct (lrm_marked eqv T r v w) as [kept [sm sv]] eqn:Em.
    cbn [map] in S. pose proof S as S0. apply StronglySorted_inv in S. destruct S as [S G].
    inversion F; subst.
    assert (IH' := IH S H2 t x). cbn [fst] in *.
    set (marked := (t0 + r <? T) || (sm && eqv y sv)) in *.
    assert (Hh : marked = true -> (t0 + r < T \/ y = v)).
    { intros Hm. destruct (N.lt_ge_cases (t0 + r) T) as [L|L]; [auto|]. right.
      assert (E : lrm_marked eqv T r v ((t0, y) :: w) =
         (if marked then (t0, y) :: kept else kept, (marked, y))).
      { cbn [lrm_marked]. rewrite Em. reflexivity. }
      pose proof (lrm_marked_window T r v _ _ _ _ E Hm S0 L) as FF.
      exact (Forall_inv FF). }
    destruct marked.
    + destruct Hin as [H|H].
      * injection H as <- <-. right. split; [left; reflexivity|auto].
      * destruct (IH' H) as [A|[A B]]; [auto|]. right. split; [right; exact A|exact B].
    + destruct (IH' Hin) as [A|[A B]]; [auto|]. right. split; [right; exact A|exact B].
Qed.

(* If in the window only a suffix carries the value [v], the marking rule and
   the code agree. *)
Fixpoint suffix_run (T r : N) (v : V) (w : waveform) : Prop :=
  match w with
  | [] => True
  | (t, x) :: w' => (T <= t + r -> x = v -> Forall (fun tv => snd tv = v) w') /\ suffix_run T r v w'
  end.

Lemma lrm_agrees T r v : forall w, StronglySorted N.lt (map fst w) ->
  suffix_run T r v w ->
  fst (lrm_marked eqv T r v w) =
    filter (fun tv => (fst tv + r <? T) || eqv (snd tv) v) w ++ [(T, v)] /\
  (Forall (fun tv => snd tv = v) w -> fst (snd (lrm_marked eqv T r v w)) = true /\
     snd (snd (lrm_marked eqv T r v w)) = v).
Proof.
  induction w as [|[t x] w IH]; intros S R; [split; [reflexivity|cbn; auto]|].
  cbn [map] in S. pose proof S as S0. apply StronglySorted_inv in S. destruct S as [S G].
  cbn [suffix_run] in R. destruct R as [R1 R2]. destruct (IH S R2) as [IH1 IH2].
  cbn [lrm_marked]. destruct (lrm_marked eqv T r v w) as [kept [sm sv]] eqn:Em.
  cbn [fst snd] in *. subst kept. split.
  - cbn [filter fst snd]. destruct (N.ltb_spec (t + r) T) as [L|L]; [reflexivity|].
    cbn [orb]. destruct (eqv x v) eqn:Q.
    + apply eqv_ok in Q. subst x. destruct (IH2 (R1 L eq_refl)) as [-> ->].
      replace (eqv v v) with true by (symmetry; apply eqv_ok; reflexivity). reflexivity.
    + destruct (sm && eqv x sv) eqn:C; [|reflexivity]. exfalso.
      assert (E : lrm_marked eqv T r v ((t, x) :: w) = ((t,x) :: (filter (fun tv : N * V => (fst tv + r <? T) || eqv (snd tv) v) w ++ [(T, v)]), (true, x))).
      { cbn [lrm_marked]. rewrite Em. rewrite C, orb_true_r. reflexivity. }
      pose proof (lrm_marked_window T r v _ _ _ _ E eq_refl S0 L) as FF.
      pose proof (Forall_inv FF) as H1. cbn in H1. subst x.
      assert (eqv v v = true) by (apply eqv_ok; reflexivity). congruence.
  - intros FF. pose proof (Forall_inv FF) as H1. cbn in H1. subst x. destruct (IH2 (Forall_inv_tail FF)) as [-> ->].
    replace (eqv v v) with true by (symmetry; apply eqv_ok; reflexivity).
    rewrite orb_true_r. auto.
Qed.

Lemma view_filter_window T r v l :
  view (filter (window T r v) l) =
  filter (fun tv => (fst tv + r <? T) || eqv (snd tv) v) (filter (fun tv => fst tv <? T) (view l)).
Proof.
  induction l as [|x l IH]; [reflexivity|]. cbn [filter view map]. unfold window at 1.
  cbn [fst]. fold (view l).
  destruct (twhen x <? T); cbn [andb filter fst snd].
  - destruct ((twhen x + r <? T) || eqv (tval x) v); cbn [view map]; rewrite <- IH; reflexivity.
  - exact IH.
Qed.

Lemma ssorted_filter (f : N * V -> bool) w :
  StronglySorted N.lt (map fst w) -> StronglySorted N.lt (map fst (filter f w)).
Proof.
  induction w as [|x w IH]; intros S; [constructor|]. cbn [map] in S.
  apply StronglySorted_inv in S. destruct S as [S F]. cbn [filter].
  destruct (f x); [|auto]. cbn [map]. constructor; [auto|].
  rewrite Forall_map in *. rewrite Forall_forall in *. intros y Hy. apply filter_In in Hy.
  apply F. tauto.
Qed.
End P.
