From Coq Require Import List ZArith Bool Lia Znumtheory.
From Verif Require Import Base LayoutModel LayoutSpec.
Import ListNotations.
Open Scope Z_scope.

(* ---------- induction over types ---------- *)

Section TyInd.
Variable P : ty -> Prop.
Hypothesis Pint : forall low high, P (TInt low high).
Hypothesis Preal : P TReal.
Hypothesis Parr : forall dims e, P e -> P (TArray dims e).
Hypothesis Prec : forall fs, Forall P fs -> P (TRecord fs).
Fixpoint ty_rec' (t : ty) : P t :=
  match t with
  | TInt low high => Pint low high
  | TReal => Preal
  | TArray dims e => Parr dims e (ty_rec' e)
  | TRecord fs => Prec fs ((fix go fs : Forall P fs :=
      match fs with [] => Forall_nil _ | f :: fs' => Forall_cons _ (ty_rec' f) (go fs') end) fs)
  end.
End TyInd.

(* ---------- arithmetic ---------- *)

Definition pow (a : Z) : Prop := a = 1 \/ a = 2 \/ a = 4 \/ a = 8.

Lemma land_lnot x k : 0 <= k -> Z.land x (Z.lnot (2 ^ k - 1)) = x / 2 ^ k * 2 ^ k.
Proof.
  intros K. replace (2 ^ k - 1) with (Z.ones k) by (rewrite Z.ones_equiv; lia).
  rewrite <- Z.ldiff_land, Z.ldiff_ones_r by assumption.
  rewrite Z.shiftl_mul_pow2, Z.shiftr_div_pow2 by assumption. reflexivity.
Qed.

Lemma align_up_pow p a : pow a -> align_up p a = (p + a - 1) / a * a.
Proof.
  unfold align_up. intros [->|[->|[->| ->]]].
  - apply (land_lnot (p + 1 - 1) 0). lia.
  - apply (land_lnot (p + 2 - 1) 1). lia.
  - apply (land_lnot (p + 4 - 1) 2). lia.
  - apply (land_lnot (p + 8 - 1) 3). lia.
Qed.

Lemma align_up_ok p a : pow a -> p <= align_up p a < p + a /\ (a | align_up p a).
Proof.
  intros H. rewrite align_up_pow by assumption.
  assert (A : 0 < a) by (destruct H as [->|[->|[->| ->]]]; lia).
  split; [|exists ((p + a - 1) / a); reflexivity].
  pose proof (Z.div_mod (p + a - 1) a ltac:(lia)). pose proof (Z.mod_pos_bound (p + a - 1) a A). lia.
Qed.

Lemma mul_close q r a : 0 < a -> q * a <= r * a < q * a + a -> q = r.
Proof.
  intros A (B & C). replace (q * a + a) with ((q + 1) * a) in C by ring.
  apply Z.mul_le_mono_pos_r in B; [|assumption]. apply Z.mul_lt_mono_pos_r in C; [|assumption]. lia.
Qed.

Lemma align_up_id p a : pow a -> (a | p) -> align_up p a = p.
Proof.
  intros H (q & ->). destruct (align_up_ok (q * a) a H) as (B & (r & E)). rewrite E in *.
  assert (A : 0 < a) by (destruct H as [->|[->|[->| ->]]]; lia). now rewrite (mul_close q r a A B).
Qed.

Lemma align_up_same p q a : pow a -> p <= q < p + a -> (a | q) -> align_up p a = q.
Proof.
  intros H B (r & ->). destruct (align_up_ok p a H) as (C & (s & E)). rewrite E in *.
  assert (A : 0 < a) by (destruct H as [->|[->|[->| ->]]]; lia).
  destruct (Z.lt_trichotomy r s) as [L|[->|L]]; [|reflexivity|].
  - pose proof (Z.mul_le_mono_nonneg_r (r + 1) s a ltac:(lia) ltac:(lia)). lia.
  - pose proof (Z.mul_le_mono_nonneg_r (s + 1) r a ltac:(lia) ltac:(lia)). lia.
Qed.

Lemma pow_div8 a : pow a -> (a | 8).
Proof. intros [->|[->|[->| ->]]]; [exists 8|exists 4|exists 2|exists 1]; reflexivity. Qed.

Lemma pow_pos a : pow a -> 0 < a.
Proof. intros [->|[->|[->| ->]]]; lia. Qed.

Lemma bits_cases low high : low <= high ->
  let b := bits_for_range low high in b = 1 \/ b = 8 \/ b = 16 \/ b = 32 \/ b = 64.
Proof.
  intros H. unfold bits_for_range. destruct (Z.ltb_spec high low); [lia|].
  destruct (low <? 0).
  - repeat (match goal with |- context [if ?c then _ else _] => destruct c end; [tauto|]). tauto.
  - repeat (match goal with |- context [if ?c then _ else _] => destruct c end; [tauto|]). tauto.
Qed.

Lemma int_size low high : low <= high -> pow (align_up (bits_for_range low high) 8 / 8).
Proof.
  intros H. destruct (bits_cases low high H) as [->|[->|[->|[->| ->]]]]; vm_compute; tauto.
Qed.

Lemma repr_size low high : pow (align_up (repr_bits low high) 8 / 8).
Proof.
  unfold repr_bits. destruct (Z_le_gt_dec low high) as [H|H].
  - destruct (bits_cases low high H) as [->|[->|[->|[->| ->]]]]; vm_compute; tauto.
  - unfold bits_for_range. destruct (Z.ltb_spec high low); [|lia]. vm_compute. tauto.
Qed.

Lemma int32_ok x y : int32 x = Ok y -> y = x /\ - 2 ^ 31 <= x < 2 ^ 31.
Proof.
  unfold int32. destruct (Z.leb_spec (- 2 ^ 31) x), (Z.ltb_spec x (2 ^ 31)); cbn [andb]; intros [= <-].
  split; [reflexivity|]. lia.
Qed.

Lemma same_block (i j s x y b : Z) : i * s + x <= b -> b < j * s + y -> 0 <= x -> y <= s -> 0 <= s -> i <= j.
Proof. intros. destruct (Z.le_gt_cases i j) as [|H4]; [assumption|]. nia. Qed.

(* ---------- placements ---------- *)

Section Place.
Variable P : placement.
Variable good : ty -> Prop.
Hypothesis G_size : forall t, good t -> 0 <= pl_size P t.
Hypothesis G_arr : forall dims e, good (TArray dims e) -> 0 <= pl_count P (TArray dims e) ->
  good (elem_recur e) /\
  pl_size P (TArray dims e) = pl_count P (TArray dims e) * pl_size P (elem_recur e).
Hypothesis G_rec : forall fs, good (TRecord fs) -> forall k f, nth_error fs k = Some f ->
  good f /\ 0 <= pl_offset P fs k /\ pl_offset P fs k + pl_size P f <= pl_size P (TRecord fs) /\
  forall j g, (k < j)%nat -> nth_error fs j = Some g -> pl_offset P fs k + pl_size P f <= pl_offset P fs j.

Lemma leaf_bounds t path o a : leaf P t path o a -> good t ->
  good a /\ 0 <= o /\ o + pl_size P a <= pl_size P t.
Proof.
  induction 1 as [t A|dims e i path o a I L IH|fs i f path o a F L IH]; intros G.
  - split; [assumption|]. lia.
  - destruct (G_arr dims e G) as (GE & E); [lia|]. destruct (IH GE) as (GA & B1 & B2).
    split; [assumption|]. rewrite E. pose proof (G_size _ GE). split; nia.
  - destruct (G_rec fs G i f F) as (GF & O1 & O2 & _). destruct (IH GF) as (GA & B1 & B2).
    split; [assumption|]. lia.
Qed.

Lemma leaf_disjoint t path o a : leaf P t path o a -> good t ->
  forall path' o' a' b, leaf P t path' o' a' ->
    o <= b < o + pl_size P a -> o' <= b < o' + pl_size P a' -> path = path'.
Proof.
  induction 1 as [t A|dims e i path o a I L IH|fs i f path o a F L IH];
    intros G path' o' a' b L' B B'.
  - inversion L'; subst; cbn in *; try tauto; lia.
  - inversion L' as [? A|? ? i' path1 o1 a1 I' L1|]; subst; [cbn in A; lia|].
    destruct (G_arr dims e G) as (GE & E); [lia|].
    destruct (leaf_bounds _ _ _ _ L GE) as (_ & C1 & C2).
    destruct (leaf_bounds _ _ _ _ L1 GE) as (_ & C3 & C4).
    pose proof (G_size _ GE) as GS.
    assert (I1 : Z.of_nat i <= Z.of_nat i')
      by (apply (same_block _ _ (pl_size P (elem_recur e)) o (o1 + pl_size P a') b); lia).
    assert (I2 : Z.of_nat i' <= Z.of_nat i)
      by (apply (same_block _ _ (pl_size P (elem_recur e)) o1 (o + pl_size P a) b); lia).
    assert (i = i') by lia. subst i'. f_equal. apply (IH GE path1 o1 a' (b - Z.of_nat i * pl_size P (elem_recur e)) L1); lia.
  - inversion L' as [? A| |? i' f' path1 o1 a1 F' L1]; subst; [cbn in A; tauto|].
    destruct (G_rec fs G i f F) as (GF & O1 & O2 & O3).
    destruct (G_rec fs G i' f' F') as (GF' & O1' & O2' & O3').
    destruct (leaf_bounds _ _ _ _ L GF) as (_ & C1 & C2).
    destruct (leaf_bounds _ _ _ _ L1 GF') as (_ & C3 & C4).
    assert (i = i').
    { destruct (Nat.lt_trichotomy i i') as [H|[H|H]]; [|assumption|].
      - specialize (O3 i' f' H F'). lia.
      - specialize (O3' i f H F). lia. }
    subst i'. assert (f' = f) by congruence. subst f'. f_equal.
    apply (IH GF path1 o1 a' (b - pl_offset P fs i) L1); lia.
Qed.

Lemma place_no_overlap t : good t -> no_overlap P t.
Proof.
  intros G. split.
  - intros path o a L. now apply (leaf_bounds t path).
  - intros. eapply leaf_disjoint; eauto.
Qed.

Variable al : ty -> Z.
Hypothesis A_pow : forall t, good t -> pow (al t).
Hypothesis A_atom : forall t, good t -> atomic P t -> alignment P t = al t.
Hypothesis A_size : forall t, good t -> (al t | pl_size P t).
Hypothesis A_arr : forall dims e, good (TArray dims e) -> 0 <= pl_count P (TArray dims e) ->
  al (TArray dims e) = al (elem_recur e).
Hypothesis A_rec : forall fs, good (TRecord fs) -> al (TRecord fs) = 8 /\
  forall k f, nth_error fs k = Some f -> (al f | pl_offset P fs k).

Lemma place_aligned t path o a : leaf P t path o a -> good t ->
  (alignment P a | o) /\ (alignment P a | al t).
Proof.
  induction 1 as [t A|dims e i path o a I L IH|fs i f path o a F L IH]; intros G.
  - rewrite (A_atom t G A). split; [apply Z.divide_0_r|apply Z.divide_refl].
  - destruct (G_arr dims e G) as (GE & E); [lia|]. destruct (IH GE) as (D1 & D2).
    rewrite (A_arr dims e G) by lia. split; [|exact D2].
    apply Z.divide_add_r; [|exact D1]. apply Z.divide_mul_r.
    eapply Z.divide_trans; [exact D2|]. now apply A_size.
  - destruct (G_rec fs G i f F) as (GF & _). destruct (IH GF) as (D1 & D2).
    destruct (A_rec fs G) as (E & O). rewrite E. split.
    + apply Z.divide_add_r; [|exact D1]. eapply Z.divide_trans; [exact D2|]. now apply O.
    + eapply Z.divide_trans; [exact D2|]. apply pow_div8. now apply A_pow.
Qed.
End Place.

(* ---------- jit_layout_t ---------- *)

Fixpoint all_layouts (lay : ty -> res layout) (fs : list ty) : res (list layout) :=
  match fs with
  | [] => Ok []
  | f :: fs' => do! l <- lay f; do! ls <- all_layouts lay fs'; Ok (l :: ls)
  end.

Lemma layouts_snd t : snd (layouts t) = layout_of (elem_recur t).
Proof. induction t; try reflexivity. exact IHt. Qed.

Lemma layout_array dims e : layout_of (TArray dims e) =
  if 0 <=? count_sub_elements (TArray dims e)
  then do! l <- layout_of (elem_recur e); array_layout (count_sub_elements (TArray dims e)) l
  else Ok (open_layout (Z.of_nat (length dims))).
Proof. rewrite <- layouts_snd. reflexivity. Qed.

Lemma layout_record fs : layout_of (TRecord fs) = do! ls <- all_layouts layout_of fs; record_layout ls.
Proof.
  unfold layout_of at 1. cbn [layouts fst]. f_equal.
  induction fs as [|f fs IH]; cbn [all_layouts]; [reflexivity|].
  unfold layout_of at 1. destruct (fst (layouts f)); cbn [bind]; [|reflexivity]. now rewrite IH.
Qed.

Lemma all_layouts_ok lay fs ls : all_layouts lay fs = Ok ls <-> Forall2 (fun f l => lay f = Ok l) fs ls.
Proof.
  split; revert ls; induction fs as [|f fs IH]; intros ls; cbn [all_layouts].
  - intros [= <-]. constructor.
  - destruct (lay f) as [l|] eqn:E; cbn [bind]; [|discriminate].
    destruct (all_layouts lay fs) as [ls'|]; cbn [bind]; [|discriminate].
    intros [= <-]. constructor; auto.
  - intros H. inversion H. reflexivity.
  - intros H. inversion H as [|? l ? ls' E F]; subst. rewrite E. cbn [bind]. now rewrite (IH _ F).
Qed.

Definition sane (l : layout) : Prop := pow (lalign l) /\ 0 <= lsize l.

Lemma place_fields_ok : forall ls off ps total, Forall sane ls -> 0 <= off ->
  place_fields ls off = Ok (ps, total) ->
  off <= total /\ length ps = length ls /\
  forall k p, nth_error ps k = Some p -> exists l, nth_error ls k = Some l /\
    psize p = lsize l /\ prepeat p = 1 /\ palign p = lalign l /\
    off <= poffset p /\ (lalign l | poffset p) /\ poffset p + lsize l <= total /\
    forall j q, (k < j)%nat -> nth_error ps j = Some q -> poffset p + lsize l <= poffset q.
Proof.
  induction ls as [|l ls IH]; intros off ps total F O; cbn [place_fields].
  - intros [= <- <-]. split; [lia|]. split; [reflexivity|]. intros [|k] p; discriminate.
  - inversion_clear F as [|? ? (LP & LS) F'].
    destruct (align_up_ok off (lalign l) LP) as (A1 & A2).
    destruct (int32 _) as [o2|] eqn:E; cbn [bind]; [|discriminate]. apply int32_ok in E as (-> & _).
    destruct (place_fields ls _) as [(ps', total')|] eqn:R; cbn [bind]; [|discriminate].
    intros [= <- <-]. assert (O' : 0 <= align_up off (lalign l) + lsize l) by lia.
    destruct (IH _ _ _ F' O' R) as (T & LE & N).
    split; [lia|]. split; [cbn; lia|]. intros [|k] p; cbn [nth_error].
    + intros [= <-]. exists l. cbn [poffset psize prepeat palign]. repeat split; try lia; try assumption.
      intros [|j] q J Q; [lia|]. cbn in Q. destruct (N j q Q) as (l' & _ & _ & _ & _ & B & _). exact B.
    + intros K. destruct (N k p K) as (l' & E1 & E2 & E3 & E4 & B & D & T' & Q). exists l'.
      repeat split; try assumption; try lia.
      intros [|j] q J; [lia|]. cbn [nth_error]. intros H. apply (Q j q); [lia|assumption].
Qed.

Lemma no_null_fields fs : no_null (TRecord fs) <-> Forall no_null fs.
Proof.
  cbn. induction fs as [|f fs IH]; cbn.
  - split; [constructor|trivial].
  - rewrite IH. split.
    + intros (H1 & H2). now constructor.
    + intros H. inversion H. tauto.
Qed.

Lemma no_null_elem t : no_null t -> no_null (elem_recur t).
Proof. induction t; auto. Qed.

Lemma layout_sane t : no_null t -> forall l, layout_of t = Ok l -> sane l.
Proof.
  assert (G : no_null t -> (forall l, layout_of t = Ok l -> sane l) /\
                           (forall l, layout_of (elem_recur t) = Ok l -> sane l)).
  { induction t as [low high| |dims e IH|fs IH] using ty_rec'; intros N.
    - assert (X : forall l, layout_of (TInt low high) = Ok l -> sane l).
      { intros l [= <-]. pose proof (int_size low high N) as H. split; cbn; [assumption|].
        apply pow_pos in H. lia. }
      split; exact X.
    - assert (X : forall l, layout_of TReal = Ok l -> sane l).
      { intros l [= <-]. split; cbn; [unfold pow; lia|lia]. }
      split; exact X.
    - destruct (IH N) as (_ & HE). split; [|exact HE]. intros l. rewrite layout_array.
      destruct (Z.leb_spec 0 (count_sub_elements (TArray dims e))).
      + destruct (layout_of (elem_recur e)) as [el|] eqn:E; cbn [bind]; [|discriminate].
        destruct (HE el eq_refl) as (A & B). unfold array_layout.
        destruct (int32 _) as [s|] eqn:S; cbn [bind]; [|discriminate]. apply int32_ok in S as (-> & _).
        intros [= <-]. split; cbn [lalign lsize]; [assumption|]. now apply Z.mul_nonneg_nonneg.
      + intros [= <-]. split; cbn; [unfold pow; lia|lia].
    - assert (X : forall l, layout_of (TRecord fs) = Ok l -> sane l); [|split; exact X].
      intros l. rewrite layout_record.
      destruct (all_layouts layout_of fs) as [ls|] eqn:E; cbn [bind]; [|discriminate].
      apply all_layouts_ok in E.
      assert (SL : Forall sane ls).
      { apply no_null_fields in N. clear -E IH N.
        induction E as [|f l fs ls EF E IHE]; constructor.
        - inversion_clear N as [|? ? N1 N2]. inversion_clear IH as [|? ? H1 H2]. now apply (proj1 (H1 N1)).
        - inversion N; inversion IH; auto. }
      unfold record_layout. destruct (place_fields ls 0) as [(ps, total)|] eqn:R; cbn [bind]; [|discriminate].
      intros [= <-]. destruct (place_fields_ok _ _ _ _ SL (Z.le_refl 0) R) as (T & _).
      split; cbn; [unfold pow; lia|lia]. }
  intros N. apply (proj1 (G N)).
Qed.

Lemma sane_fields fs ls : no_null (TRecord fs) -> all_layouts layout_of fs = Ok ls -> Forall sane ls.
Proof.
  intros N E. apply no_null_fields in N. apply all_layouts_ok in E.
  induction E as [|f l fs ls EF E IHE]; constructor; inversion_clear N.
  - eapply layout_sane; eauto.
  - auto.
Qed.

Definition has_layout (t : ty) : Prop := no_null t /\ exists l, layout_of t = Ok l.

Lemma Forall2_nth {A B} (R : A -> B -> Prop) xs ys : Forall2 R xs ys ->
  forall k, match nth_error xs k, nth_error ys k with
            | Some x, Some y => R x y | None, None => True | _, _ => False end.
Proof.
  induction 1 as [|x y xs ys H F IH]; intros [|k]; cbn; auto. apply IH.
Qed.

Lemma record_facts fs : has_layout (TRecord fs) -> exists ls ps total,
  all_layouts layout_of fs = Ok ls /\ Forall sane ls /\ place_fields ls 0 = Ok (ps, total) /\
  layout_of (TRecord fs) = Ok (Layout total 8 ps).
Proof.
  intros (N & l & E). rewrite layout_record in *.
  destruct (all_layouts layout_of fs) as [ls|] eqn:A; cbn [bind] in *; [|discriminate].
  unfold record_layout in *. destruct (place_fields ls 0) as [(ps, total)|] eqn:R; cbn [bind] in *; [|discriminate].
  exists ls, ps, total. repeat split; try assumption. eapply sane_fields; eauto.
Qed.

Lemma by_layout_rec fs : has_layout (TRecord fs) -> forall k f, nth_error fs k = Some f ->
  has_layout f /\ 0 <= layout_offset fs k /\
  layout_offset fs k + layout_size f <= layout_size (TRecord fs) /\
  (forall l, layout_of f = Ok l -> (lalign l | layout_offset fs k)) /\
  forall j g, (k < j)%nat -> nth_error fs j = Some g -> layout_offset fs k + layout_size f <= layout_offset fs j.
Proof.
  intros H k f F. destruct (record_facts fs H) as (ls & ps & total & A & S & R & E).
  destruct H as (N & _). apply all_layouts_ok in A.
  destruct (place_fields_ok _ _ _ _ S (Z.le_refl 0) R) as (T & LE & X).
  pose proof (Forall2_nth _ _ _ A k) as Q. rewrite F in Q.
  destruct (nth_error ls k) as [l|] eqn:KL; [|tauto].
  assert (HP : exists p, nth_error ps k = Some p).
  { destruct (nth_error ps k) eqn:K; [eauto|]. apply nth_error_None in K.
    assert (k < length ls)%nat by (apply nth_error_Some; congruence). lia. }
  destruct HP as (p & KP). destruct (X k p KP) as (l' & E1 & E2 & E3 & E4 & B & D & T' & J).
  assert (l' = l) by congruence. subst l'.
  assert (OFF : layout_offset fs k = poffset p) by (unfold layout_offset; rewrite E; cbn; now rewrite KP).
  assert (SZ : layout_size f = lsize l) by (unfold layout_size; now rewrite Q).
  rewrite OFF, SZ. split; [split; [|now exists l]|split; [assumption|split; [|split]]].
  - apply no_null_fields in N. eapply Forall_forall; [exact N|]. eapply nth_error_In; eauto.
  - unfold layout_size. rewrite E. cbn [lsize]. lia.
  - intros l2 L2. assert (l2 = l) by congruence. subst l2. exact D.
  - intros j g JK G. pose proof (Forall2_nth _ _ _ A j) as Qj. rewrite G in Qj.
    destruct (nth_error ls j) as [lj|] eqn:KLj; [|tauto].
    destruct (nth_error ps j) as [q|] eqn:KPj.
    + unfold layout_offset. rewrite E. cbn [lparts]. rewrite KPj. now apply (J j q).
    + apply nth_error_None in KPj. assert (j < length ls)%nat by (apply nth_error_Some; congruence). lia.
Qed.

Lemma by_layout_arr dims e : has_layout (TArray dims e) -> 0 <= count_sub_elements (TArray dims e) ->
  has_layout (elem_recur e) /\
  layout_size (TArray dims e) = count_sub_elements (TArray dims e) * layout_size (elem_recur e).
Proof.
  intros (N & l & E) C. unfold layout_size at 1. rewrite E.
  rewrite layout_array in E. destruct (Z.leb_spec 0 (count_sub_elements (TArray dims e))); [|lia].
  unfold layout_size. destruct (layout_of (elem_recur e)) as [el|] eqn:EL; cbn [bind] in E; [|discriminate].
  split; [split; [now apply (no_null_elem e)|eauto]|].
  unfold array_layout in E. destruct (int32 _) as [s|] eqn:S; cbn [bind] in E; [|discriminate].
  apply int32_ok in S as (-> & _). injection E as <-. reflexivity.
Qed.

Lemma layout_size_nonneg t : has_layout t -> 0 <= layout_size t.
Proof.
  intros (N & l & E). unfold layout_size. rewrite E. apply (layout_sane t N l E).
Qed.

Lemma by_layout_no_overlap t : has_layout t -> no_overlap by_layout t.
Proof.
  apply place_no_overlap with (good := has_layout).
  - exact layout_size_nonneg.
  - exact by_layout_arr.
  - intros fs H k f F. destruct (by_layout_rec fs H k f F) as (A & B & C & _ & D). auto.
Qed.

(* ---------- the parts of one layout ---------- *)

Lemma record_parts_ok ls l : Forall sane ls -> record_layout ls = Ok l -> layout_ok l.
Proof.
  intros S. unfold record_layout.
  destruct (place_fields ls 0) as [(ps, total)|] eqn:R; cbn [bind]; [|discriminate]. intros [= <-].
  destruct (place_fields_ok _ _ _ _ S (Z.le_refl 0) R) as (T & LE & X).
  assert (IN : forall k p, nth_error ps k = Some p -> exists l, nth_error ls k = Some l /\ psize p * prepeat p = lsize l /\ 0 <= lsize l).
  { intros k p K. destruct (X k p K) as (l & E1 & E2 & E3 & _). exists l. rewrite E2, E3.
    split; [assumption|]. split; [lia|].
    assert (sane l) by (eapply Forall_forall; [exact S|eapply nth_error_In; eauto]). apply H. }
  split; cbn [lparts lsize].
  - intros i p K. destruct (X i p K) as (l & E1 & E2 & E3 & E4 & B & D & T' & J).
    rewrite E4. split; [assumption|]. unfold inside. rewrite E2, E3. intros b B'. lia.
  - intros i j p q b KI KJ BI BJ. unfold inside in *.
    destruct (X i p KI) as (l & E1 & E2 & E3 & E4 & B & D & T' & J).
    destruct (X j q KJ) as (l' & E1' & E2' & E3' & E4' & B' & D' & T'' & J').
    rewrite E2, E3 in BI. rewrite E2', E3' in BJ.
    destruct (Nat.lt_trichotomy i j) as [H|[H|H]]; [|assumption|].
    + specialize (J j q H KJ). lia.
    + specialize (J' i p H KI). lia.
Qed.

Lemma open_ok n : 0 <= n -> layout_ok (open_layout n).
Proof.
  intros N. split; cbn [lparts lsize open_layout].
  - intros [|[|i]] p; cbn [nth_error]; [intros [= <-]|intros [= <-]|destruct i; discriminate];
      cbn; (split; [first [exists 0; reflexivity|exists 1; reflexivity]|]);
      unfold inside; cbn; intros; lia.
  - intros [|[|i]] [|[|j]] p q b; cbn [nth_error]; intros P Q; try reflexivity;
      try (destruct i; discriminate); try (destruct j; discriminate);
      injection P as <-; injection Q as <-; unfold inside; cbn; intros; lia.
Qed.

Lemma signal_array_ok b h n : 0 <= n -> layout_ok (signal_array_layout b h n).
Proof.
  intros N. unfold signal_array_layout.
  destruct b, h; (split; cbn [lparts lsize app]);
    [intros [|[|[|i]]] p|intros [|[|[|i]]] [|[|[|j]]] p q x|intros [|[|[|i]]] p|intros [|[|[|i]]] [|[|[|j]]] p q x
    |intros [|[|[|i]]] p|intros [|[|[|i]]] [|[|[|j]]] p q x|intros [|[|[|i]]] p|intros [|[|[|i]]] [|[|[|j]]] p q x];
    cbn [nth_error]; intros;
    repeat match goal with
    | H : nth_error [] ?k = _ |- _ => destruct k; discriminate
    | H : None = Some _ |- _ => discriminate
    | H : Some _ = Some _ |- _ => injection H as <-
    end; try reflexivity; unfold inside in *; cbn [poffset psize prepeat palign] in *;
    change (align_up 8 8) with 8 in *; change (align_up (8 + 8) 8) with 16 in *; try lia;
    (split; [first [exists 0; reflexivity|exists 1; reflexivity|exists 2; reflexivity]|intros; lia]).
Qed.

Lemma layout_parts_ok t l : no_null t -> layout_of t = Ok l -> layout_ok l.
Proof.
  intros N E. destruct t as [low high| |dims e|fs].
  - injection E as <-. cbn. split; cbn [lparts lsize scalar_layout].
    + intros [|i] p; cbn [nth_error]; [intros [= <-]|destruct i; discriminate].
      split; [apply Z.divide_0_r|]. unfold inside. cbn [poffset psize prepeat]. intros; lia.
    + intros [|i] [|j] p q b; cbn [nth_error]; try (destruct i; discriminate); try (destruct j; discriminate).
      reflexivity.
  - injection E as <-. split; cbn [lparts lsize scalar_layout].
    + intros [|i] p; cbn [nth_error]; [intros [= <-]|destruct i; discriminate].
      split; [apply Z.divide_0_r|]. unfold inside. cbn. intros; lia.
    + intros [|i] [|j] p q b; cbn [nth_error]; try (destruct i; discriminate); try (destruct j; discriminate).
      reflexivity.
  - rewrite layout_array in E. destruct (Z.leb_spec 0 (count_sub_elements (TArray dims e))).
    + destruct (layout_of (elem_recur e)) as [el|]; cbn [bind] in E; [|discriminate].
      unfold array_layout in E. destruct (int32 _) as [s|] eqn:S; cbn [bind] in E; [|discriminate].
      apply int32_ok in S as (-> & _). injection E as <-. split; cbn [lparts lsize].
      * intros [|i] p; cbn [nth_error]; [intros [= <-]|destruct i; discriminate].
        split; [apply Z.divide_0_r|]. unfold inside. cbn [poffset psize prepeat]. intros; lia.
      * intros [|i] [|j] p q b; cbn [nth_error]; try (destruct i; discriminate); try (destruct j; discriminate).
        reflexivity.
    + injection E as <-. apply open_ok. lia.
  - rewrite layout_record in E. destruct (all_layouts layout_of fs) as [ls|] eqn:A; cbn [bind] in E; [|discriminate].
    eapply record_parts_ok; [|exact E]. eapply sane_fields; eauto.
Qed.

Lemma signal_record fs : signal_layout_of (TRecord fs) =
  do! ls <- all_layouts signal_layout_of fs; record_layout ls.
Proof.
  cbn [signal_layout_of]. f_equal. induction fs as [|f fs IH]; cbn [all_layouts]; [reflexivity|].
  destruct (signal_layout_of f); cbn [bind]; [|reflexivity]. now rewrite IH.
Qed.

Definition sane8 (l : layout) : Prop := lalign l = 8 /\ 0 <= lsize l /\ (8 | lsize l).

Lemma place_fields_8 : forall ls off ps total, Forall sane8 ls -> (8 | off) ->
  place_fields ls off = Ok (ps, total) -> (8 | total).
Proof.
  induction ls as [|l ls IH]; intros off ps total F O; cbn [place_fields].
  - now intros [= <- <-].
  - inversion_clear F as [|? ? (L1 & L2 & L3) F']. rewrite L1.
    destruct (int32 _) as [o2|] eqn:E; cbn [bind]; [|discriminate]. apply int32_ok in E as (-> & _).
    destruct (place_fields ls _) as [(ps', total')|] eqn:R; cbn [bind]; [|discriminate].
    intros [= <- <-]. eapply IH; [exact F'| |exact R].
    apply Z.divide_add_r; [|exact L3]. apply align_up_ok. unfold pow; lia.
Qed.

Lemma sane8_sane l : sane8 l -> sane l.
Proof. intros (A & B & _). split; [rewrite A; unfold pow; lia|assumption]. Qed.

Lemma signal_sane t l : signal_layout_of t = Ok l -> sane8 l.
Proof.
  revert l. induction t as [low high| |dims e IH|fs IH] using ty_rec'; intros l.
  - intros [= <-]. split; [reflexivity|]. split; [cbn; lia|]. now exists 2.
  - intros [= <-]. split; [reflexivity|]. split; [cbn; lia|]. now exists 2.
  - cbn [signal_layout_of]. intros [= <-]. split; [reflexivity|].
    unfold signal_array_layout. cbn [lsize].
    destruct (negb _), (homogeneous _); cbn -[Z.of_nat]; (split; [lia|]).
    + exists (2 + 2 * Z.of_nat (length dims)). lia.
    + exists (1 + 2 * Z.of_nat (length dims)). lia.
    + now exists 2.
    + now exists 1.
  - rewrite signal_record. destruct (all_layouts signal_layout_of fs) as [ls|] eqn:A; cbn [bind]; [|discriminate].
    apply all_layouts_ok in A.
    assert (S : Forall sane8 ls).
    { induction A; constructor; inversion_clear IH; auto. }
    unfold record_layout. destruct (place_fields ls 0) as [(ps, total)|] eqn:R; cbn [bind]; [|discriminate].
    intros [= <-]. split; [reflexivity|]. cbn [lsize]. split.
    + apply (place_fields_ok ls 0 ps total); [|lia|exact R]. eapply Forall_impl; [|exact S]. exact sane8_sane.
    + eapply place_fields_8; [exact S|apply Z.divide_0_r|exact R].
Qed.

Lemma signal_parts_ok t l : signal_layout_of t = Ok l -> layout_ok l.
Proof.
  destruct t as [low high| |dims e|fs].
  - intros [= <-]. apply (signal_array_ok false true 0). lia.
  - intros [= <-]. apply (signal_array_ok false true 0). lia.
  - cbn [signal_layout_of]. intros [= <-]. apply signal_array_ok. lia.
  - rewrite signal_record. destruct (all_layouts signal_layout_of fs) as [ls|] eqn:A; cbn [bind]; [|discriminate].
    apply record_parts_ok. apply all_layouts_ok in A.
    induction A as [|f l' fs ls E A IH]; constructor; [|exact IH]. apply sane8_sane. eapply signal_sane; eauto.
Qed.

(* ---------- the code generator ---------- *)

Lemma code_snd t : snd (code_layouts t) = (code_size (elem_recur t), code_align (elem_recur t)).
Proof.
  induction t; try (unfold code_size, code_align; cbn [code_layouts elem_recur fst snd]; reflexivity).
  exact IHt.
Qed.

Lemma code_size_array dims e : code_size (TArray dims e) =
  if const_bounds (TArray dims e) then const_size (TArray dims e) * code_size (elem_recur e)
  else 8 + 2 * 8 * dims_for_type (TArray dims e).
Proof.
  unfold code_size at 1. cbn [code_layouts]. rewrite code_snd.
  destruct (const_bounds (TArray dims e)); reflexivity.
Qed.

Lemma code_align_array dims e : code_align (TArray dims e) =
  if const_bounds (TArray dims e) then code_align (elem_recur e) else 8.
Proof.
  unfold code_align at 1. cbn [code_layouts]. rewrite code_snd.
  destruct (const_bounds (TArray dims e)); reflexivity.
Qed.

Lemma code_size_record fs : code_size (TRecord fs) =
  align_up (code_end (map (fun f => (code_size f, code_align f)) fs) 0) 8.
Proof.
  unfold code_size at 1. cbn [code_layouts fst snd]. f_equal. f_equal. apply map_ext. intros f.
  unfold code_size, code_align. now destruct (fst (code_layouts f)).
Qed.

Lemma fold_nonneg dims : forall n, 0 <= n -> 0 <= fold_left (fun n d => n * dim_length d) dims n.
Proof.
  induction dims as [|d dims IH]; intros n N; cbn [fold_left]; [assumption|]. apply IH.
  destruct d; cbn; lia.
Qed.

Lemma const_size_nonneg t : 0 <= const_size t.
Proof.
  induction t; cbn [const_size]; try lia. pose proof (fold_nonneg dims 1 ltac:(lia)). nia.
Qed.

Lemma dims_nonneg t : 0 <= dims_for_type t.
Proof.
  induction t as [| |dims e IH|]; cbn [dims_for_type]; try lia.
  destruct e; try lia. destruct (const_bounds _); lia.
Qed.

Definition saneC (sa : Z * Z) : Prop := pow (snd sa) /\ 0 <= fst sa /\ (snd sa | fst sa).

Lemma code_end_mono : forall sas off, Forall saneC sas -> off <= code_end sas off.
Proof.
  induction sas as [|(s, a) sas IH]; intros off F; cbn [code_end]; [lia|].
  inversion_clear F as [|? ? (A & B & _) F']. cbn [fst snd] in *.
  pose proof (proj1 (align_up_ok off a A)). specialize (IH (align_up off a + s) F'). lia.
Qed.

Lemma code_end_app xs : forall ys off, code_end (xs ++ ys) off = code_end ys (code_end xs off).
Proof. induction xs as [|(s, a) xs IH]; intros ys off; cbn [code_end app]; [reflexivity|apply IH]. Qed.

Lemma code_saneC t : saneC (code_size t, code_align t).
Proof.
  assert (G : saneC (code_size t, code_align t) /\ saneC (code_size (elem_recur t), code_align (elem_recur t))).
  { induction t as [low high| |dims e IH|fs IH] using ty_rec'.
    - assert (X : saneC (code_size (TInt low high), code_align (TInt low high))).
      { unfold code_size, code_align. cbn [code_layouts fst snd]. pose proof (repr_size low high) as H.
        split; [exact H|]. cbn [fst snd]. split; [apply pow_pos in H; lia|apply Z.divide_refl]. }
      split; exact X.
    - assert (X : saneC (code_size TReal, code_align TReal)).
      { split; cbn; [unfold pow; lia|]. split; [lia|now exists 1]. }
      split; exact X.
    - destruct IH as (_ & HE). split; [|exact HE].
      rewrite code_size_array, code_align_array. destruct (const_bounds _).
      + destruct HE as (A & B & C). split; [exact A|]. cbn [fst snd] in *.
        pose proof (const_size_nonneg (TArray dims e)). split; [nia|]. now apply Z.divide_mul_r.
      + split; [unfold pow; cbn; lia|]. cbn [fst snd]. pose proof (dims_nonneg (TArray dims e)).
        split; [lia|]. exists (1 + 2 * dims_for_type (TArray dims e)). lia.
    - assert (X : saneC (code_size (TRecord fs), code_align (TRecord fs))); [|split; exact X].
      rewrite code_size_record. change (code_align (TRecord fs)) with 8.
      assert (P8 : pow 8) by (unfold pow; lia).
      destruct (align_up_ok (code_end (map (fun f => (code_size f, code_align f)) fs) 0) 8 P8) as (A & B).
      split; [exact P8|]. cbn [fst snd]. split; [|exact B].
      pose proof (code_end_mono (map (fun f => (code_size f, code_align f)) fs) 0) as M.
      apply Z.le_trans with (code_end (map (fun f => (code_size f, code_align f)) fs) 0); [apply M|lia].
      clear -IH. induction IH as [|f fs (H & _) F IHF]; constructor; assumption. }
  apply G.
Qed.

Definition sa (f : ty) : Z * Z := (code_size f, code_align f).

Lemma saneC_all fs : Forall saneC (map sa fs).
Proof. induction fs; constructor; [apply code_saneC|assumption]. Qed.

Lemma firstn_nth {A} (l : list A) k x : nth_error l k = Some x -> firstn (S k) l = firstn k l ++ [x].
Proof.
  revert k. induction l as [|y l IH]; intros [|k] E; cbn in *; try discriminate.
  - now injection E as ->.
  - f_equal. now apply IH.
Qed.

Lemma code_offset_ok fs k f : nth_error fs k = Some f ->
  code_end (map sa (firstn k fs)) 0 <= code_offset fs k /\ (code_align f | code_offset fs k) /\
  code_offset fs k + code_size f = code_end (map sa (firstn (S k) fs)) 0.
Proof.
  intros F. unfold code_offset. rewrite F. fold sa. change (map (fun f => (code_size f, code_align f)) (firstn k fs)) with (map sa (firstn k fs)).
  destruct (align_up_ok (code_end (map sa (firstn k fs)) 0) (code_align f)) as (A & B).
  { apply (code_saneC f). }
  split; [lia|]. split; [exact B|].
  rewrite (firstn_nth _ _ _ F), map_app, code_end_app. reflexivity.
Qed.

Lemma code_end_firstn fs i j : (i <= j)%nat -> code_end (map sa (firstn i fs)) 0 <= code_end (map sa (firstn j fs)) 0.
Proof.
  intros H. replace (firstn j fs) with (firstn i fs ++ skipn i (firstn j fs)).
  - rewrite map_app, code_end_app. apply code_end_mono. apply saneC_all.
  - replace (firstn i fs) with (firstn i (firstn j fs)); [apply firstn_skipn|].
    rewrite firstn_firstn. f_equal. lia.
Qed.

Lemma by_code_rec fs k f : nth_error fs k = Some f ->
  0 <= code_offset fs k /\ code_offset fs k + code_size f <= code_size (TRecord fs) /\
  forall j g, (k < j)%nat -> nth_error fs j = Some g -> code_offset fs k + code_size f <= code_offset fs j.
Proof.
  intros F. destruct (code_offset_ok fs k f F) as (A & _ & B).
  pose proof (code_end_mono (map sa (firstn k fs)) 0 (saneC_all _)) as M. split; [lia|]. split.
  - rewrite B, code_size_record. fold sa. change (map (fun f => (code_size f, code_align f)) fs) with (map sa fs).
    pose proof (proj1 (align_up_ok (code_end (map sa fs) 0) 8 ltac:(unfold pow; lia))).
    pose proof (code_end_firstn fs (S k) (length fs)) as L. rewrite firstn_all in L.
    assert (k < length fs)%nat by (apply nth_error_Some; congruence). lia.
  - intros j g J G. destruct (code_offset_ok fs j g G) as (C & _ & _). rewrite B.
    pose proof (code_end_firstn fs (S k) j). lia.
Qed.

Definition code_count (t : ty) : Z := if const_bounds t then const_size t else -1.

Lemma by_code_arr dims e : 0 <= code_count (TArray dims e) ->
  code_size (TArray dims e) = code_count (TArray dims e) * code_size (elem_recur e).
Proof. unfold code_count. rewrite code_size_array. destruct (const_bounds _); [reflexivity|lia]. Qed.

Lemma by_code_no_overlap t : no_overlap by_code t.
Proof.
  apply place_no_overlap with (good := fun _ => True); [| | |exact I].
  - intros t' _. apply (code_saneC t').
  - intros dims e _ C. split; [exact I|]. now apply by_code_arr.
  - intros fs _ k f F. destruct (by_code_rec fs k f F) as (A & B & C). auto.
Qed.

Lemma by_code_aligned t : well_aligned by_code t.
Proof.
  intros path o a L.
  refine (proj1 (place_aligned by_code (fun _ => True) _ _ code_align _ _ _ _ _ t path o a L Logic.I)).
  - intros dims e _ C. split; [exact I|]. now apply by_code_arr.
  - intros fs _ k f F. destruct (by_code_rec fs k f F) as (A & B & C). auto.
  - intros t' _. apply (code_saneC t').
  - intros [low high| |dims e|fs] _ A; [reflexivity|reflexivity| |destruct A].
    cbn [atomic by_code pl_count] in A. rewrite code_align_array.
    destruct (const_bounds (TArray dims e)); [|reflexivity].
    pose proof (const_size_nonneg (TArray dims e)). lia.
  - intros t' _. apply (code_saneC t').
  - intros dims e _ C. cbn [by_code pl_count] in C. rewrite code_align_array.
    destruct (const_bounds (TArray dims e)); [reflexivity|lia].
  - intros fs _. split; [reflexivity|]. intros k f F. now apply code_offset_ok.
Qed.
