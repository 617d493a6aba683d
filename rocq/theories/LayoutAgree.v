(* Generated code and jit_layout_t agree on plain types. *)
From Coq Require Import List ZArith Bool Lia Arith.
From Verif Require Import Base LayoutModel LayoutSpec LayoutProofs.
Import ListNotations.
Open Scope Z_scope.

Lemma wrap32_range x : - 2 ^ 31 <= wrap32 x < 2 ^ 31.
Proof. unfold wrap32. pose proof (Z.mod_pos_bound (x + 2 ^ 31) (2 ^ 32) ltac:(lia)). lia. Qed.

Lemma wrap32_cong x : exists k, wrap32 x = x + k * 2 ^ 32.
Proof.
  exists (- ((x + 2 ^ 31) / 2 ^ 32)). unfold wrap32.
  pose proof (Z.div_mod (x + 2 ^ 31) (2 ^ 32) ltac:(lia)). lia.
Qed.

Lemma fold_wrap dims : forall n m k, n = m + k * 2 ^ 32 -> - 2 ^ 31 <= n < 2 ^ 31 ->
  let r := fold_left (fun n d => wrap32 (n * dim_length d)) dims n in
  (exists k', r = fold_left (fun n d => n * dim_length d) dims m + k' * 2 ^ 32) /\
  - 2 ^ 31 <= r < 2 ^ 31.
Proof.
  induction dims as [|d dims IH]; intros n m k E R; cbn [fold_left].
  - split; [eauto|exact R].
  - destruct (wrap32_cong (n * dim_length d)) as (j & J).
    apply (IH _ _ (j + k * dim_length d)); [|apply wrap32_range].
    rewrite J, E. ring.
Qed.

Lemma fold_scale dims : forall n, fold_left (fun n d => n * dim_length d) dims n =
  n * fold_left (fun n d => n * dim_length d) dims 1.
Proof.
  induction dims as [|d dims IH]; intros n; cbn [fold_left]; [lia|].
  rewrite IH, (IH (1 * dim_length d)). ring.
Qed.

Lemma count_cong t : const_bounds t = true ->
  (exists k, count_sub_elements t = const_size t + k * 2 ^ 32) /\ - 2 ^ 31 <= count_sub_elements t < 2 ^ 31.
Proof.
  induction t as [| |dims e IH|fs]; cbn [const_bounds count_sub_elements const_size]; intros C;
    try (split; [exists 0|]; lia).
  apply andb_prop in C as (C1 & C2). destruct (existsb is_open dims); [discriminate|].
  destruct (IH C2) as ((k & E) & R).
  destruct (fold_wrap dims _ _ k E R) as ((k' & E') & R'). split; [|exact R'].
  exists k'. rewrite E', fold_scale. ring.
Qed.

Lemma count_exact t : const_bounds t = true -> const_size t < 2 ^ 31 -> count_sub_elements t = const_size t.
Proof.
  intros C S. destruct (count_cong t C) as ((k & E) & R). pose proof (const_size_nonneg t). lia.
Qed.

Lemma plain_fields fs : plain (TRecord fs) <-> Forall (fun f => plain f /\ packs f) fs.
Proof.
  cbn. induction fs as [|f fs IH]; cbn.
  - split; [constructor|trivial].
  - rewrite IH. split.
    + intros (H1 & H2). now constructor.
    + intros H. inversion H. tauto.
Qed.

(* ---------- records ---------- *)

Definition like (l : layout) (s : Z * Z) : Prop := lsize l = fst s /\ lalign l = snd s.

Lemma place_like : forall ls sas off ps total, Forall2 like ls sas ->
  place_fields ls off = Ok (ps, total) ->
  total = code_end sas off /\
  forall k p s, nth_error ps k = Some p -> nth_error sas k = Some s ->
    poffset p = align_up (code_end (firstn k sas) off) (snd s).
Proof.
  induction ls as [|l ls IH]; intros sas off ps total F; inversion F as [|? s ? sas' (L1 & L2) F']; subst;
    cbn [place_fields].
  - intros [= <- <-]. split; [reflexivity|]. intros [|k] p s; discriminate.
  - destruct (int32 _) as [o2|] eqn:E; cbn [bind]; [|discriminate]. apply int32_ok in E as (-> & _).
    destruct (place_fields ls _) as [(ps', total')|] eqn:R; cbn [bind]; [|discriminate].
    intros [= <- <-]. destruct (IH _ _ _ _ F' R) as (T & N). destruct s as (sz, al). cbn [fst snd] in *.
    rewrite L1, L2 in *. split; [exact T|]. intros [|k] p s; cbn [nth_error firstn code_end].
    + intros [= <-] [= <-]. reflexivity.
    + intros K S. apply (N k p s K S).
Qed.

Lemma plain_like t : plain t -> forall l, layout_of t = Ok l ->
  lalign l = code_align t /\ (packs t -> lsize l = code_size t).
Proof.
  assert (G : plain t ->
    (forall l, layout_of t = Ok l -> lalign l = code_align t /\ (packs t -> lsize l = code_size t)) /\
    (match t with TArray dims _ => existsb is_open dims = false | _ => True end ->
     forall l, layout_of (elem_recur t) = Ok l ->
       lalign l = code_align (elem_recur t) /\ (packs (elem_recur t) -> lsize l = code_size (elem_recur t)))).
  { induction t as [low high| |dims e IH|fs IH] using ty_rec'; intros PL.
    - assert (X : forall l, layout_of (TInt low high) = Ok l ->
        lalign l = code_align (TInt low high) /\ (packs (TInt low high) -> lsize l = code_size (TInt low high))).
      { intros l [= <-]. cbn [plain] in PL. unfold code_align, code_size.
        cbn [scalar_layout lalign lsize code_layouts fst snd]. unfold repr_bits.
        destruct (bits_cases low high PL) as [->|[->|[->|[->| ->]]]]; split; reflexivity. }
      split; [exact X|]. intros _. exact X.
    - assert (X : forall l, layout_of TReal = Ok l ->
        lalign l = code_align TReal /\ (packs TReal -> lsize l = code_size TReal)).
      { intros l [= <-]. split; reflexivity. }
      split; [exact X|]. intros _. exact X.
    - cbn [plain] in PL. rewrite code_align_array, code_size_array.
      destruct (existsb is_open dims) eqn:O.
      + split; [|discriminate]. intros l. rewrite layout_array.
        assert (CB : const_bounds (TArray dims e) = false) by (cbn [const_bounds]; now rewrite O).
        assert (CE : count_sub_elements (TArray dims e) = -1) by (cbn [count_sub_elements]; now rewrite O).
        rewrite CB, CE. cbn [Z.leb]. intros [= <-]. split; [reflexivity|]. intros _.
        cbn [open_layout lsize dims_for_type].
        destruct e; cbn [open_layout lsize]; try lia. rewrite PL. lia.
      + destruct PL as (C & S & PE & PK).
        assert (CB : const_bounds (TArray dims e) = true) by (cbn [const_bounds]; now rewrite O, C).
        destruct (IH PE) as (_ & HE).
        assert (EO : match e with TArray dims _ => existsb is_open dims = false | _ => True end).
        { destruct e; auto. cbn [const_bounds] in C. apply andb_prop in C as (C & _).
          destruct (existsb is_open dims0); [discriminate|reflexivity]. }
        specialize (HE EO). split; [|intros _; exact HE].
        intros l. rewrite layout_array, (count_exact _ CB S), CB.
        destruct (Z.leb_spec 0 (const_size (TArray dims e))) as [H|H].
        2: { pose proof (const_size_nonneg (TArray dims e)). lia. }
        destruct (layout_of (elem_recur e)) as [el|] eqn:EL; cbn [bind]; [|discriminate].
        destruct (HE el eq_refl) as (E1 & E2). specialize (E2 PK). unfold array_layout.
        destruct (int32 _) as [s|] eqn:SS; cbn [bind]; [|discriminate]. apply int32_ok in SS as (-> & _).
        intros [= <-]. cbn [lalign lsize]. rewrite E1, E2. split; [reflexivity|]. intros _. reflexivity.
    - assert (X : forall l, layout_of (TRecord fs) = Ok l ->
        lalign l = code_align (TRecord fs) /\ (packs (TRecord fs) -> lsize l = code_size (TRecord fs)));
        [|split; [exact X|intros _; exact X]].
      intros l LL. cbn [packs]. unfold layout_size. rewrite LL. revert LL. rewrite layout_record.
      destruct (all_layouts layout_of fs) as [ls|] eqn:E; cbn [bind]; [|discriminate].
      apply all_layouts_ok in E. apply plain_fields in PL.
      assert (FL : Forall2 like ls (map sa fs)).
      { clear -E IH PL. induction E as [|f l fs ls EF E IHE]; cbn [map]; constructor.
        - inversion_clear PL as [|? ? (P1 & P2) PS]. inversion_clear IH as [|? ? H1 H2].
          destruct (proj1 (H1 P1) l EF) as (A & B). split; [apply B, P2|exact A].
        - inversion PL; inversion IH; auto. }
      unfold record_layout. destruct (place_fields ls 0) as [(ps, total)|] eqn:R; cbn [bind]; [|discriminate].
      intros [= <-]. cbn [lsize lalign]. split; [reflexivity|]. intros D.
      destruct (place_like _ _ _ _ _ FL R) as (T & _). rewrite code_size_record. fold sa.
      change (map (fun f => (code_size f, code_align f)) fs) with (map sa fs). rewrite <- T.
      symmetry. apply align_up_id; [unfold pow; lia|exact D]. }
  intros PL. apply (G PL).
Qed.

Definition nice (t : ty) : Prop := plain t /\ exists l, layout_of t = Ok l.

Lemma nice_field fs k f : nice (TRecord fs) -> nth_error fs k = Some f ->
  nice f /\ packs f /\ layout_offset fs k = code_offset fs k.
Proof.
  intros (PL & l & E) F. pose proof E as E0. rewrite layout_record in E.
  destruct (all_layouts layout_of fs) as [ls|] eqn:A; cbn [bind] in E; [|discriminate].
  apply all_layouts_ok in A. apply plain_fields in PL.
  pose proof (proj1 (Forall_forall _ _) PL f (nth_error_In _ _ F)) as (P1 & P2).
  pose proof (Forall2_nth _ _ _ A k) as Q. rewrite F in Q.
  destruct (nth_error ls k) as [lk|] eqn:KL; [|tauto].
  split; [split; [exact P1|eauto]|]. split; [exact P2|].
  unfold layout_offset. rewrite E0.
  assert (FL : Forall2 like ls (map sa fs)).
  { clear -A PL. induction A as [|f l fs ls EF E IHE]; cbn [map]; constructor.
    - inversion_clear PL as [|? ? (P1 & P2) PS]. destruct (plain_like f P1 l EF) as (X & Y).
      split; [apply Y, P2|exact X].
    - inversion PL; auto. }
  unfold record_layout in E. destruct (place_fields ls 0) as [(ps, total)|] eqn:R; cbn [bind] in E; [|discriminate].
  injection E as <-. cbn [lparts]. destruct (place_like _ _ _ _ _ FL R) as (_ & N).
  unfold code_offset. rewrite F. change (map (fun f => (code_size f, code_align f)) (firstn k fs)) with (map sa (firstn k fs)).
  assert (S : nth_error (map sa fs) k = Some (sa f)) by now apply map_nth_error.
  destruct (nth_error ps k) as [p|] eqn:KP.
  - rewrite (N k p (sa f) KP S), firstn_map. reflexivity.
  - exfalso. apply nth_error_None in KP.
    assert (LL : length ps = length ls).
    { clear -R. revert R. generalize 0 as off. revert ps total. induction ls as [|l ls IH]; intros ps total off; cbn [place_fields].
      - now intros [= <- <-].
      - destruct (int32 _); cbn [bind]; [|discriminate].
        destruct (place_fields ls _) as [(ps', total')|] eqn:R'; cbn [bind]; [|discriminate].
        intros [= <- <-]. cbn [length]. f_equal. eapply IH; eauto. }
    assert (k < length ls)%nat by (apply nth_error_Some; congruence). lia.
Qed.

Lemma nice_array dims e : nice (TArray dims e) ->
  count_sub_elements (TArray dims e) = code_count (TArray dims e) /\
  (0 <= code_count (TArray dims e) -> nice (elem_recur e) /\ layout_size (elem_recur e) = code_size (elem_recur e)).
Proof.
  intros (PL & l & E). unfold code_count. cbn [plain] in PL. destruct (existsb is_open dims) eqn:O.
  - assert (CB : const_bounds (TArray dims e) = false) by (cbn [const_bounds]; now rewrite O).
    assert (CE : count_sub_elements (TArray dims e) = -1) by (cbn [count_sub_elements]; now rewrite O).
    rewrite CB, CE. split; [reflexivity|]. lia.
  - destruct PL as (C & S & PE & PK).
    assert (CB : const_bounds (TArray dims e) = true) by (cbn [const_bounds]; now rewrite O, C).
    rewrite CB. split; [now apply count_exact|]. intros _.
    assert (EP : plain (elem_recur e)).
    { clear -PE C. induction e as [| |d e IH|]; cbn [elem_recur]; auto.
      cbn [const_bounds] in C. apply andb_prop in C as (C1 & C2). cbn [plain] in PE.
      destruct (existsb is_open d); [discriminate|]. apply IH; [exact C2|apply PE]. }
    rewrite layout_array, (count_exact _ CB S) in E.
    destruct (Z.leb_spec 0 (const_size (TArray dims e))) as [H|H].
    2: { pose proof (const_size_nonneg (TArray dims e)). lia. }
    destruct (layout_of (elem_recur e)) as [el|] eqn:EL; cbn [bind] in E; [|discriminate].
    split; [split; [exact EP|eauto]|]. unfold layout_size. rewrite EL.
    now apply (plain_like (elem_recur e) EP el EL).
Qed.

Lemma layout_leaf t path o a : leaf by_layout t path o a -> nice t ->
  leaf by_code t path o a /\ layout_size a = code_size a.
Proof.
  induction 1 as [t A|dims e i path o a I L IH|fs i f path o a F L IH]; intros N.
  - split.
    + constructor. destruct t; try exact A. cbn [atomic by_code by_layout pl_count] in *.
      destruct (nice_array _ _ N) as (C & _). rewrite C in A. exact A.
    + destruct N as (PL & l & E). unfold layout_size. rewrite E.
      apply (plain_like t PL l E). destruct t; try exact Logic.I. destruct A.
  - cbn [by_layout pl_count pl_size] in *. destruct (nice_array _ _ N) as (C & D).
    rewrite C in I. destruct (D ltac:(lia)) as (NE & S). destruct (IH NE) as (LE & SA).
    split; [|exact SA]. rewrite S. now apply (leaf_elem by_code).
  - cbn [by_layout pl_offset] in *. destruct (nice_field _ _ _ N F) as (NF & _ & O).
    destruct (IH NF) as (LF & SA). split; [|exact SA]. rewrite O. now apply (leaf_field by_code fs i f).
Qed.

Lemma code_leaf t path o a : leaf by_code t path o a -> nice t -> leaf by_layout t path o a.
Proof.
  induction 1 as [t A|dims e i path o a I L IH|fs i f path o a F L IH]; intros N.
  - constructor. destruct t; try exact A. cbn [atomic by_code by_layout pl_count] in *.
    destruct (nice_array _ _ N) as (C & _). rewrite C. exact A.
  - cbn [by_code pl_count pl_size] in *. destruct (nice_array _ _ N) as (C & D).
    destruct (D ltac:(unfold code_count; lia)) as (NE & S). rewrite <- S.
    apply (leaf_elem by_layout); [|now apply IH]. cbn [by_layout pl_count]. rewrite C. exact I.
  - cbn [by_code pl_offset] in *. destruct (nice_field _ _ _ N F) as (NF & _ & O).
    rewrite <- O. apply (leaf_field by_layout fs i f); [exact F|]. now apply IH.
Qed.

Lemma plain_same t l : plain t -> layout_of t = Ok l -> same_places t.
Proof.
  intros P E. assert (N : nice t) by (split; eauto). split.
  - intros path o a. split.
    + intros L. now apply layout_leaf.
    + intros L. now apply code_leaf.
  - intros path o a L. now apply (layout_leaf t path o a).
Qed.

(* ---------- signals ---------- *)

Definition sig_like (l : layout) (s : Z * Z) : Prop := lsize l = align_up (fst s) 8 /\ lalign l = 8 /\ snd s = 8.

Lemma sig_place : forall ls sas off off' ps total, Forall2 sig_like ls sas -> off = align_up off' 8 ->
  place_fields ls off = Ok (ps, total) ->
  total = align_up (code_end sas off') 8 /\
  forall k p s, nth_error ps k = Some p -> nth_error sas k = Some s ->
    poffset p = align_up (code_end (firstn k sas) off') (snd s).
Proof.
  assert (P8 : pow 8) by (unfold pow; lia).
  induction ls as [|l ls IH]; intros sas off off' ps total F O;
    inversion F as [|? s ? sas' (L1 & L2 & L3) F']; subst; cbn [place_fields].
  - intros [= <- <-]. split; [reflexivity|]. intros [|k] p s; discriminate.
  - destruct (int32 _) as [o2|] eqn:E; cbn [bind]; [|discriminate]. apply int32_ok in E as (-> & _).
    destruct (place_fields ls _) as [(ps', total')|] eqn:R; cbn [bind]; [|discriminate].
    intros [= <- <-]. rewrite L2 in *.
    assert (A : align_up (align_up off' 8) 8 = align_up off' 8).
    { apply align_up_id; [exact P8|]. now apply align_up_ok. }
    rewrite A, L1 in R. destruct s as (sz, al). cbn [fst snd] in *. subst al.
    refine (_ (IH _ _ (align_up off' 8 + sz) _ _ F' _ R)).
    + intros (T & N). split; [exact T|]. intros [|k] p s; cbn [nth_error firstn code_end].
      * intros [= <-] [= <-]. cbn [poffset snd]. exact A.
      * intros K S. apply (N k p s K S).
    + symmetry. destruct (align_up_ok sz 8 P8) as (B1 & B2). destruct (align_up_ok off' 8 P8) as (_ & B3).
      apply align_up_same; [exact P8|lia|]. now apply Z.divide_add_r.
Qed.

Lemma plain_signal_fields fs : plain_signal (TRecord fs) <-> Forall plain_signal fs.
Proof.
  cbn. induction fs as [|f fs IH]; cbn.
  - split; [constructor|trivial].
  - rewrite IH. split.
    + intros (H1 & H2). now constructor.
    + intros H. inversion H. tauto.
Qed.

Lemma align8_mul k : align_up (8 * k) 8 = 8 * k.
Proof. apply align_up_id; [unfold pow; lia|]. exists k. ring. Qed.

Lemma signal_like t : plain_signal t -> forall l, signal_layout_of t = Ok l -> sig_like l (code_signal t).
Proof.
  induction t as [low high| |dims e IH|fs IH] using ty_rec'; intros PL l.
  - intros [= <-]. repeat split; reflexivity.
  - intros [= <-]. repeat split; reflexivity.
  - cbn [plain_signal] in PL. destruct PL as (H & C). cbn [signal_layout_of]. intros [= <-].
    change (homogeneous (TArray dims e)) with (homogeneous e). rewrite H. cbn [code_signal].
    change (negb (existsb is_open dims) && const_bounds e) with (const_bounds (TArray dims e)).
    destruct (const_bounds (TArray dims e)) eqn:CB; cbn [negb]; [repeat split; reflexivity|].
    assert (D : dims_for_type (TArray dims e) = Z.of_nat (length dims)).
    { cbn [dims_for_type]. destruct C as [C|(_ & C)].
      - rewrite C. destruct e; lia.
      - destruct e; try tauto; lia. }
    rewrite D. split; [|split; reflexivity]. cbn [fst signal_array_layout lsize].
    replace (2 * 8 + 2 * 8 * Z.of_nat (length dims)) with (8 * (2 + 2 * Z.of_nat (length dims))) by ring.
    rewrite align8_mul. ring.
  - rewrite signal_record. destruct (all_layouts signal_layout_of fs) as [ls|] eqn:A; cbn [bind]; [|discriminate].
    apply all_layouts_ok in A. apply plain_signal_fields in PL.
    assert (FL : Forall2 sig_like ls (map code_signal fs)).
    { clear -A IH PL. induction A as [|f l fs ls EF E IHE]; cbn [map]; constructor.
      - inversion PL; inversion IH; auto.
      - inversion PL; inversion IH; auto. }
    unfold record_layout. destruct (place_fields ls 0) as [(ps, total)|] eqn:R; cbn [bind]; [|discriminate].
    intros [= <-]. destruct (sig_place ls _ 0 0 ps total FL eq_refl R) as (T & _).
    split; [|split; reflexivity]. cbn [lsize code_signal fst]. rewrite T. symmetry.
    apply align_up_id; [unfold pow; lia|]. apply align_up_ok. unfold pow; lia.
Qed.

Lemma signal_offsets fs l : plain_signal (TRecord fs) -> signal_layout_of (TRecord fs) = Ok l ->
  forall k p, nth_error (lparts l) k = Some p -> poffset p = code_signal_offset fs k.
Proof.
  intros PL. rewrite signal_record. destruct (all_layouts signal_layout_of fs) as [ls|] eqn:A; cbn [bind]; [|discriminate].
  apply all_layouts_ok in A. apply plain_signal_fields in PL.
  assert (FL : Forall2 sig_like ls (map code_signal fs)).
  { clear -A PL. induction A as [|f l fs ls EF E IHE]; cbn [map]; constructor.
    - apply signal_like; [now inversion PL|assumption].
    - inversion PL; auto. }
  unfold record_layout. destruct (place_fields ls 0) as [(ps, total)|] eqn:R; cbn [bind]; [|discriminate].
  intros [= <-] k p. cbn [lparts]. intros K. destruct (sig_place ls _ 0 0 ps total FL eq_refl R) as (_ & N).
  unfold code_signal_offset.
  assert (LL : length ps = length ls).
  { clear -R. revert R. generalize 0 as off. revert ps total. induction ls as [|l ls IH]; intros ps total off; cbn [place_fields].
    - now intros [= <- <-].
    - destruct (int32 _); cbn [bind]; [|discriminate].
      destruct (place_fields ls _) as [(ps', total')|] eqn:R'; cbn [bind]; [|discriminate].
      intros [= <- <-]. cbn [length]. f_equal. eapply IH; eauto. }
  destruct (nth_error fs k) as [f|] eqn:F.
  - rewrite (N k p (code_signal f) K); [now rewrite firstn_map|]. now apply map_nth_error.
  - exfalso. assert (length fs = length ls) by (clear -A; induction A; cbn; congruence). apply nth_error_None in F.
    assert (k < length ps)%nat by (apply nth_error_Some; congruence). lia.
Qed.
