(* The heap of GcModel.v behaves as GcSpec.v says. *)
From Coq Require Import List Arith NArith ZArith Bool Lia ZifyBool.
From Verif Require Import Base MaskModel MaskSpec MaskProofs GcModel GcSpec GcProofs.
Import ListNotations.

Definition all_roots (m : mspace) (rs : list N) : list N :=
  rs ++ map (mvalue m) (mroots m) ++ flat_map (fun t => tlab_words (tlabs m t)) (live_tlabs m).

(* Everything about one collection. *)
Lemma gc_ok m rs : config m ->
  exists (mk : nat -> bool) h fl, mspace_gc m rs = Ok (set_heap m h fl) /\
    (forall x, mk x = true <-> exists s n, sreach m (fun w => In w (all_roots m rs)) s n /\ covers s n x) /\
    msize h = maxlines m /\ wf h /\
    (forall x, elem h x = hd m x || ((x <? maxlines m) && negb (mk x))) /\
    fl_ok 0 fl (maxlines m) /\ (forall x, on_list fl x <-> x < maxlines m /\ mk x = false) /\
    (forall l c, In (32 * l, 32 * c) fl -> is_run mk (maxlines m) l c).
Proof.
  intros C. set (rt := fun w => In w (all_roots m rs)). unfold mspace_gc.
  assert (Rt : forall ps, incl ps (all_roots m rs) -> forall p, In p ps -> forall s n, tgt m p s n -> sreach m rt s n).
  { intros ps I p Hp s n T. apply (sr_root m rt p); [apply I; exact Hp|exact T]. }
  destruct (mark_all_ok m C rt rs _ _ _ (marks_init m rt)) as (mk1 & wl1 & E1 & M1 & T1 & G1 & U1).
  { apply Rt. unfold all_roots. apply incl_appl, incl_refl. }
  rewrite E1. cbn [bind].
  destruct (mark_all_ok m C rt (map (mvalue m) (mroots m)) _ _ _ M1) as (mk2 & wl2 & E2 & M2 & T2 & G2 & U2).
  { apply Rt. unfold all_roots. apply incl_appr, incl_appl, incl_refl. }
  rewrite E2. cbn [bind].
  destruct (mark_all_ok m C rt (flat_map (fun t => tlab_words (tlabs m t)) (live_tlabs m)) _ _ _ M2) as (mk3 & wl3 & E3 & M3 & T3 & G3 & U3).
  { apply Rt. unfold all_roots. apply incl_appr, incl_appr, incl_refl. }
  rewrite E3. cbn [bind].
  destruct (mark_loop_ok m C rt (maxlines m) mk3 wl3 M3) as (mk & E4 & M4 & G4).
  { assert (unmarked (maxlines m) (mask_init (maxlines m)) <= maxlines m).
    { unfold unmarked. rewrite <- (seq_length (maxlines m) 0) at 2. clear. induction (seq 0 (maxlines m)) as [|x l IH]; [reflexivity|]. cbn [filter length]. destruct (negb _); cbn [length]; lia. }
    cbn [length] in U1. lia. }
  rewrite E4. cbn [bind].
  assert (MR : forall x, elem mk x = true <-> exists s n, sreach m rt s n /\ covers s n x).
  { apply marked_reach; [exact M4|]. intros w s n Hw T. unfold rt, all_roots in Hw. apply in_app_or in Hw. destruct Hw as [Hw|Hw].
    - apply G4, G3, G2. now apply (T1 w Hw s n).
    - apply in_app_or in Hw. destruct Hw as [Hw|Hw].
      + apply G4, G3. now apply (T2 w Hw s n).
      + apply G4. now apply (T3 w Hw s n). }
  pose proof C as (C1 & C2 & C3 & C4 & C5 & C6 & C7). destruct M4 as (L4 & W4 & _).
  destruct (sweep_ok (maxlines m) mk L4 W4 (maxlines m) 0 (headmask m) []) as (h & fl & E5 & A1 & A2 & A3 & A4 & A5 & A6); auto; try lia.
  - cbn. lia.
  - intros x. split; [intros (l & c & [] & _)|lia].
  - intros l c [].
  - rewrite E5. cbn [bind]. exists (elem mk), h, fl. split; [reflexivity|]. split; [exact MR|]. split; [exact A1|]. split; [exact A2|].
    split; [intros x; rewrite A3; reflexivity|]. auto.
Qed.

(* ---- the relation between a heap and its specification ---- *)
Definition objs_ok (hd : nat -> bool) (L : nat) (h : heap) : Prop :=
  (forall s n, obj h s = Some n -> seg hd L s n) /\
  (forall x, x < L -> (forall s n, obj h s = Some n -> ~ covers s n x) -> hd x = true).

Definition pool_ok (l f : list nat) (n : nat) : Prop := NoDup (l ++ f) /\ forall x, In x (l ++ f) -> x < n.

Definition rel (sp : N) (L : nat) (m : mspace) (h : heap) : Prop :=
  space m = sp /\ maxlines m = L /\ config m /\
  objs_ok (hd m) L h /\
  (fl_ok 0 (free_list m) L /\ forall x, on_list (free_list m) x -> forall s n, obj h s = Some n -> ~ covers s n x) /\
  (forall k, mem h k = words m k) /\
  (pool_ok (mroots m) (free_mptrs m) (next_mptr m) /\ forall p, handle h p = if live (mroots m) p then Some (mvalue m p) else None) /\
  (pool_ok (live_tlabs m) (free_tlabs m) (next_tlab m) /\
   (forall t, buffer h t = if live (live_tlabs m) t then Some (talloc (tlabs m t), tdata (tlabs m t)) else None) /\
   (forall t, (talloc (tlabs m t) <= TLAB_LIMIT)%N /\ (talloc (tlabs m t) mod 8 = 0)%N)).

Lemma live_in l x : live l x = true <-> In x l.
Proof.
  unfold live. rewrite existsb_exists. split.
  - intros (y & A & B). apply Nat.eqb_eq in B. now subst.
  - intros A. exists x. split; [exact A|apply Nat.eqb_refl].
Qed.

Lemma block_seg L hdf h s n : objs_ok hdf L h -> (block L h s n <-> seg hdf L s n).
Proof.
  intros [O1 O2]. split.
  - intros [B|(-> & B1 & B2)]; [now apply O1|]. split; [lia|]. split; [lia|]. split; [now apply O2|]. split; [lia|].
    intros Hs. destruct (hdf (s + 1)) eqn:E; [reflexivity|]. exfalso.
    assert (K : forall s' n', obj h s' = Some n' -> ~ covers s' n' (s + 1)).
    { intros s' n' Ob Cv. destruct (O1 _ _ Ob) as (S1 & S2 & S3 & S4 & S5). apply (B2 _ _ Ob). unfold covers in *.
      destruct (Nat.eq_dec s' (s + 1)) as [->|]; [congruence|lia]. }
    rewrite O2 in E; [discriminate|lia|exact K].
  - intros Sg. pose proof Sg as (S1 & S2 & S3 & S4 & S5).
    destruct (obj h s) as [n'|] eqn:Ob.
    + left. destruct (seg_unique _ _ _ _ _ _ s Sg (O1 _ _ Ob)) as [_ <-]; [unfold covers; lia| |exact Ob].
      destruct (O1 _ _ Ob). unfold covers. lia.
    + right. assert (U : forall s' n', obj h s' = Some n' -> ~ covers s' n' s).
      { intros s' n' Ob' Cv. destruct (seg_unique _ _ _ _ _ _ s Sg (O1 _ _ Ob')) as [<- _]; [unfold covers; lia|exact Cv|congruence]. }
      split; [|split; [lia|exact U]].
      destruct (Nat.eq_dec n 1) as [|Hn]; [assumption|]. exfalso.
      assert (E : hdf (s + 1) = false) by (apply S4; lia).
      rewrite O2 in E; [discriminate|lia|]. intros s' n' Ob' Cv. destruct (O1 _ _ Ob') as (T1 & T2 & T3 & T4 & T5).
      apply (U _ _ Ob'). unfold covers in *. destruct (Nat.eq_dec s' (s + 1)) as [->|]; [congruence|lia].
Qed.

Section Rel.
Variable sp : N.
Variable L : nat.

Lemma points_tgt m h p s n : rel sp L m h -> (points sp L h p s n <-> tgt m p s n).
Proof.
  intros (R1 & R2 & R3 & R4 & _). pose proof R3 as (C1 & C2 & _). unfold points, tgt. rewrite R2, (block_seg L (hd m)) by exact R4.
  unfold is_mspace_ptr, line_of, last_of, in_line. rewrite C2, R1, R2 in *. split.
  - intros (Sg & x & [I1 I2] & Cx).
    assert (Hx : x <= L) by (destruct Cx as [Cx|[-> _]]; [|lia]; destruct Sg as (_ & ? & _); unfold covers in Cx; lia).
    split; [|split; [exact Sg|]].
    + apply andb_true_intro. split; [apply N.leb_le; lia|apply N.ltb_lt; lia].
    + assert (E : N.to_nat ((p - sp) / 32) = x).
      { replace (p - sp)%N with (N.of_nat x * 32 + (p - sp - 32 * N.of_nat x))%N by lia. rewrite N.div_add_l by lia. rewrite N.div_small by lia. lia. }
      rewrite E. destruct Cx as [Cx|[-> Cx]].
      * replace (Nat.min x (L - 1)) with x; [exact Cx|]. destruct Sg as (_ & ? & _). unfold covers in Cx. lia.
      * now replace (Nat.min L (L - 1)) with (L - 1) by lia.
  - intros (P & Sg & Cv). split; [exact Sg|]. exists (N.to_nat ((p - sp) / 32)). apply andb_prop in P. destruct P as [P1 P2].
    apply N.leb_le in P1. apply N.ltb_lt in P2.
    pose proof (N.div_mod (p - sp) 32 ltac:(lia)) as DM. pose proof (N.mod_lt (p - sp) 32 ltac:(lia)) as ML.
    set (q := ((p - sp) / 32)%N) in *. set (md := ((p - sp) mod 32)%N) in *. clearbody q md.
    split; [split; lia|]. destruct (Nat.le_gt_cases L (N.to_nat q)) as [Q|Q].
    + right. split; [lia|]. now replace (Nat.min (N.to_nat q) (L - 1)) with (L - 1) in Cv by lia.
    + left. now replace (Nat.min (N.to_nat q) (L - 1)) with (N.to_nat q) in Cv by lia.
Qed.

Lemma root_all m h rs w : rel sp L m h -> (root h rs w <-> In w (all_roots m rs)).
Proof.
  intros (_ & _ & _ & _ & _ & _ & (_ & Hh) & (_ & Hb & _)). unfold root, all_roots. rewrite !in_app_iff, in_map_iff, in_flat_map.
  assert (A : (exists p, handle h p = Some w) <-> (exists x, mvalue m x = w /\ In x (mroots m))).
  { split.
    - intros (p & E). rewrite Hh in E. destruct (live (mroots m) p) eqn:V; [|discriminate]. injection E as <-. exists p. split; [reflexivity|now apply live_in].
    - intros (x & <- & I). exists x. rewrite Hh. apply live_in in I. now rewrite I. }
  assert (B : (exists t u d k, buffer h t = Some (u, d) /\ (8 * N.of_nat k < u)%N /\ w = d k) <->
              (exists x, In x (live_tlabs m) /\ In w (tlab_words (tlabs m x)))).
  { split.
    - intros (t & u & d & k & E & K & ->). rewrite Hb in E. destruct (live (live_tlabs m) t) eqn:V; [|discriminate]. injection E as <- <-.
      exists t. split; [now apply live_in|]. unfold tlab_words. apply in_map. apply in_seq. split; [lia|]. cbn.
      assert (N.of_nat k < (talloc (tlabs m t) + 7) / 8)%N; [|lia]. assert ((N.of_nat k + 1 <= (talloc (tlabs m t) + 7) / 8)%N) by (apply N.div_le_lower_bound; lia). lia.
    - intros (x & I & W). unfold tlab_words in W. apply in_map_iff in W. destruct W as (k & <- & K). apply in_seq in K.
      exists x, (talloc (tlabs m x)), (tdata (tlabs m x)), k. rewrite Hb. apply live_in in I. rewrite I. split; [reflexivity|]. split; [|reflexivity].
      destruct (N.lt_ge_cases (8 * N.of_nat k) (talloc (tlabs m x))) as [Q|Q]; [exact Q|].
      assert (((talloc (tlabs m x) + 7) / 8 < N.of_nat k + 1)%N) by (apply N.div_lt_upper_bound; lia). lia. }
  rewrite A, B. reflexivity.
Qed.

Lemma reach_sreach m h rs s n : rel sp L m h -> (reach sp L h rs s n <-> sreach m (fun w => In w (all_roots m rs)) s n).
Proof.
  intros R. pose proof R as (_ & _ & _ & _ & _ & W & _). split; intros H.
  - induction H as [w s n A B|s n k s' n' A IH B D].
    + apply (sr_root m _ w); [now apply (root_all m h)|now apply (points_tgt m h)].
    + apply (sr_word m _ s n k); [exact IH|exact B|]. rewrite <- W. now apply (points_tgt m h).
  - induction H as [w s n A B|s n k s' n' A IH B D].
    + apply (reach_root sp L h rs w); [now apply (root_all m h)|now apply (points_tgt m h)].
    + apply (reach_word sp L h rs s n k); [exact IH|exact B|]. rewrite W. now apply (points_tgt m h).
Qed.

(* The free list after a collection. *)
Definition swept (m' : mspace) (h : heap) (rs : list N) (mk : nat -> bool) : Prop :=
  (forall x, mk x = true <-> exists s n, reach sp L h rs s n /\ covers s n x) /\
  fl_ok 0 (free_list m') L /\
  (forall x, on_list (free_list m') x <-> x < L /\ mk x = false) /\
  (forall l c, In (32 * l, 32 * c) (free_list m') -> is_run mk L l c).

Lemma collect_ok m h rs : rel sp L m h ->
  exists m' h' mk, mspace_gc m rs = Ok m' /\ collect sp L h rs h' /\ rel sp L m' h' /\ swept m' h rs mk.
Proof.
  intros R. pose proof R as (R1 & R2 & R3 & R4 & R5 & R6 & R7 & R8).
  destruct (gc_ok m rs R3) as (mk & hm & fl & E & MR & A1 & A2 & A3 & A4 & A5 & A6). rewrite R2 in *.
  assert (MR' : forall x, mk x = true <-> exists s n, reach sp L h rs s n /\ covers s n x).
  { intros x. rewrite MR. split; intros (s & n & A & B); exists s, n; (split; [|exact B]); now apply (reach_sreach m h). }
  set (h' := Heap (fun s => match obj h s with Some n => if mk s then Some n else None | None => None end) (mem h) (handle h) (buffer h)).
  assert (Ob : forall s n, obj h' s = Some n <-> obj h s = Some n /\ mk s = true).
  { intros s n. cbn [h' obj]. destruct (obj h s) as [n'|]; [|split; [discriminate|intros [? _]; discriminate]].
    destruct (mk s); split; [auto|intros [? _]; assumption|discriminate|intros [_ ?]; discriminate]. }
  assert (Sr : forall s n, obj h s = Some n -> mk s = true -> sreach m (fun w => In w (all_roots m rs)) s n).
  { intros s n O K. apply MR in K. destruct K as (s' & n' & A & B). pose proof (sreach_seg _ _ _ _ A) as Sg. rewrite R2 in Sg.
    destruct R4 as [O1 _]. destruct (seg_unique _ _ _ _ _ _ s (O1 _ _ O) Sg) as [<- <-]; [|exact B|exact A].
    destruct (O1 _ _ O). unfold covers. lia. }
  assert (Cov : forall s n x, obj h' s = Some n -> covers s n x -> mk x = true).
  { intros s n x O Cv. apply Ob in O. destruct O as [O K]. apply MR. exists s, n. split; [now apply Sr|exact Cv]. }
  exists (set_heap m hm fl), h', mk. split; [exact E|]. split; [|split].
  - split; [|split; [|split]]; try reflexivity. intros s n. rewrite Ob. split; intros [O K]; (split; [exact O|]).
    + apply (reach_sreach m h); [exact R|]. now apply Sr.
    + apply MR'. exists s, n. split; [exact K|]. destruct R4 as [O1 _]. destruct (O1 _ _ O). unfold covers. lia.
  - pose proof R3 as (C1 & C2 & C3 & C4 & C5 & C6 & C7).
    split; [exact R1|]. split; [exact R2|]. split; [|split; [|split; [|auto]]].
    + split; [exact C1|]. split; [exact C2|]. split; [exact C3|]. split; [exact C4|]. split; [exact (eq_trans A1 (eq_sym R2))|]. split; [exact A2|].
      cbn [set_heap headmask]. rewrite A3. unfold hd. now rewrite C7.
    + destruct R4 as [O1 O2]. unfold hd. cbn [set_heap headmask]. split.
      * intros s n O. pose proof O as O'. apply Ob in O'. destruct O' as [O' K]. destruct (O1 _ _ O') as (S1 & S2 & S3 & S4 & S5).
        split; [exact S1|]. split; [exact S2|]. split; [rewrite A3; now rewrite S3|]. split.
        -- intros x Hx. rewrite A3, (S4 x Hx). rewrite (Cov s n x O) by (unfold covers; lia). cbn. now rewrite andb_false_r.
        -- intros Hx. rewrite A3, (S5 Hx). reflexivity.
      * intros x Hx U. rewrite A3. destruct (hd m x) eqn:Eh; [reflexivity|]. destruct (mk x) eqn:Em; [|apply Nat.ltb_lt in Hx; rewrite Hx; reflexivity]. exfalso.
        pose proof Em as Em'. apply MR in Em'. destruct Em' as (s & n & A & B). pose proof (sreach_seg _ _ _ _ A) as Sg. rewrite R2 in Sg.
        apply (block_seg L (hd m) h) in Sg; [|split; [exact O1|exact O2]]. destruct Sg as [Sg|(-> & G1 & G2)].
        -- apply (U s n); [|exact B]. apply Ob. split; [exact Sg|]. apply MR. exists s, n. split; [exact A|]. destruct (O1 _ _ Sg). unfold covers. lia.
        -- assert (s = x) by (unfold covers in B; lia). subst s. rewrite O2 in Eh; [discriminate|exact G1|exact G2].
    + cbn [set_heap free_list]. split; [exact A4|]. intros x O s n Ob' Cv. apply A5 in O. rewrite (Cov s n x Ob' Cv) in O. destruct O; discriminate.
  - cbn [set_heap free_list]. split; [exact MR'|]. auto.
Qed.

Lemma lines_bounds size : let n := (size + LINE_SIZE) / LINE_SIZE in n * 32 <= size + 32 /\ size + 1 <= n * 32 /\ 1 <= n.
Proof.
  unfold LINE_SIZE. cbv zeta. pose proof (Nat.div_mod (size + 32) 32 ltac:(lia)). pose proof (Nat.mod_upper_bound (size + 32) 32 ltac:(lia)). lia.
Qed.

Lemma try_alloc_ok m h size : rel sp L m h ->
  (mspace_try_alloc m size = Ok (None, m) /\ forall l c, In (32 * l, 32 * c) (free_list m) -> c * 32 <= size) \/
  (exists s m' h', mspace_try_alloc m size = Ok (Some (32 * s), m') /\ space m' = sp /\ allocate sp L h size (sp + N.of_nat (32 * s)) h' /\ rel sp L m' h').
Proof.
  intros R. pose proof R as (R1 & R2 & R3 & R4 & R5 & R6 & R7 & R8). unfold mspace_try_alloc.
  destruct (lines_bounds size) as (B1 & B2 & B3). set (n := (size + LINE_SIZE) / LINE_SIZE) in *. clearbody n.
  destruct (first_fit (n * LINE_SIZE) (free_list m)) as [[b fl]|] eqn:F.
  2: { left. split; [reflexivity|]. intros l c I. pose proof (first_fit_none _ _ F l c I). lia. }
  right. destruct R5 as [F1 F2]. destruct (first_fit_ok _ _ _ _ _ _ F1 B3 F) as (s & -> & K1 & K2 & K3 & K4 & K5).
  replace (32 * s / LINE_SIZE) with s by (unfold LINE_SIZE; rewrite Nat.mul_comm, Nat.div_mul; lia).
  pose proof R3 as (C1 & C2 & C3 & C4 & C5 & C6 & C7). rewrite R2 in *.
  destruct (mask_set_ok (headmask m) s C6 ltac:(lia)) as (h1 & E1 & L1 & W1 & D1). rewrite E1. cbn [bind].
  assert (Free : forall s' n' x, obj h s' = Some n' -> covers s' n' x -> ~ covers s n x).
  { intros s' n' x O Cv Cv'. exact (F2 x (K4 x Cv') s' n' O Cv). }
  assert (X : exists h2, (if 1 <? n then mask_clear_range h1 (s + 1) (n - 1) else Ok h1) = Ok h2 /\ msize h2 = L /\ wf h2 /\
    forall x, elem h2 x = if (s <=? x) && (x <? s + n) then x =? s else elem (headmask m) x).
  { destruct (Nat.ltb_spec 1 n) as [Q|Q].
    - destruct (mask_clear_range_ok h1 (s + 1) (n - 1) W1 ltac:(lia)) as (h2 & E2 & L2 & W2 & D2). exists h2. split; [exact E2|].
      split; [congruence|]. split; [exact W2|]. intros x. rewrite D2, D1. unfold in_range.
      destruct (Nat.eqb_spec x s) as [->|Nx].
      + replace (s + 1 <=? s) with false by lia. replace (s <=? s) with true by lia. replace (s <? s + n) with true by lia. reflexivity.
      + replace ((s + 1 <=? x) && (x <? s + 1 + (n - 1))) with ((s <=? x) && (x <? s + n)) by lia.
        destruct ((s <=? x) && (x <? s + n)); reflexivity.
    - exists h1. split; [reflexivity|]. split; [congruence|]. split; [exact W1|]. intros x. rewrite D1.
      destruct (Nat.eqb_spec x s) as [->|Nx].
      + replace (s <=? s) with true by lia. replace (s <? s + n) with true by lia. reflexivity.
      + replace ((s <=? x) && (x <? s + n)) with false by lia. reflexivity. }
  destruct X as (h2 & E2 & L2 & W2 & D2). rewrite E2. cbn [bind].
  set (m' := set_words (set_heap m h2 fl) (clear_byte (words m) (32 * s))).
  set (h' := Heap (upd (obj h) s (Some n)) (words m') (handle h) (buffer h)).
  exists s, m', h'. split; [reflexivity|]. split; [exact R1|]. split; [|split; [exact R1|split; [exact R2|split; [|split; [|split; [|split; [|auto]]]]]]].
  - exists s, n. split; [lia|]. split; [split; [lia|split; [lia|split; [lia|exact Free]]]|]. split; [cbn; apply upd_same|].
    split; [intros s' N; cbn; now apply upd_other|]. split; [|split; reflexivity].
    intros k Hk. cbn [h' m' mem words set_words]. rewrite R6. unfold clear_byte. cbv zeta.
    replace (32 * s / 8) with (4 * s) by (replace (32 * s) with (4 * s * 8) by lia; rewrite Nat.div_mul; lia).
    apply upd_other. lia.
  - unfold config. change (maxlines m') with (maxlines m). change (maxsize m') with (maxsize m). rewrite R2.
    split; [exact C1|]. split; [exact C2|]. split; [exact C3|]. split; [exact C4|]. split; [exact L2|]. split; [exact W2|].
    cbn [m' set_words set_heap headmask]. rewrite D2. destruct ((s <=? 0) && (0 <? s + n)) eqn:Q; [apply Nat.eqb_eq; lia|exact C7].
  - destruct R4 as [O1 O2].
    assert (Hfree : forall x, covers s n x -> hd m x = true).
    { intros x Cx. apply O2; [unfold covers in Cx; lia|]. intros s' n' O Cv. exact (Free s' n' x O Cv Cx). }
    assert (Hn : s + n < L -> hd m (s + n) = true).
    { intros Q. destruct (hd m (s + n)) eqn:Eh; [reflexivity|]. rewrite O2 in Eh; [discriminate|exact Q|]. intros s' n' O Cv.
      destruct (O1 _ _ O) as (S1 & S2 & S3 & S4 & S5). destruct (Nat.eq_dec s' (s + n)) as [->|N]; [congruence|].
      apply (Free s' n' (s + n - 1) O); unfold covers in *; lia. }
    unfold hd in *. cbn [m' set_words set_heap headmask]. split.
    + intros s' n' O. cbn [h' obj] in O. destruct (Nat.eq_dec s' s) as [->|N].
      * rewrite upd_same in O. injection O as <-. split; [lia|]. split; [lia|]. split; [rewrite D2; replace ((s <=? s) && (s <? s + n)) with true by lia; apply Nat.eqb_refl|]. split.
        -- intros x Hx. rewrite D2. replace ((s <=? x) && (x <? s + n)) with true by lia. apply Nat.eqb_neq. lia.
        -- intros Q. rewrite D2. replace ((s <=? s + n) && (s + n <? s + n)) with false by lia. now apply Hn.
      * rewrite upd_other in O by exact N. destruct (O1 _ _ O) as (S1 & S2 & S3 & S4 & S5).
        assert (Out : forall x, covers s' n' x -> (s <=? x) && (x <? s + n) = false).
        { intros x Cx. pose proof (Free s' n' x O Cx) as Q. unfold covers in Q. lia. }
        split; [exact S1|]. split; [exact S2|]. split; [rewrite D2, Out by (unfold covers; lia); exact S3|]. split.
        -- intros x Hx. rewrite D2, Out by (unfold covers; lia). now apply S4.
        -- intros Q. rewrite D2. destruct ((s <=? s' + n') && (s' + n' <? s + n)) eqn:Q2; [|now apply S5].
           apply Nat.eqb_eq. destruct (Nat.eq_dec (s' + n') s) as [|Ns]; [assumption|].
           exfalso. apply (Free s' n' (s' + n' - 1) O); unfold covers; lia.
    + intros x Hx U. rewrite D2. destruct ((s <=? x) && (x <? s + n)) eqn:Q.
      * exfalso. apply (U s n); [cbn; apply upd_same|unfold covers; lia].
      * apply O2; [exact Hx|]. intros s' n' O Cv. apply (U s' n'); [|exact Cv]. cbn [h' obj]. rewrite upd_other; [exact O|].
        intros ->. destruct (O1 _ _ O) as (S1 & _). apply (Free s n' s O); unfold covers; lia.
  - cbn [m' set_words set_heap free_list]. split; [exact K1|]. intros x Ox s' n' O Cv. apply K5 in Ox. destruct Ox as [Ox1 Ox2].
    cbn [h' obj] in O. destruct (Nat.eq_dec s' s) as [->|N].
    + rewrite upd_same in O. injection O as <-. contradiction.
    + rewrite upd_other in O by exact N. exact (F2 x Ox1 s' n' O Cv).
  - intros k. reflexivity.
Qed.

Lemma row_search (mk : nat -> bool) s : forall n, (exists x, covers s n x /\ mk x = true) \/ (forall x, covers s n x -> mk x = false).
Proof.
  induction n as [|n IH]; [right; unfold covers; lia|]. destruct IH as [(x & A & B)|IH]; [left; exists x; split; [unfold covers in *; lia|exact B]|].
  destruct (mk (s + n)) eqn:E; [left; exists (s + n); split; [unfold covers; lia|exact E]|].
  right. intros x Cx. destruct (Nat.eq_dec x (s + n)) as [->|]; [exact E|]. apply IH. unfold covers in *. lia.
Qed.

Lemma swept_room m' h rs mk size : swept m' h rs mk -> (forall l c, In (32 * l, 32 * c) (free_list m') -> c * 32 <= size) -> no_room sp L h rs size.
Proof.
  intros (S1 & S2 & S3 & S4) Sm s n Hn Hs.
  destruct (row_search mk s n) as [(x & A & B)|A].
  - apply S1 in B. destruct B as (s' & n' & B1 & B2). exists x, s', n'. auto.
  - exfalso. assert (O : on_list (free_list m') s) by (apply S3; split; [lia|apply A; unfold covers; lia]).
    destruct O as (l & c & O1 & O2). pose proof (Sm _ _ O1) as Q. destruct (S4 _ _ O1) as (T1 & T2 & T3 & T4 & T5). unfold covers in O2.
    assert (l + c < s + n) by lia. destruct T5 as [T5|T5]; [lia|]. rewrite A in T5; [discriminate|unfold covers; lia].
Qed.

Lemma alloc_ok m h size rs1 rs2 : rel sp L m h ->
  exists r m' h', mspace_alloc m size rs1 rs2 = Ok (r, m') /\ alloc_spec sp L h size rs1 rs2 r h' /\ rel sp L m' h'.
Proof.
  intros R. unfold mspace_alloc. destruct (Nat.eqb_spec size 0) as [Z|Z].
  { exists None, m, h. split; [reflexivity|]. split; [now apply alloc_zero|exact R]. }
  destruct (try_alloc_ok m h size R) as [[E Sm]|(s & m' & h' & E & Sp & A & R')]; rewrite E; cbn [bind].
  2: { rewrite Sp. exists (Some (sp + N.of_nat (32 * s))%N), m', h'. split; [reflexivity|]. split; [now apply alloc_now|exact R']. }
  destruct (collect_ok m h rs1 R) as (m1 & h1 & mk1 & E1 & C1 & R1 & S1). rewrite E1. cbn [bind].
  destruct (try_alloc_ok m1 h1 size R1) as [[E2 Sm2]|(s & m' & h' & E2 & Sp & A & R')]; rewrite E2; cbn [bind].
  2: { rewrite Sp. exists (Some (sp + N.of_nat (32 * s))%N), m', h'. split; [reflexivity|]. split; [now apply (alloc_later sp L h size rs1 rs2 _ h1)|exact R']. }
  destruct (collect_ok m1 h1 rs2 R1) as (m2 & h2 & mk2 & E3 & C2 & R2 & S2). rewrite E3. cbn [bind].
  exists None, m2, h2. split; [reflexivity|]. split; [|exact R2]. apply (alloc_oom sp L h size rs1 rs2 h1 h2); auto.
  now apply (swept_room m1 h rs1 mk1).
Qed.

Lemma NoDup_app_iff_ok {A} (l f : list A) : NoDup l -> NoDup f -> (forall y, In y l -> ~ In y f) -> NoDup (l ++ f).
Proof.
  intros D1 D2 D. induction D1 as [|a l N D1 IH]; [exact D2|]. cbn. constructor.
  - rewrite in_app_iff. intros [J|J]; [contradiction|]. apply (D a); [now left|exact J].
  - apply IH. intros y Hy. apply D. now right.
Qed.

Lemma pool_remove l f n x : pool_ok l f n -> In x l -> pool_ok (remove1 x l) (x :: f) n.
Proof.
  intros [D B] I. assert (In' : forall y, In y (remove1 x l ++ x :: f) <-> In y (l ++ f)).
  { intros y. rewrite !in_app_iff. unfold remove1. split.
    - intros [J|[->|J]]; [apply in_remove in J; left; apply J|now left|now right].
    - intros [J|J]; [|right; now right]. destruct (Nat.eq_dec y x) as [->|N]; [right; now left|left; now apply in_in_remove]. }
  split; [|intros y Hy; apply B, In'; exact Hy].
  assert (Dl : NoDup l /\ NoDup f /\ forall y, In y l -> ~ In y f).
  { clear - D. induction l as [|a l IH]; cbn in D; [split; [constructor|]; split; [exact D|intros ? []]|].
    inversion D as [|? ? N1 N2]; subst. destruct (IH N2) as (A1 & A2 & A3). rewrite in_app_iff in N1. split; [constructor; tauto|]. split; [exact A2|].
    intros y [->|Hy]; [tauto|now apply A3]. }
  destruct Dl as (D1 & D2 & D3).
  apply NoDup_app_iff_ok; [|constructor; [now apply D3|exact D2]|].
  - clear - D1. unfold remove1. induction l as [|a l IH]; [constructor|]. inversion D1 as [|? ? N1 N2]; subst. cbn [remove].
    destruct (Nat.eq_dec x a); [now apply IH|]. constructor; [|now apply IH]. intros J. apply in_remove in J. tauto.
  - intros y Hy [->|Hy']; [apply in_remove in Hy; tauto|]. apply in_remove in Hy. now apply (D3 y).
Qed.

Lemma live_cons x l p : live (x :: l) p = (p =? x) || live l p.
Proof. reflexivity. Qed.
Lemma live_remove x l p : live (remove1 x l) p = negb (p =? x) && live l p.
Proof.
  destruct (live (remove1 x l) p) eqn:E.
  - apply live_in in E. unfold remove1 in E. apply in_remove in E. destruct E as [E1 E2]. apply live_in in E1. rewrite E1.
    destruct (Nat.eqb_spec p x); [contradiction|reflexivity].
  - destruct (Nat.eqb_spec p x) as [|N]; [reflexivity|]. cbn. destruct (live l p) eqn:F; [|reflexivity]. exfalso.
    apply live_in in F. assert (live (remove1 x l) p = true); [|congruence]. apply live_in. now apply in_in_remove.
Qed.
Lemma pool_take l x f n : pool_ok l (x :: f) n -> pool_ok (x :: l) f n /\ live l x = false.
Proof.
  intros [D B]. assert (Pm : forall y, In y ((x :: l) ++ f) <-> In y (l ++ x :: f)).
  { intros y. cbn. rewrite !in_app_iff. cbn. tauto. }
  apply NoDup_remove in D. destruct D as [D1 D2]. split; [split|].
  - cbn. constructor; assumption.
  - intros y Hy. apply B, Pm. exact Hy.
  - destruct (live l x) eqn:E; [|reflexivity]. apply live_in in E. exfalso. apply D2. apply in_or_app. now left.
Qed.
Lemma pool_new l n : pool_ok l [] n -> pool_ok (n :: l) [] (S n) /\ live l n = false.
Proof.
  intros [D B]. rewrite app_nil_r in *. split; [split|].
  - rewrite app_nil_r. constructor; [|exact D]. intros J. apply B in J. lia.
  - intros y. rewrite app_nil_r. intros [<-|J]; [lia|]. apply B in J. lia.
  - destruct (live l n) eqn:E; [|reflexivity]. apply live_in in E. apply B in E. lia.
Qed.

Lemma align8 k : exists q, align_up k 8 = 8 * q /\ k <= 8 * q < k + 8.
Proof.
  unfold align_up. exists ((k + 8 - 1) / 8). pose proof (Nat.div_mod (k + 8 - 1) 8 ltac:(lia)). pose proof (Nat.mod_upper_bound (k + 8 - 1) 8 ltac:(lia)). lia.
Qed.

Lemma step_ok m h o : rel sp L m h -> exists x m' h', step m o = Ok (x, m') /\ heap_step sp L h o x h' /\ rel sp L m' h'.
Proof.
  intros R. pose proof R as (R1 & R2 & R3 & R4 & R5 & R6 & (R7 & R7') & (R8 & R8' & R8'')).
  destruct o as [size rs1 rs2|rs|k w|p| |p|p w| |t|t|t size rs1 rs2|t k w]; cbn [step].
  - destruct (alloc_ok m h size rs1 rs2 R) as (r & m' & h' & E & A & R'). rewrite E. cbn [bind].
    exists (OPtr r), m', h'. split; [reflexivity|]. split; [now constructor|exact R'].
  - destruct (collect_ok m h rs R) as (m' & h' & mk & E & A & R' & _). rewrite E. cbn [bind].
    exists ONone, m', h'. split; [reflexivity|]. split; [now constructor|exact R'].
  - exists ONone, (set_words m (upd (words m) k w)), (with_mem h (upd (mem h) k w)). split; [reflexivity|]. split; [constructor|].
    split; [exact R1|]. split; [exact R2|]. split; [exact R3|]. split; [exact R4|]. split; [exact R5|]. split; [|auto].
    intros j. cbn. unfold upd. destruct (j =? k); auto.
  - unfold mspace_find. destruct (is_mspace_ptr m p) eqn:P.
    + destruct (find_block_ok m p R3 P) as (s & n & E & T). rewrite E. cbn [bind].
      exists (OFind (Some (sp + 32 * N.of_nat s)%N) (n * 32)), m, h. split.
      * rewrite R1. unfold LINE_SIZE. f_equal. f_equal. f_equal. f_equal. lia.
      * split; [constructor; now apply (points_tgt m h)|exact R].
    + exists (OFind None 0), m, h. split; [reflexivity|]. split; [|exact R]. apply hs_find_none. intros s n Q. apply (points_tgt m h) in Q; [|exact R].
      destruct Q as [Q _]. congruence.
  - unfold mptr_new. destruct (free_mptrs m) as [|p f] eqn:F.
    + destruct (pool_new _ _ R7) as [P1 P2].
      exists (OId (next_mptr m)). eexists. exists (with_handle h (next_mptr m) (Some 0%N)). split; [reflexivity|]. split; [constructor; rewrite R7'; now rewrite P2|].
      split; [exact R1|]. split; [exact R2|]. split; [exact R3|]. split; [exact R4|]. split; [exact R5|]. split; [exact R6|]. split; [|auto].
      split; [exact P1|]. intros q. cbn [set_mptrs mroots mvalue with_handle handle]. rewrite live_cons. unfold upd. destruct (Nat.eqb_spec q (next_mptr m)); [reflexivity|]. apply R7'.
    + destruct (pool_take _ _ _ _ R7) as [P1 P2].
      exists (OId p). eexists. exists (with_handle h p (Some 0%N)). split; [reflexivity|]. split; [constructor; rewrite R7'; now rewrite P2|].
      split; [exact R1|]. split; [exact R2|]. split; [exact R3|]. split; [exact R4|]. split; [exact R5|]. split; [exact R6|]. split; [|auto].
      split; [exact P1|]. intros q. cbn [set_mptrs mroots mvalue with_handle handle]. rewrite live_cons. unfold upd. destruct (Nat.eqb_spec q p); [reflexivity|]. apply R7'.
  - destruct (live (mroots m) p) eqn:V.
    + exists ONone, (mptr_free m p), (with_handle h p None). split; [reflexivity|]. split; [constructor; rewrite R7', V; discriminate|].
      split; [exact R1|]. split; [exact R2|]. split; [exact R3|]. split; [exact R4|]. split; [exact R5|]. split; [exact R6|]. split; [|auto].
      split; [apply pool_remove; [exact R7|now apply live_in]|]. intros q. cbn [mptr_free set_mptrs mroots mvalue with_handle handle]. rewrite live_remove. unfold upd.
      destruct (Nat.eqb_spec q p); [reflexivity|]. apply R7'.
    + exists ONone, m, h. split; [reflexivity|]. split; [|exact R]. apply hs_mptr_free_bad. rewrite R7'. now rewrite V.
  - destruct (live (mroots m) p) eqn:V.
    + eexists ONone, _, (with_handle h p (Some w)). split; [reflexivity|]. split; [constructor; rewrite R7', V; discriminate|].
      split; [exact R1|]. split; [exact R2|]. split; [exact R3|]. split; [exact R4|]. split; [exact R5|]. split; [exact R6|]. split; [|auto].
      split; [exact R7|]. intros q. cbn [set_mptrs mroots mvalue with_handle handle]. unfold upd.
      destruct (Nat.eqb_spec q p) as [->|]; [now rewrite V|]. apply R7'.
    + exists ONone, m, h. split; [reflexivity|]. split; [|exact R]. apply hs_mptr_set_bad. rewrite R7'. now rewrite V.
  - unfold tlab_acquire. destruct (free_tlabs m) as [|t f] eqn:F.
    + destruct (pool_new _ _ R8) as [P1 P2].
      exists (OId (next_tlab m)). eexists. exists (with_buffer h (next_tlab m) (Some (0%N, fun _ => 0%N))). split; [reflexivity|]. split; [constructor; rewrite R8'; now rewrite P2|].
      split; [exact R1|]. split; [exact R2|]. split; [exact R3|]. split; [exact R4|]. split; [exact R5|]. split; [exact R6|]. split; [auto|].
      split; [exact P1|]. split; intros q; cbn [set_tlabs live_tlabs tlabs with_buffer buffer]; rewrite ?live_cons; unfold upd; destruct (Nat.eqb_spec q (next_tlab m)); [reflexivity|apply R8'|split; [cbn; discriminate|reflexivity]|apply R8''].
    + destruct (pool_take _ _ _ _ R8) as [P1 P2].
      exists (OId t). eexists. exists (with_buffer h t (Some (0%N, tdata (tlabs m t)))). split; [reflexivity|]. split; [constructor; rewrite R8'; now rewrite P2|].
      split; [exact R1|]. split; [exact R2|]. split; [exact R3|]. split; [exact R4|]. split; [exact R5|]. split; [exact R6|]. split; [auto|].
      split; [exact P1|]. split; intros q; cbn [set_tlabs live_tlabs tlabs with_buffer buffer]; rewrite ?live_cons; unfold upd; destruct (Nat.eqb_spec q t); [reflexivity|apply R8'|split; [cbn; discriminate|reflexivity]|apply R8''].
  - destruct (live (live_tlabs m) t) eqn:V.
    + unfold tlab_release. destruct (R8'' t) as [A1 A2]. replace (TLAB_LIMIT <? talloc (tlabs m t))%N with false by (symmetry; apply N.ltb_ge; exact A1). cbn [bind].
      eexists ONone, _, (with_buffer h t None). split; [reflexivity|]. split; [constructor; rewrite R8', V; discriminate|].
      split; [exact R1|]. split; [exact R2|]. split; [exact R3|]. split; [exact R4|]. split; [exact R5|]. split; [exact R6|]. split; [auto|].
      split; [apply pool_remove; [exact R8|now apply live_in]|]. split; [|exact R8''].
      intros q. cbn [set_tlabs live_tlabs tlabs with_buffer buffer]. rewrite live_remove. unfold upd. destruct (Nat.eqb_spec q t); [reflexivity|]. apply R8'.
    + exists ONone, m, h. split; [reflexivity|]. split; [|exact R]. apply hs_tlab_release_bad. rewrite R8'. now rewrite V.
  - destruct (live (live_tlabs m) t) eqn:V.
    + unfold tlab_reset. destruct (R8'' t) as [A1 A2]. replace (TLAB_LIMIT <? talloc (tlabs m t))%N with false by (symmetry; apply N.ltb_ge; exact A1). cbn [bind].
      eexists ONone, _, (with_buffer h t (Some (0%N, tdata (tlabs m t)))). split; [reflexivity|]. split; [apply (hs_tlab_reset sp L h t (talloc (tlabs m t))); rewrite R8', V; reflexivity|].
      split; [exact R1|]. split; [exact R2|]. split; [exact R3|]. split; [exact R4|]. split; [exact R5|]. split; [exact R6|]. split; [auto|].
      split; [exact R8|]. split; intros q; cbn [set_tlabs live_tlabs tlabs with_buffer buffer]; unfold upd; destruct (Nat.eqb_spec q t) as [->|]; [|apply R8'| |apply R8''].
      * now rewrite V.
      * split; [cbn; discriminate|reflexivity].
    + exists ONone, m, h. split; [reflexivity|]. split; [|exact R]. apply hs_tlab_reset_bad. rewrite R8'. now rewrite V.
  - destruct (live (live_tlabs m) t) eqn:V.
    + unfold tlab_alloc. destruct (R8'' t) as [A1 A2]. replace (TLAB_LIMIT <? talloc (tlabs m t))%N with false by (symmetry; apply N.ltb_ge; exact A1). rewrite A2. cbn [orb negb N.eqb].
      assert (Hb : buffer h t = Some (talloc (tlabs m t), tdata (tlabs m t))) by (rewrite R8', V; reflexivity).
      assert (LM : (TLAB_LIMIT mod 8 = 0)%N) by reflexivity.
      destruct (N.leb_spec (talloc (tlabs m t) + N.of_nat size) TLAB_LIMIT) as [Q|Q]; cbn [bind].
      * destruct (align8 size) as (q8 & Eq & Bq). rewrite Eq.
        assert (Hm : (talloc (tlabs m t) + N.of_nat (8 * q8) <= TLAB_LIMIT)%N).
        { pose proof (N.div_mod (talloc (tlabs m t)) 8 ltac:(lia)) as DM. rewrite A2 in DM.
          assert (TL : TLAB_LIMIT = (8 * 8188)%N) by reflexivity. rewrite TL in *. clear - DM Bq Q. lia. }
        exists (OWhere (InTlab (talloc (tlabs m t)))). eexists. exists (with_buffer h t (Some ((talloc (tlabs m t) + N.of_nat (8 * q8))%N, tdata (tlabs m t)))).
        split; [reflexivity|]. split.
        -- apply (hs_tlab_alloc sp L h t size rs1 rs2 _ _ _ Hb); [lia|exact Hm|exact A2].
        -- split; [exact R1|]. split; [exact R2|]. split; [exact R3|]. split; [exact R4|]. split; [exact R5|]. split; [exact R6|]. split; [auto|].
           split; [exact R8|]. split; intros q; cbn [set_tlabs live_tlabs tlabs with_buffer buffer]; unfold upd; destruct (Nat.eqb_spec q t) as [->|]; [|apply R8'| |apply R8''].
           ++ now rewrite V.
           ++ split; [exact Hm|]. cbn [talloc]. replace (N.of_nat (8 * q8)) with (N.of_nat q8 * 8)%N by lia. rewrite N.mod_add by lia. exact A2.
      * destruct (alloc_ok m h size rs1 rs2 R) as (r & m' & h' & E & A & R'). rewrite E. cbn [bind].
        exists (OWhere (InHeap r)), m', h'. split; [reflexivity|]. split; [|exact R']. apply (hs_tlab_alloc_heap sp L h t size rs1 rs2 _ _ _ _ Hb); [exact Q|exact A].
    + exists ONone, m, h. split; [reflexivity|]. split; [|exact R]. apply hs_tlab_alloc_bad. rewrite R8'. now rewrite V.
  - destruct (live (live_tlabs m) t) eqn:V.
    + eexists ONone, _, (with_buffer h t (Some (talloc (tlabs m t), upd (tdata (tlabs m t)) k w))). split; [reflexivity|].
      split; [apply (hs_tlab_write sp L h t k w); rewrite R8', V; reflexivity|].
      split; [exact R1|]. split; [exact R2|]. split; [exact R3|]. split; [exact R4|]. split; [exact R5|]. split; [exact R6|]. split; [auto|].
      split; [exact R8|]. split; intros q; cbn [set_tlabs live_tlabs tlabs with_buffer buffer]; unfold upd; destruct (Nat.eqb_spec q t) as [->|]; [|apply R8'| |apply R8''].
      * now rewrite V.
      * apply R8''.
    + exists ONone, m, h. split; [reflexivity|]. split; [|exact R]. apply hs_tlab_write_bad. rewrite R8'. now rewrite V.
Qed.

Lemma run_ok : forall os m h, rel sp L m h -> exists xs m' h', run m os = Ok (xs, m') /\ heap_run sp L h os xs h' /\ rel sp L m' h'.
Proof.
  induction os as [|o os IH]; intros m h R.
  - exists [], m, h. split; [reflexivity|]. split; [constructor|exact R].
  - destruct (step_ok m h o R) as (x & m1 & h1 & E & S1 & R1). destruct (IH m1 h1 R1) as (xs & m2 & h2 & E2 & S2 & R2).
    exists (x :: xs), m2, h2. cbn [run]. rewrite E. cbn [bind]. rewrite E2. cbn [bind]. split; [reflexivity|]. split; [econstructor; eauto|exact R2].
Qed.
End Rel.

(* A new heap of [size] bytes has this many lines. *)
Definition heap_lines (size : nat) : nat := (size + 31) / 32 - 1.

Lemma new_ok sp size : 33 <= size -> heap_lines size mod 64 <> 0 -> (N.of_nat (heap_lines size) < UINT32_MAX)%N ->
  exists m, mspace_new sp size = Ok m /\ rel sp (heap_lines size) m empty_heap.
Proof.
  intros Hs Hm Hu. unfold mspace_new, align_up, LINE_SIZE, OVERRUN_MARGIN. replace (size + 32 - 1) with (size + 31) by lia.
  unfold heap_lines in *. set (q := (size + 31) / 32) in *.
  assert (Q : 2 <= q) by (unfold q; pose proof (Nat.div_mod (size + 31) 32 ltac:(lia)); pose proof (Nat.mod_upper_bound (size + 31) 32 ltac:(lia)); lia). clearbody q.
  replace ((q * 32 - 32) / 32) with (q - 1) by (replace (q * 32 - 32) with ((q - 1) * 32) by lia; rewrite Nat.div_mul; lia).
  destruct (N.ltb_spec 137438953472 (N.of_nat (q * 32))) as [Z|Z]; [unfold UINT32_MAX in Hu; lia|].
  destruct (mask_init_denotes (q - 1)) as (D1 & D2 & D3). unfold mask_setall. rewrite D1.
  destruct (mask_set_range_ok (mask_init (q - 1)) 0 (q - 1) D2 ltac:(lia)) as (h & E & L1 & W1 & El). rewrite E. cbn [bind].
  assert (El' : forall x, x < q - 1 -> elem h x = true).
  { intros x Hx. rewrite El. unfold in_range. replace (x <? 0 + (q - 1)) with true by lia. reflexivity. }
  eexists. split; [reflexivity|]. split; [reflexivity|]. split; [reflexivity|]. split; [|split; [|split; [|split; [|split]]]].
  - unfold config. cbn [maxlines maxsize headmask]. split; [lia|]. split; [lia|]. split; [exact Hu|]. split; [exact Hm|]. split; [congruence|]. split; [exact W1|]. apply El'. lia.
  - split; [intros s n Q'; discriminate|]. intros x Hx _. now apply El'.
  - split; [|intros x _ s n Q'; discriminate]. cbn [free_list fl_ok]. exists 0, (q - 1). split; [lia|]. split; [lia|]. split; [lia|]. split; [lia|]. lia.
  - reflexivity.
  - split; [|reflexivity]. split; [constructor|intros x []].
  - split; [|split; [reflexivity|]]. { split; [constructor|intros x []]. } intros t. cbn. split; [discriminate|reflexivity].
Qed.
