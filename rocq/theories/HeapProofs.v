(* Proofs about the binary heap model. *)
From Coq Require Import List Arith NArith Permutation Lia ZArith.
From Verif Require Import Base HeapModel HeapSpec.
Import ListNotations.

Section Proofs.
Context {A : Type}.
Implicit Types h : heap A.

Notation contents := heap_walk.

(* Heap order on every parent/child pair whose indices satisfy [P]. *)
Definition ord h (P : nat -> Prop) : Prop :=
  forall j, 2 <= j <= hsize h -> P j -> (KEY h (j / 2) <= KEY h j)%N.

Definition heap_ok h : Prop := ord h (fun _ => True).

(* The order condition that survives a hole at [i]. *)
Definition skip h i : Prop :=
  forall j, 2 <= j <= hsize h -> j / 2 = i -> 2 <= i ->
            (KEY h (i / 2) <= KEY h j)%N.

Lemma contents_perm_upd (f : nat -> node) (n i : nat) (v : node) :
  1 <= i <= n ->
  Permutation (f i :: map (upd f i v) (seq 1 n)) (v :: map (f : nat -> N * A) (seq 1 n)).
Proof.
  intros Hi.
  replace n with ((i - 1) + (1 + (n - i))) by lia.
  rewrite !seq_app, !map_app. cbn [seq map app].
  replace (1 + (i - 1)) with i by lia.
  rewrite upd_same.
  assert (E1 : map (upd f i v) (seq 1 (i - 1)) = map f (seq 1 (i - 1))).
  { apply map_ext_in. intros a Ha. apply in_seq in Ha. apply upd_other. lia. }
  assert (E2 : map (upd f i v) (seq (i + 1) (n - i)) = map f (seq (i + 1) (n - i))).
  { apply map_ext_in. intros a Ha. apply in_seq in Ha. apply upd_other. lia. }
  rewrite E1. replace (S i) with (i + 1) by lia. rewrite E2.
  set (X := map f (seq 1 (i - 1))). set (Y := map f (seq (i + 1) (n - i))).
  apply perm_trans with (f i :: v :: X ++ Y).
  - constructor. symmetry. apply Permutation_middle.
  - apply perm_trans with (v :: f i :: X ++ Y); [constructor|].
    constructor. apply Permutation_middle.
Qed.

Lemma exchange_spec h i j k :
  hnodes (exchange h i j) k =
  if k =? i then hnodes h j else if k =? j then hnodes h i else hnodes h k.
Proof.
  unfold exchange, set_node, upd; simpl.
  destruct (Nat.eqb_spec k i); [reflexivity|].
  destruct (Nat.eqb_spec k j); reflexivity.
Qed.

Lemma exchange_perm h i j :
  1 <= i <= hsize h -> 1 <= j <= hsize h -> i <> j ->
  Permutation (contents (exchange h i j)) (contents h).
Proof.
  intros Hi Hj Hij. unfold contents, exchange, set_node; simpl.
  set (f := hnodes h).
  pose proof (contents_perm_upd f (hsize h) j (f i) Hj) as P1.
  pose proof (contents_perm_upd (upd f j (f i)) (hsize h) i (f j) Hi) as P2.
  rewrite upd_other in P2 by lia.
  apply Permutation_cons_inv with (a := f i).
  eapply perm_trans; [exact P2|]. exact P1.
Qed.

Lemma exchange_size h i j : hsize (exchange h i j) = hsize h.
Proof. reflexivity. Qed.

Lemma exchange_key h i j k :
  KEY (exchange h i j) k =
  if k =? i then KEY h j else if k =? j then KEY h i else KEY h k.
Proof.
  unfold KEY. rewrite exchange_spec.
  destruct (k =? i); [reflexivity|]. destruct (k =? j); reflexivity.
Qed.

(* [fuel] large enough: each iteration at least doubles the index. *)
Lemma min_heapify_ok fuel : forall h i,
  1 <= i -> hsize h < fuel + i -> 0 < fuel ->
  ord h (fun j => j / 2 <> i) -> skip h i ->
  exists h', min_heapify fuel h i = Ok h' /\ hsize h' = hsize h /\
             hmax h' = hmax h /\
             Permutation (contents h') (contents h) /\
             heap_ok h'.
Proof.
  induction fuel as [|f IH]; intros h i Hi Hf Hf0 Ho Hs; [lia|].
  cbn [min_heapify]. unfold LEFT, RIGHT.
  set (s1 := if andb (2 * i <=? hsize h) (N.ltb (KEY h (2 * i)) (KEY h i))
             then 2 * i else i).
  set (s2 := if andb (2 * i + 1 <=? hsize h) (N.ltb (KEY h (2 * i + 1)) (KEY h s1))
             then 2 * i + 1 else s1).
  assert (Hs2 : (s2 = i \/ (s2 = 2 * i /\ 2 * i <= hsize h)
                 \/ (s2 = 2 * i + 1 /\ 2 * i + 1 <= hsize h)) /\
          (KEY h s2 <= KEY h i)%N /\
          (2 * i <= hsize h -> (KEY h s2 <= KEY h (2 * i))%N) /\
          (2 * i + 1 <= hsize h -> (KEY h s2 <= KEY h (2 * i + 1))%N)).
  { unfold s2, s1.
    destruct (Nat.leb_spec (2 * i) (hsize h)) as [L1|L1]; cbn [andb];
      [destruct (N.ltb_spec (KEY h (2 * i)) (KEY h i)) as [K1|K1]|];
    (destruct (Nat.leb_spec (2 * i + 1) (hsize h)) as [L2|L2]; cbn [andb]; [|]);
    try match goal with |- context [N.ltb ?a ?b] =>
      destruct (N.ltb_spec a b) as [K2|K2] end;
    (split; [lia|]; split; [lia|]; split; intros; lia). }
  destruct Hs2 as (Hc & Hk0 & Hk1 & Hk2). clearbody s2. clear s1.
  destruct (Nat.eqb_spec s2 i) as [E|E].
  - exists h. rewrite E in *. repeat split; auto.
    intros j Hj _. destruct (Nat.eq_dec (j / 2) i) as [Ej|Ej].
    + rewrite Ej.
      assert (j = 2 * i \/ j = 2 * i + 1) as [->| ->] by dlia;
      [apply Hk1|apply Hk2]; lia.
    + now apply Ho.
  - assert (Hs2r : i < s2 <= hsize h /\ s2 / 2 = i).
    { destruct Hc as [?|[[-> ?]|[-> ?]]]; [lia| |]; (split; [lia|dlia]). }
    destruct Hs2r as (Hr & Hp).
    destruct (IH (exchange h i s2) s2) as (h' & R & S' & M' & P' & O').
    + lia.
    + rewrite exchange_size. lia.
    + lia.
    + intros j Hj Hne. rewrite exchange_size in Hj.
      rewrite !exchange_key.
      destruct (Nat.eqb_spec (j / 2) i) as [Ej|Ej].
      * (* j is a child of i *)
        destruct (Nat.eqb_spec j i); [exfalso; dlia|].
        destruct (Nat.eqb_spec j s2); [lia|].
        assert (j = 2 * i \/ j = 2 * i + 1) as [->| ->] by dlia;
        [apply Hk1|apply Hk2]; lia.
      * destruct (Nat.eqb_spec (j / 2) s2) as [Ej2|Ej2]; [lia|].
        destruct (Nat.eqb_spec j i) as [Eji|Eji].
        { subst j. apply Hs; [lia|assumption|lia]. }
        destruct (Nat.eqb_spec j s2) as [Ejs|Ejs]; [subst; lia|].
        apply Ho; [lia|assumption].
    + intros j Hj Hje Hs22. rewrite exchange_size in Hj.
      rewrite !exchange_key. rewrite Hp, Nat.eqb_refl.
      destruct (Nat.eqb_spec j i); [exfalso; dlia|].
      destruct (Nat.eqb_spec j s2); [exfalso; dlia|].
      rewrite <- Hje. apply Ho; [lia|]. rewrite Hje. lia.
    + exists h'. rewrite R, S', M', exchange_size. repeat split; auto.
      eapply perm_trans; [exact P'|]. apply exchange_perm; lia.
Qed.

Lemma sift_up_ok fuel : forall h i,
  1 <= i <= hsize h -> i <= fuel -> 0 < fuel ->
  ord h (fun j => j <> i) -> skip h i ->
  exists h', sift_up fuel h i = Ok h' /\ hsize h' = hsize h /\
             hmax h' = hmax h /\
             Permutation (contents h') (contents h) /\
             heap_ok h'.
Proof.
  induction fuel as [|f IH]; intros h i Hi Hf Hf0 Ho Hs; [lia|].
  cbn [sift_up]. unfold PARENT.
  destruct (Nat.ltb_spec 1 i) as [Hi1|Hi1]; cbn [andb].
  2: { exists h. repeat split; auto. intros j Hj _. apply Ho; [lia|]. lia. }
  destruct (N.ltb_spec (KEY h i) (KEY h (i / 2))) as [K|K].
  2: { exists h. repeat split; auto. intros j Hj _.
       destruct (Nat.eq_dec j i) as [->|Hne]; [exact K|now apply Ho]. }
  assert (Hp : 1 <= i / 2 < i) by dlia.
  destruct (IH (exchange h i (i / 2)) (i / 2)) as (h' & R & S' & M' & P' & O').
  - rewrite exchange_size. lia.
  - lia.
  - lia.
  - intros j Hj Hne. rewrite exchange_size in Hj. rewrite !exchange_key.
    destruct (Nat.eqb_spec j (i / 2)); [lia|].
    destruct (Nat.eqb_spec (j / 2) i) as [Ej|Ej].
    + destruct (Nat.eqb_spec j i); [exfalso; dlia|].
      apply Hs; lia.
    + destruct (Nat.eqb_spec j i) as [->|Hji].
      * rewrite Nat.eqb_refl. lia.
      * destruct (Nat.eqb_spec (j / 2) (i / 2)) as [Ej2|Ej2].
        -- transitivity (KEY h (i / 2)); [lia|]. rewrite <- Ej2. apply Ho; lia.
        -- apply Ho; lia.
  - intros j Hj Hje Hs22. rewrite exchange_size in Hj. rewrite !exchange_key.
    destruct (Nat.eqb_spec (i / 2 / 2) i); [exfalso; dlia|].
    destruct (Nat.eqb_spec (i / 2 / 2) (i / 2)); [exfalso; dlia|].
    assert (KEY h (i / 2 / 2) <= KEY h (i / 2))%N by (apply Ho; lia).
    destruct (Nat.eqb_spec j i) as [->|Hji]; [assumption|].
    destruct (Nat.eqb_spec j (i / 2)); [exfalso; dlia|].
    transitivity (KEY h (i / 2)); [assumption|].
    rewrite <- Hje. apply Ho; lia.
  - exists h'. rewrite R, S', M', exchange_size. repeat split; auto.
    eapply perm_trans; [exact P'|]. apply exchange_perm; lia.
Qed.

(* After a sift-up that really moved the element, nothing below the starting
   point is out of order either; used by heap_delete. *)
Lemma min_heapify_noop fuel h i :
  0 < fuel -> 1 <= i -> heap_ok h -> min_heapify fuel h i = Ok h.
Proof.
  intros Hf Hi Ho. destruct fuel as [|f]; [lia|]. cbn [min_heapify].
  unfold LEFT, RIGHT.
  assert (E1 : andb (2 * i <=? hsize h) (N.ltb (KEY h (2 * i)) (KEY h i)) = false).
  { destruct (Nat.leb_spec (2 * i) (hsize h)); [|reflexivity]. cbn [andb].
    apply N.ltb_ge.
    replace (KEY h i) with (KEY h (2 * i / 2)) by (f_equal; dlia).
    apply Ho; [lia|exact I]. }
  rewrite E1.
  assert (E2 : andb (2 * i + 1 <=? hsize h) (N.ltb (KEY h (2 * i + 1)) (KEY h i)) = false).
  { destruct (Nat.leb_spec (2 * i + 1) (hsize h)); [|reflexivity]. cbn [andb].
    apply N.ltb_ge.
    replace (KEY h i) with (KEY h ((2 * i + 1) / 2)) by (f_equal; dlia).
    apply Ho; [lia|exact I]. }
  rewrite E2, Nat.eqb_refl. reflexivity.
Qed.

(* The representation invariant kept by the public operations. *)
Definition heap_inv h : Prop :=
  heap_ok h /\ hsize h <= hmax h /\ 0 < hmax h.

Lemma KEY_self h i : hnodes h i = (KEY h i, USER h i).
Proof. unfold KEY, USER. destruct (hnodes h i); reflexivity. Qed.

Lemma root_min h : heap_ok h -> forall i, 1 <= i <= hsize h ->
  (KEY h 1 <= KEY h i)%N.
Proof.
  intros Ho i. induction i as [i IH] using lt_wf_ind. intros Hi.
  destruct (Nat.eq_dec i 1) as [->|Hne]; [lia|].
  transitivity (KEY h (i / 2)).
  - apply IH; [dlia|]. split; [dlia|]. dlia.
  - apply Ho; [lia|exact I].
Qed.

Lemma contents_in h k x : In (k, x) (contents h) ->
  exists i, 1 <= i <= hsize h /\ hnodes h i = (k, x).
Proof.
  unfold contents. intros H. apply in_map_iff in H. destruct H as (i & E & Hi).
  apply in_seq in Hi. exists i. split; [lia|exact E].
Qed.

Lemma contents_length h : length (contents h) = hsize h.
Proof. unfold contents. rewrite map_length, seq_length. reflexivity. Qed.

Lemma contents_S f n m :
  contents (Heap f (S n) m) = contents (Heap f n m) ++ [f (S n) : N * A].
Proof.
  unfold contents; simpl hsize; simpl hnodes.
  replace (S n) with (n + 1) at 1 by lia.
  rewrite seq_app, map_app. simpl. reflexivity.
Qed.

Lemma heap_min_spec h : heap_ok h -> 1 <= hsize h ->
  exists rest, takes_min (contents h) (KEY h 1) (USER h 1) rest.
Proof.
  intros Ho Hs. exists (map (hnodes h) (seq 2 (hsize h - 1))). split.
  - unfold contents. destruct (hsize h) as [|n] eqn:E; [lia|].
    simpl. rewrite KEY_self, Nat.sub_0_r. reflexivity.
  - intros k y Hin. apply contents_in in Hin. destruct Hin as (i & Hi & E).
    replace k with (KEY h i) by (unfold KEY; rewrite E; reflexivity).
    apply root_min; assumption.
Qed.

(* Removing slot [i] by moving the last node over it. *)
Lemma remove_perm f n m i : 1 <= i <= S n ->
  Permutation (contents (Heap f (S n) m))
              ((f i : N * A) :: contents (Heap (upd f i (f (S n))) n m)).
Proof.
  intros Hi. rewrite contents_S.
  destruct (Nat.eq_dec i (S n)) as [->|Hne].
  - etransitivity; [apply Permutation_app_comm|]. simpl. constructor.
    unfold contents; simpl.
    replace (map (upd f (S n) (f (S n))) (seq 1 n)) with (map f (seq 1 n)); [reflexivity|].
    apply map_ext_in. intros a Ha. apply in_seq in Ha. symmetry. apply upd_other. lia.
  - etransitivity; [apply Permutation_app_comm|]. simpl.
    unfold contents; simpl. symmetry.
    apply contents_perm_upd. lia.
Qed.

Lemma heap_extract_ok h : heap_inv h -> 1 <= hsize h ->
  exists h', heap_extract_min h = Ok (USER h 1, h') /\ heap_inv h' /\
             takes_min (contents h) (KEY h 1) (USER h 1) (contents h').
Proof.
  intros (Ho & Hm & Hp) Hs. unfold heap_extract_min.
  destruct (Nat.ltb_spec (hsize h) 1); [lia|].
  destruct h as [f n m]; cbn [hsize hnodes hmax set_node] in *. destruct n as [|n]; [lia|].
  replace (S n - 1) with n by lia.
  set (h2 := Heap (upd f 1 (f (S n))) n m).
  destruct (min_heapify_ok (S n) h2 1) as (h' & R & S' & M' & P' & O').
  - lia.
  - simpl; lia.
  - lia.
  - intros j Hj Hne. simpl in Hj. unfold KEY, h2; simpl.
    destruct (Nat.eq_dec j 1); [lia|].
    rewrite !upd_other by lia. apply (Ho j); [simpl; lia|exact I].
  - intros j Hj Hje Hi. lia.
  - rewrite R. exists h'. split; [reflexivity|]. split.
    + split; [exact O'|]. rewrite S', M'. simpl. split; lia.
    + split.
      * rewrite P'. rewrite (remove_perm f n m 1) by lia.
        rewrite (surjective_pairing (f 1)). reflexivity.
      * intros k y Hin. apply contents_in in Hin. destruct Hin as (i & Hi & E).
        replace k with (KEY (Heap f (S n) m) i) by (unfold KEY; rewrite E; reflexivity).
        apply root_min; assumption.
Qed.

Lemma set_node_same_key h i :
  forall k, hnodes (set_node h i (KEY h i, USER h i)) k = hnodes h k.
Proof.
  intros k. simpl. unfold upd. destruct (Nat.eqb_spec k i); [|reflexivity].
  subst. symmetry. apply KEY_self.
Qed.

Lemma contents_ext f g n m : (forall k, 1 <= k <= n -> f k = g k) ->
  contents (Heap f n m) = contents (Heap (g : nat -> N * A) n m).
Proof.
  intros H. unfold contents; simpl. apply map_ext_in.
  intros a Ha. apply in_seq in Ha. apply H. lia.
Qed.

Lemma heap_insert_ok h k x : heap_inv h -> (k < 2 ^ 64)%N ->
  exists h', heap_insert h k x = Ok h' /\ heap_inv h' /\
             Permutation (contents h') ((k, x) :: contents h).
Proof.
  intros (Ho & Hm & Hp) Hk. unfold heap_insert.
  set (mx := if hsize h =? hmax h then hmax h * 2 else hmax h).
  assert (Hmx : S (hsize h) <= mx /\ 0 < mx).
  { unfold mx. destruct (Nat.eqb_spec (hsize h) (hmax h)); lia. }
  destruct (Nat.ltb_spec mx (S (hsize h))); [lia|].
  unfold heap_decrease_key, KEY, USER; simpl hnodes. rewrite upd_same. simpl fst; simpl snd.
  assert (Hle : N.leb k UINT64_MAX = true).
  { apply N.leb_le. unfold UINT64_MAX. change (2 ^ 64)%N with 18446744073709551616%N in Hk. lia. }
  rewrite Hle. unfold set_node; simpl hnodes; simpl hsize; simpl hmax.
  set (g := upd (upd (hnodes h) (S (hsize h)) (UINT64_MAX, x)) (S (hsize h)) (k, x)).
  set (h1 := Heap g (S (hsize h)) mx).
  assert (Hg : forall j, j <> S (hsize h) -> g j = hnodes h j).
  { intros j Hj. unfold g. rewrite !upd_other by lia. reflexivity. }
  destruct (sift_up_ok (S (S (hsize h))) h1 (S (hsize h))) as (h' & R & S' & M' & P' & O').
  - simpl. lia.
  - lia.
  - lia.
  - intros j Hj Hne. simpl in Hj. unfold KEY; simpl. rewrite !Hg by dlia.
    apply Ho; [lia|exact I].
  - intros j Hj Hje Hi. simpl in Hj. exfalso. dlia.
  - exists h'. split; [exact R|]. split.
    + split; [exact O'|]. rewrite S', M'. simpl. split; lia.
    + rewrite P'. unfold h1. rewrite contents_S.
      etransitivity; [apply Permutation_app_comm|]. simpl.
      unfold g at 1. rewrite upd_same. constructor.
      destruct h as [f n m]. simpl in *.
      rewrite (contents_ext g f n mx); [reflexivity|].
      intros j Hj. apply Hg. lia.
Qed.

(* heap_delete on a hit at index [i]. *)
Lemma delete_at_ok h i fn : heap_inv h -> 1 <= i <= hsize h ->
  fn (KEY h i) (USER h i) = true ->
  exists h', (if i =? hsize h then Ok (true, Heap (hnodes h) (hsize h - 1) (hmax h))
      else if i <? hsize h then
        let h1 := set_node h i (hnodes h (hsize h)) in
        let h2 := Heap (hnodes h1) (hsize h - 1) (hmax h) in
        do! h3 <- heap_decrease_key h2 i (KEY h2 i);
        do! h4 <- min_heapify (S (hsize h3)) h3 i;
        Ok (true, h4)
      else Ok (true, h)) = Ok (true, h') /\ heap_inv h' /\
      Permutation (contents h) ((KEY h i, USER h i) :: contents h').
Proof.
  intros (Ho & Hm & Hp) Hi _.
  destruct (Nat.eqb_spec i (hsize h)) as [E|E].
  - eexists. split; [reflexivity|].
    destruct h as [f n m]; cbn [hsize hnodes hmax set_node] in *. destruct n as [|n]; [lia|].
    replace (S n - 1) with n by lia. split.
    + split; [|simpl; lia]. intros j Hj _. simpl in Hj. apply (Ho j); [simpl; lia|exact I].
    + rewrite contents_S. rewrite Permutation_app_comm. simpl. subst i.
      rewrite <- KEY_self. reflexivity.
  - destruct (Nat.ltb_spec i (hsize h)) as [L|L]; [|lia].
    destruct h as [f n m]; cbn [hsize hnodes hmax set_node] in *. destruct n as [|n]; [lia|].
    replace (S n - 1) with n by lia.
    set (h2 := Heap (upd f i (f (S n))) n m).
    unfold heap_decrease_key. rewrite N.leb_refl.
    set (h2' := set_node h2 i (KEY h2 i, USER h2 i)).
    assert (N2 : forall k, k <> i -> hnodes h2' k = f k).
    { intros k Hk. unfold h2'. rewrite set_node_same_key. simpl. now apply upd_other. }
    assert (N2i : hnodes h2' i = f (S n)).
    { unfold h2'. rewrite set_node_same_key. simpl. apply upd_same. }
    assert (Hsz : hsize h2' = n) by reflexivity.
    assert (Hmx : hmax h2' = m) by reflexivity.
    assert (Hper : Permutation (contents (Heap f (S n) m)) (f i :: contents h2')).
    { rewrite (remove_perm f n m i) by lia.
      replace (contents h2') with (contents (Heap (upd f i (f (S n))) n m)); [reflexivity|].
      unfold contents. rewrite Hsz. cbn [hsize].
      apply map_ext. intros a. unfold h2'. rewrite set_node_same_key. reflexivity. }
    assert (Hso : forall j, 2 <= j <= n -> j <> i -> j / 2 <> i ->
                            (KEY h2' (j / 2) <= KEY h2' j)%N).
    { intros j Hj H1 H2. unfold KEY. rewrite !N2 by assumption.
      apply (Ho j); [simpl; lia|exact I]. }
    assert (Hsk : skip h2' i).
    { intros j Hj Hje H2. rewrite Hsz in Hj. unfold KEY. rewrite !N2 by dlia.
      assert (fst (f (i / 2)%nat) <= fst (f i))%N by (apply (Ho i); [simpl; lia|exact I]).
      assert (fst (f (j / 2)%nat) <= fst (f j))%N by (apply (Ho j); [simpl; lia|exact I]).
      rewrite Hje in *. lia. }
    destruct (andb (1 <? i) (N.ltb (KEY h2' i) (KEY h2' (i / 2)))) eqn:Eup.
    + (* element moves up *)
      apply andb_prop in Eup. destruct Eup as (E1 & E2).
      apply Nat.ltb_lt in E1. apply N.ltb_lt in E2.
      destruct (sift_up_ok (S i) h2' i) as (h3 & R & S' & M' & P' & O').
      * rewrite Hsz. lia.
      * lia.
      * lia.
      * intros j Hj Hne. rewrite Hsz in Hj.
        destruct (Nat.eq_dec (j / 2) i) as [Ej|Ej]; [|now apply Hso].
        rewrite Ej. transitivity (KEY h2' (i / 2)); [lia|].
        apply Hsk; [rewrite Hsz; lia|assumption|lia].
      * assumption.
      * rewrite R. cbn [bind]. rewrite min_heapify_noop by (assumption || lia).
        simpl. exists h3. split; [reflexivity|]. split.
        -- split; [exact O'|]. rewrite S', M', Hsz, Hmx. simpl in *; lia.
        -- rewrite P', <- KEY_self. exact Hper.
    + (* element stays or moves down *)
      assert (R0 : sift_up (S i) h2' i = Ok h2').
      { cbn [sift_up]. unfold PARENT. rewrite Eup. reflexivity. }
      rewrite R0. cbn [bind].
      destruct (min_heapify_ok (S (hsize h2')) h2' i) as (h3 & R & S' & M' & P' & O').
      * lia.
      * lia.
      * lia.
      * intros j Hj Hne. rewrite Hsz in Hj.
        destruct (Nat.eq_dec j i) as [->|Hji]; [|now apply Hso].
        apply Bool.andb_false_iff in Eup.
        destruct Eup as [Eup|Eup]; [apply Nat.ltb_ge in Eup; lia|].
        apply N.ltb_ge in Eup. exact Eup.
      * assumption.
      * rewrite Hsz in R. cbn [hsize h2'] in R.
        change (hsize h2') with n. rewrite R. simpl.
        exists h3. split; [reflexivity|]. split.
        -- split; [exact O'|]. rewrite S', M', Hsz, Hmx. simpl in *; lia.
        -- rewrite P', <- KEY_self. exact Hper.
Qed.

Lemma heap_delete_from_ok fn h : heap_inv h -> forall todo i,
  1 <= i -> i + todo = S (hsize h) ->
  (forall j, 1 <= j < i -> fn (KEY h j) (USER h j) = false) ->
  exists b h', heap_delete_from fn h i todo = Ok (b, h') /\ heap_inv h' /\
    if b then exists k x, Permutation (contents h) ((k, x) :: contents h') /\ fn k x = true
    else h' = h /\ forall k x, In (k, x) (contents h) -> fn k x = false.
Proof.
  intros Hinv. induction todo as [|t IH]; intros i Hi Hit Hpre; cbn [heap_delete_from].
  - exists false, h. split; [reflexivity|]. split; [assumption|]. split; [reflexivity|].
    intros k x Hin. apply contents_in in Hin. destruct Hin as (j & Hj & E).
    specialize (Hpre j). unfold KEY, USER in Hpre. rewrite E in Hpre. apply Hpre. lia.
  - destruct (fn (KEY h i) (USER h i)) eqn:Ef.
    + destruct (delete_at_ok h i fn Hinv) as (h' & R & I' & P'); [lia|assumption|].
      exists true, h'. split; [exact R|]. split; [assumption|].
      exists (KEY h i), (USER h i). split; assumption.
    + apply IH; [lia|lia|]. intros j Hj.
      destruct (Nat.eq_dec j i) as [->|]; [assumption|apply Hpre; lia].
Qed.

Lemma heap_new_inv junk n : 0 < n -> heap_inv (heap_new (A := A) junk n).
Proof.
  intros Hn. split; [|simpl; lia]. intros j Hj. simpl in Hj. lia.
Qed.

Lemma heap_step_ok h op : heap_inv h -> key_ok op ->
  (exists o h', heap_step h op = Ok (o, h') /\ heap_inv h' /\
                pq_step (contents h) op o (contents h'))
  \/ (heap_step h op = Fault /\ needs_element op = true /\ contents h = []).
Proof.
  intros Hinv Hk. pose proof Hinv as (Ho & Hm & Hp).
  assert (Hempty : hsize h < 1 -> contents h = []).
  { intros H. unfold contents. replace (hsize h) with 0 by lia. reflexivity. }
  destruct op as [k u| | | |fn]; cbn [heap_step].
  - left. destruct (heap_insert_ok h k u Hinv Hk) as (h' & R & I' & P').
    rewrite R. simpl. do 2 eexists. split; [reflexivity|]. split; [assumption|].
    constructor. assumption.
  - destruct (Nat.lt_ge_cases (hsize h) 1) as [L|L].
    + right. unfold heap_extract_min. apply Nat.ltb_lt in L as L'. rewrite L'.
      simpl. auto.
    + left. destruct (heap_extract_ok h Hinv L) as (h' & R & I' & P').
      rewrite R. simpl. do 2 eexists. split; [reflexivity|]. split; [assumption|].
      econstructor. eassumption.
  - unfold heap_min. destruct (Nat.ltb_spec (hsize h) 1) as [L|L].
    + right. simpl. auto.
    + left. simpl. do 2 eexists. split; [reflexivity|]. split; [assumption|].
      destruct (heap_min_spec h Ho L) as (rest & T).
      econstructor; [eassumption|reflexivity].
  - unfold heap_min_key. destruct (Nat.ltb_spec (hsize h) 1) as [L|L].
    + right. simpl. auto.
    + left. simpl. do 2 eexists. split; [reflexivity|]. split; [assumption|].
      destruct (heap_min_spec h Ho L) as (rest & T).
      econstructor; [eassumption|reflexivity].
  - left. unfold heap_delete.
    destruct (heap_delete_from_ok fn h Hinv (hsize h) 1) as (b & h' & R & I' & P').
    + lia.
    + lia.
    + intros j Hj. lia.
    + rewrite R. simpl. do 2 eexists. split; [reflexivity|]. split; [assumption|].
      destruct b.
      * destruct P' as (k & x & P' & F). econstructor; eassumption.
      * destruct P' as (-> & F). constructor; [assumption|reflexivity].
Qed.

Lemma heap_run_ok ops : forall h, heap_inv h -> Forall key_ok ops ->
  (exists os h', heap_run h ops = Ok (os, h') /\ heap_inv h' /\
                 pq_run (contents h) ops os (contents h'))
  \/ (heap_run h ops = Fault /\
      exists ops1 op ops2 os1 h1,
        ops = ops1 ++ op :: ops2 /\ needs_element op = true /\
        heap_run h ops1 = Ok (os1, h1) /\ contents h1 = []).
Proof.
  induction ops as [|op ops IH]; intros h Hinv Hf.
  - left. exists [], h. repeat split; try apply Hinv. constructor.
  - apply Forall_cons_iff in Hf. destruct Hf as (Hk & Hf). cbn [heap_run].
    destruct (heap_step_ok h op Hinv Hk) as [(o & h1 & R & I1 & P1)|(R & Hn & He)].
    + rewrite R. cbn [bind].
      destruct (IH h1 I1 Hf) as [(os & h2 & R2 & I2 & P2)|(R2 & ops1 & op' & ops2 & os1 & h2 & E & N' & R1 & C)].
      * left. rewrite R2. simpl. do 2 eexists. split; [reflexivity|]. split; [assumption|].
        econstructor; eassumption.
      * right. rewrite R2. simpl. split; [reflexivity|].
        exists (op :: ops1), op', ops2, (o :: os1), h2. subst ops.
        repeat split; auto. cbn [heap_run]. rewrite R. simpl. rewrite R1. reflexivity.
    + right. rewrite R. simpl. split; [reflexivity|].
      exists [], op, ops, [], h. repeat split; auto.
Qed.

End Proofs.
