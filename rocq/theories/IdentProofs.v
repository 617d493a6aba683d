From Coq Require Import List NArith ZArith Arith Bool Lia ZifyNat ZifyN ZifyBool.
From Verif Require Import Base AdlerModel AdlerSpec FbufModel FbufSpec FbufProofs InternModel IdentModel IdentSpec.
Import ListNotations.
Local Open Scope N_scope.

(* ---- patterns ---- *)

Lemma glob_ok : forall str g, ident_glob_walk str g = true <-> matches g str.
Proof.
  induction str as [|s str IH]; intros g.
  - destruct g as [|c g]; cbn [ident_glob_walk matches]; [tauto|]. split; [discriminate|].
    destruct (c =? 42).
    + intros (w & r & Hw & E & _). destruct w; [congruence|discriminate].
    + intros (r & E & _). discriminate.
  - destruct g as [|c g]; cbn [ident_glob_walk matches]; [split; discriminate|].
    destruct (c =? 42) eqn:Ec.
    + rewrite orb_true_iff, !IH. cbn [matches]. rewrite Ec. split.
      * intros [(w & r & Hw & -> & M)|M].
        -- exists (s :: w), r. split; [discriminate|]. split; [reflexivity|exact M].
        -- exists [s], str. split; [discriminate|]. split; [reflexivity|exact M].
      * intros (w & r & Hw & E & M). destruct w as [|x w]; [congruence|]. injection E as -> E.
        destruct w as [|y w]; [right; cbn in E; now subst|]. left. exists (y :: w), r.
        split; [discriminate|]. auto.
    + destruct (N.eqb_spec s c) as [->|Ne].
      * rewrite IH. split; [eauto|]. intros (r & [= ->] & M). exact M.
      * split; [discriminate|]. intros (r & [= E _] & _). congruence.
Qed.

(* ---- edit distance ---- *)

Inductive align : bytes -> bytes -> nat -> Prop :=
| al_nil : align [] [] 0
| al_keep x a b n : align a b n -> align (x :: a) (x :: b) n
| al_subst x y a b n : align a b n -> align (x :: a) (y :: b) (S n)
| al_del x a b n : align a b n -> align (x :: a) b (S n)
| al_ins y a b n : align a b n -> align a (y :: b) (S n).

Definition best (n : nat) (a b : bytes) : Prop := align a b n /\ forall k, align a b k -> (n <= k)%nat.

Lemma best_step d u l c x p q : best d p q -> best u p (x :: q) -> best l (c :: p) q ->
  best (Nat.min (u + 1)%nat (Nat.min (l + 1)%nat (if c =? x then d else (d + 1)%nat))) (c :: p) (x :: q).
Proof.
  intros [A1 M1] [A2 M2] [A3 M3]. split.
  - destruct (Nat.le_gt_cases (u + 1)%nat (Nat.min (l + 1)%nat (if c =? x then d else (d + 1)%nat))) as [H|H].
    + rewrite Nat.min_l by exact H. rewrite Nat.add_1_r. now constructor.
    + rewrite Nat.min_r by lia. destruct (Nat.le_gt_cases (l + 1)%nat (if c =? x then d else (d + 1)%nat)) as [H'|H'].
      * rewrite Nat.min_l by exact H'. rewrite Nat.add_1_r. now constructor.
      * rewrite Nat.min_r by lia. destruct (N.eqb_spec c x) as [->|_]; [now constructor|].
        rewrite Nat.add_1_r. now constructor.
  - clear A1 A2 A3. intros k A. inversion A as [|? ? ? ? K|? ? ? ? ? K|? ? ? ? K|? ? ? ? K]; subst.
    + rewrite N.eqb_refl. specialize (M1 _ K). lia.
    + specialize (M1 _ K). destruct (c =? x); lia.
    + specialize (M2 _ K). lia.
    + specialize (M3 _ K). lia.
Qed.

Fixpoint row (p q t : bytes) (v : list nat) {struct v} : Prop :=
  match v with
  | [] => False
  | d :: v' => best d p q /\ match t with [] => v' = [] | x :: t' => row p (x :: q) t' v' end
  end.

Lemma row_step c p : forall t q v last, row p q t v -> best last (c :: p) q ->
  row (c :: p) q t (last :: dist_row c t v last).
Proof.
  induction t as [|x t IH]; intros q v last R B; cbn [row] in *.
  - split; [exact B|]. destruct v; reflexivity.
  - destruct v as [|d v]; [contradiction|]. destruct R as [Bd R]. split; [exact B|].
    destruct v as [|u v]; [contradiction|]. cbn [dist_row]. apply IH; [exact R|].
    apply best_step; [exact Bd|exact (proj1 R)|exact B].
Qed.

Lemma align_nil_r : forall a n, align a [] n <-> n = length a.
Proof.
  induction a as [|x a IH]; intros n; split; intros H.
  - inversion H. reflexivity.
  - subst. constructor.
  - inversion H as [|? ? ? ? K|? ? ? ? ? K|? ? ? ? K|? ? ? ? K]; subst. apply IH in K. cbn. lia.
  - subst. cbn [length]. constructor. now apply IH.
Qed.
Lemma align_nil_l : forall b n, align [] b n <-> n = length b.
Proof.
  induction b as [|x b IH]; intros n; split; intros H.
  - inversion H. reflexivity.
  - subst. constructor.
  - inversion H as [|? ? ? ? K|? ? ? ? ? K|? ? ? ? K|? ? ? ? K]; subst. apply IH in K. cbn. lia.
  - subst. cbn [length]. constructor. now apply IH.
Qed.

Lemma row_init : forall t q, row [] q t (seq (length q) (S (length t))).
Proof.
  induction t as [|x t IH]; intros q; cbn [length seq row].
  - split; [|reflexivity]. split; [now apply align_nil_l|]. intros k H. apply align_nil_l in H. lia.
  - split; [split; [now apply align_nil_l|intros k H; apply align_nil_l in H; lia]|]. apply (IH (x :: q)).
Qed.

Lemma row_loop t : forall s p v, row p [] t v ->
  row (rev s ++ p) [] t (dist_loop (length p) s t v).
Proof.
  induction s as [|c s IH]; intros p v R; cbn [dist_loop rev]; [exact R|].
  rewrite <- app_assoc. cbn [app]. change (S (length p)) with (length (c :: p)). apply IH.
  apply row_step; [exact R|]. split; [apply align_nil_r; cbn; lia|]. intros k H. apply align_nil_r in H. cbn in H. lia.
Qed.

Lemma row_last p : forall t q v, row p q t v -> best (nth (length t) v 0%nat) p (rev t ++ q).
Proof.
  induction t as [|x t IH]; intros q v R; destruct v as [|d v]; cbn [row] in R; try contradiction; destruct R as [B R].
  - exact B.
  - cbn [length nth rev]. rewrite <- app_assoc. apply IH, R.
Qed.

Lemma align_app a b n a2 b2 m : align a b n -> align a2 b2 m -> align (a ++ a2) (b ++ b2) (n + m).
Proof. intros H H2. induction H; cbn [app]; try (now constructor); exact H2. Qed.
Lemma align_rev a b n : align a b n -> align (rev a) (rev b) n.
Proof.
  induction 1; cbn [rev].
  - constructor.
  - rewrite <- (Nat.add_0_r n). apply align_app; [assumption|]. repeat constructor.
  - replace (S n) with (n + 1)%nat by lia. apply align_app; [assumption|]. repeat constructor.
  - replace (S n) with (n + 1)%nat by lia. rewrite <- (app_nil_r (rev b)). apply align_app; [assumption|]. repeat constructor.
  - replace (S n) with (n + 1)%nat by lia. rewrite <- (app_nil_r (rev a)). apply align_app; [assumption|]. repeat constructor.
Qed.

Lemma distance_best a b : best (ident_distance a b) a b.
Proof.
  unfold ident_distance. pose proof (row_loop b a [] _ (row_init b [])) as R. rewrite app_nil_r in R.
  cbn [length] in R. rewrite Nat.add_1_r. apply row_last in R. rewrite app_nil_r in R. destruct R as [A M].
  split.
  - apply align_rev in A. now rewrite !rev_involutive in A.
  - intros k H. apply M. now apply align_rev.
Qed.

Lemma edit_cons x a b : edit a b -> edit (x :: a) (x :: b).
Proof.
  destruct 1 as [a b y|a b y|a b y z]; [apply (edit_insert (x :: a))|apply (edit_delete (x :: a))|apply (edit_replace (x :: a))].
Qed.
Lemma edits_cons x : forall n a b, edits n a b -> edits n (x :: a) (x :: b).
Proof.
  induction n as [|n IH]; intros a b H; cbn [edits] in *; [now subst|].
  destruct H as (m & E & H). exists (x :: m). split; [now apply edit_cons|auto].
Qed.
Lemma align_edits a b n : align a b n -> edits n a b.
Proof.
  induction 1; cbn [edits].
  - reflexivity.
  - now apply edits_cons.
  - exists (y :: a). split; [apply (edit_replace [])|now apply edits_cons].
  - exists a. split; [apply (edit_delete [])|assumption].
  - exists (y :: a). split; [apply (edit_insert [])|now apply edits_cons].
Qed.

Lemma align_refl : forall a, align a a 0.
Proof. induction a; constructor; assumption. Qed.
Lemma align_trans a b n : align a b n -> forall c m, align b c m ->
  exists k, (k <= n + m)%nat /\ align a c k.
Proof.
  induction 1 as [|x a b n H IH|x y a b n H IH|x a b n H IH|y a b n H IH]; intros c m H2.
  - exists m. split; [lia|exact H2].
  - remember (x :: b) as l eqn:El. induction H2 as [|z b' c m H2 IH2|z w b' c m H2 IH2|z b' c m H2 IH2|w b' c m H2 IH2]; try discriminate.
    + injection El as -> ->. destruct (IH _ _ H2) as (k & L & A). exists k. split; [exact L|now constructor].
    + injection El as -> ->. destruct (IH _ _ H2) as (k & L & A). exists (S k). split; [lia|now constructor].
    + injection El as -> ->. destruct (IH _ _ H2) as (k & L & A). exists (S k). split; [lia|now constructor].
    + destruct (IH2 El) as (k & L & A). exists (S k). split; [lia|now constructor].
  - remember (y :: b) as l eqn:El. induction H2 as [|z b' c m H2 IH2|z w b' c m H2 IH2|z b' c m H2 IH2|w b' c m H2 IH2]; try discriminate.
    + injection El as -> ->. destruct (IH _ _ H2) as (k & L & A). exists (S k). split; [lia|now constructor].
    + injection El as -> ->. destruct (IH _ _ H2) as (k & L & A). exists (S k). split; [lia|now constructor].
    + injection El as -> ->. destruct (IH _ _ H2) as (k & L & A). exists (S k). split; [lia|now constructor].
    + destruct (IH2 El) as (k & L & A). exists (S k). split; [lia|now constructor].
  - destruct (IH _ _ H2) as (k & L & A). exists (S k). split; [lia|now constructor].
  - remember (y :: b) as l eqn:El. induction H2 as [|z b' c m H2 IH2|z w b' c m H2 IH2|z b' c m H2 IH2|w b' c m H2 IH2]; try discriminate.
    + injection El as -> ->. destruct (IH _ _ H2) as (k & L & A). exists (S k). split; [lia|now constructor].
    + injection El as -> ->. destruct (IH _ _ H2) as (k & L & A). exists (S k). split; [lia|now constructor].
    + injection El as -> ->. destruct (IH _ _ H2) as (k & L & A). exists k. split; [lia|assumption].
    + destruct (IH2 El) as (k & L & A). exists (S k). split; [lia|now constructor].
Qed.
Lemma edit_align a b : edit a b -> align a b 1.
Proof.
  assert (K : forall p a b, align a b 1 -> align (p ++ a) (p ++ b) 1).
  { intros p; induction p; intros; cbn [app]; [assumption|constructor; auto]. }
  destruct 1; apply K; constructor; apply align_refl.
Qed.
Lemma edits_align : forall n a b, edits n a b -> exists k, (k <= n)%nat /\ align a b k.
Proof.
  induction n as [|n IH]; intros a b H; cbn [edits] in H.
  - subst. exists 0%nat. split; [lia|apply align_refl].
  - destruct H as (m & E & H). destruct (IH _ _ H) as (k & L & A).
    destruct (align_trans _ _ _ (edit_align _ _ E) _ _ A) as (k' & L' & A'). exists k'. split; [lia|exact A'].
Qed.

Lemma distance_ok a b : least_edits a b (ident_distance a b).
Proof.
  destruct (distance_best a b) as [A M]. split; [now apply align_edits|].
  intros k H. destruct (edits_align _ _ _ H) as (j & L & Aj). specialize (M _ Aj). lia.
Qed.

(* ---- selected names ---- *)

Lemma scan_esc e s r : (e = 39 \/ e = 92) -> ~ In e s ->
  selected_scan e (s ++ [e] ++ r) =
  (s ++ [e] ++ fst (selected_scan 0 r), snd (selected_scan 0 r)).
Proof.
  intros He. induction s as [|x s IH]; intros Hn; cbn [app].
  - cbn [selected_scan]. destruct (selected_scan 0 r) as [p q] eqn:Er.
    destruct He as [-> | ->]; cbn [N.eqb Pos.eqb andb negb]; cbv iota; rewrite Er; reflexivity.
  - cbn [selected_scan]. assert (Hx : x <> e) by (intros ->; apply Hn; now left).
    assert (E : (x =? 46) && (e =? 0) = false) by (destruct He as [-> | ->]; now rewrite andb_false_r). rewrite E.
    assert (E2 : (if (x =? 39) && negb (e =? 92) then if e =? 39 then 0 else 39
            else if (x =? 92) && negb (e =? 39) then if e =? 92 then 0 else 92 else e) = e).
    { destruct He as [-> | ->]; cbn [N.eqb Pos.eqb negb].
      - destruct (N.eqb_spec x 39); [congruence|]. cbn [andb]. rewrite andb_false_r. reflexivity.
      - destruct (N.eqb_spec x 92); [congruence|]. rewrite andb_false_r. reflexivity. }
    cbv zeta. rewrite E2. cbn [app] in IH. rewrite IH by (intros H; apply Hn; now right). reflexivity.
Qed.

Lemma scan_items : forall is r, Forall item_ok is ->
  selected_scan 0 (concat (map item_bytes is) ++ r) =
  (concat (map item_bytes is) ++ fst (selected_scan 0 r), snd (selected_scan 0 r)).
Proof.
  induction is as [|i is IH]; intros r F; cbn [map concat app].
  - now destruct (selected_scan 0 r).
  - pose proof (Forall_inv F) as Hi. specialize (IH r (Forall_inv_tail F)). rewrite <- !app_assoc.
    destruct i as [c|s|s]; cbn [item_bytes item_ok] in *.
    + destruct Hi as (H1 & H2 & H3). cbn [app selected_scan].
      destruct (N.eqb_spec c 46); [congruence|]. destruct (N.eqb_spec c 39); [congruence|].
      destruct (N.eqb_spec c 92); [congruence|]. cbn [andb]. rewrite IH. reflexivity.
    + cbn [app selected_scan N.eqb Pos.eqb andb negb]. rewrite <- !app_assoc.
      rewrite (scan_esc 39 s) by (tauto || now left). rewrite IH. reflexivity.
    + cbn [app selected_scan N.eqb Pos.eqb andb negb]. rewrite <- !app_assoc.
      rewrite (scan_esc 92 s) by (tauto || now right). rewrite IH. reflexivity.
Qed.

Lemma walk_parts : forall ps fuel, ps <> [] -> Forall part ps -> (length ps <= fuel)%nat ->
  walk_all fuel (Some (dotted ps)) = Ok ps.
Proof.
  induction ps as [|p ps IH]; intros fuel Hn F L; [congruence|].
  destruct fuel as [|fuel]; [cbn in L; lia|]. destruct (Forall_inv F) as (is & Fi & Ep).
  destruct ps as [|p2 ps].
  - cbn [dotted walk_all ident_walk_selected]. pose proof (scan_items is [] Fi) as E. rewrite <- Ep, !app_nil_r in E.
    cbn [selected_scan fst snd] in E. rewrite E. cbn [walk_all]. destruct fuel; reflexivity.
  - cbn [dotted]. cbn [walk_all ident_walk_selected]. pose proof (scan_items is ([46] ++ dotted (p2 :: ps)) Fi) as E.
    rewrite <- Ep in E. cbn [app] in E. cbn [selected_scan N.eqb Pos.eqb andb fst snd] in E. rewrite app_nil_r in E.
    cbn [app]. change (match ps with [] => p2 | _ :: _ => p2 ++ 46 :: dotted ps end) with (dotted (p2 :: ps)) in *. rewrite E.
    rewrite IH; [reflexivity|discriminate|exact (Forall_inv_tail F)|cbn [length] in L |- *; lia].
Qed.

Lemma scan_app : forall l e, let (a, b) := selected_scan e l in
  l = a ++ b /\ match b with [] => True | x :: _ => x = 46 end.
Proof.
  induction l as [|x l IH]; intros e; cbn [selected_scan]; [auto|].
  destruct ((x =? 46) && (e =? 0)) eqn:E.
  - split; [reflexivity|]. lia.
  - cbv zeta. match goal with |- context [selected_scan ?e' l] => specialize (IH e'); destruct (selected_scan e' l) as [a b] end.
    destruct IH as [-> H]. auto.
Qed.

Lemma walk_any : forall fuel i, (length i < fuel)%nat ->
  exists ps, walk_all fuel (Some i) = Ok ps /\ ps <> [] /\ dotted ps = i.
Proof.
  induction fuel as [|fuel IH]; intros i L; [lia|]. cbn [walk_all ident_walk_selected].
  pose proof (scan_app i 0) as Sc. destruct (selected_scan 0 i) as [a b]. destruct Sc as [-> Hb]. destruct b as [|x b].
  - exists [a]. rewrite app_nil_r. split; [destruct fuel; reflexivity|]. split; [discriminate|reflexivity].
  - subst x. rewrite app_length in L. cbn [length] in L. destruct (IH b) as (ps & E & Hn & D); [lia|].
    rewrite E. exists (a :: ps). split; [reflexivity|]. split; [discriminate|].
    cbn [dotted]. destruct ps; [congruence|]. rewrite D. reflexivity.
Qed.

(* ---- until and from ---- *)

Lemma cscan_app c : forall l, let (a, b) := scan c l in
  l = a ++ b /\ ~ In c a /\ match b with [] => True | x :: _ => x = c end.
Proof.
  induction l as [|x l IH]; cbn [scan]; [cbn; tauto|]. destruct (N.eqb_spec x c) as [->|Ne].
  - cbn. tauto.
  - destruct (scan c l) as [a b]. destruct IH as (-> & Hn & Hb). split; [reflexivity|].
    split; [cbn; intuition|exact Hb].
Qed.
Lemma scan_exact c a b : ~ In c a -> scan c (a ++ c :: b) = (a, c :: b).
Proof.
  induction a as [|x a IH]; intros Hn; cbn [app scan].
  - now rewrite N.eqb_refl.
  - destruct (N.eqb_spec x c) as [->|_]; [exfalso; apply Hn; now left|]. rewrite IH; [reflexivity|]. intros H; apply Hn; now right.
Qed.
Lemma rscan_exact c : forall b a after, ~ In c b -> rscan c (b ++ c :: a) after = Some (rev a, rev b ++ after).
Proof.
  induction b as [|x b IH]; intros a after Hn; cbn [app rscan].
  - now rewrite N.eqb_refl.
  - destruct (N.eqb_spec x c) as [->|_]; [exfalso; apply Hn; now left|].
    rewrite IH by (intros H; apply Hn; now right). cbn [rev]. now rewrite <- app_assoc.
Qed.
Lemma rscan_none c : forall b after, ~ In c b -> rscan c b after = None.
Proof.
  induction b as [|x b IH]; intros after Hn; cbn [rscan]; [reflexivity|].
  destruct (N.eqb_spec x c) as [->|_]; [exfalso; apply Hn; now left|]. apply IH. intros H; apply Hn; now right.
Qed.

(* ---- case ---- *)

Definition byte_ok (c : N) : Prop := c < 256.

Lemma upper_letter x y : byte_ok x -> byte_ok y ->
  (toupper_iso88591 x = toupper_iso88591 y <-> same_letter x y).
Proof.
  unfold byte_ok. intros Hx Hy. split.
  - intros H. unfold same_letter. destruct (N.eq_dec x y) as [->|Ne]; [now left|]. right.
    unfold toupper_iso88591 in H.
    assert (D : x = y + 32 \/ y = x + 32).
    { destruct ((97 <=? x) && (x <=? 122)) eqn:E1; destruct ((97 <=? y) && (y <=? 122)) eqn:E2; try lia;
      destruct (((224 <=? x) && (x <=? 246)) || ((248 <=? x) && (x <=? 254))) eqn:E3;
      destruct (((224 <=? y) && (y <=? 246)) || ((248 <=? y) && (y <=? 254))) eqn:E4; lia. }
    destruct D as [D|D].
    + exists x, y. split; [now left|]. split; [exact D|].
      destruct ((97 <=? x) && (x <=? 122)) eqn:E1; destruct ((97 <=? y) && (y <=? 122)) eqn:E2;
      destruct (((224 <=? x) && (x <=? 246)) || ((248 <=? x) && (x <=? 254))) eqn:E3;
      destruct (((224 <=? y) && (y <=? 246)) || ((248 <=? y) && (y <=? 254))) eqn:E4; lia.
    + exists y, x. split; [now right|]. split; [exact D|].
      destruct ((97 <=? x) && (x <=? 122)) eqn:E1; destruct ((97 <=? y) && (y <=? 122)) eqn:E2;
      destruct (((224 <=? x) && (x <=? 246)) || ((248 <=? x) && (x <=? 254))) eqn:E3;
      destruct (((224 <=? y) && (y <=? 246)) || ((248 <=? y) && (y <=? 254))) eqn:E4; lia.
  - intros [->|(lo & up & Hp & E & R)]; [reflexivity|].
    assert (K : toupper_iso88591 lo = toupper_iso88591 up).
    { unfold toupper_iso88591.
      destruct ((97 <=? lo) && (lo <=? 122)) eqn:E1; destruct ((97 <=? up) && (up <=? 122)) eqn:E2;
      destruct (((224 <=? lo) && (lo <=? 246)) || ((248 <=? lo) && (lo <=? 254))) eqn:E3;
      destruct (((224 <=? up) && (up <=? 246)) || ((248 <=? up) && (up <=? 254))) eqn:E4; lia. }
    destruct Hp as [[-> ->]|[-> ->]]; congruence.
Qed.

Lemma lane_value x : byte_ok x -> lane_upper x = if (97 <=? x) && (x <=? 122) then x - 32 else x.
Proof.
  unfold byte_ok, lane_upper, as_i8. intros Hx.
  destruct (N.ltb_spec x 128) as [L|L];
  destruct ((97 <=? x) && (x <=? 122)) eqn:E.
  - replace ((96 <? Z.of_N x)%Z && (Z.of_N x <? 123)%Z) with true by lia.
    replace (x + 256 - 32) with ((x - 32) + 1 * 256) by lia. rewrite N.mod_add by discriminate. apply N.mod_small. lia.
  - replace ((96 <? Z.of_N x)%Z && (Z.of_N x <? 123)%Z) with false by lia.
    replace (x + 256 - 0) with (x + 1 * 256) by lia. rewrite N.mod_add by discriminate. apply N.mod_small. lia.
  - lia.
  - replace ((96 <? Z.of_N x - 256)%Z && (Z.of_N x - 256 <? 123)%Z) with false by lia.
    replace (x + 256 - 0) with (x + 1 * 256) by lia. rewrite N.mod_add by discriminate. apply N.mod_small. lia.
Qed.
Lemma lane_ascii x : x < 128 -> lane_upper x = toupper_iso88591 x.
Proof.
  intros H. rewrite lane_value by (unfold byte_ok; lia). unfold toupper_iso88591.
  destruct ((97 <=? x) && (x <=? 122)) eqn:E; [lia|].
  destruct (((224 <=? x) && (x <=? 246)) || ((248 <=? x) && (x <=? 254))) eqn:E3; lia.
Qed.
Lemma lane_upper_upper x y : byte_ok x -> byte_ok y -> lane_upper x = lane_upper y -> toupper_iso88591 x = toupper_iso88591 y.
Proof.
  unfold byte_ok. intros Hx Hy. rewrite !lane_value by assumption. unfold toupper_iso88591.
  destruct ((97 <=? x) && (x <=? 122)) eqn:E1; destruct ((97 <=? y) && (y <=? 122)) eqn:E2;
  destruct (((224 <=? x) && (x <=? 246)) || ((248 <=? x) && (x <=? 254))) eqn:E3;
  destruct (((224 <=? y) && (y <=? 246)) || ((248 <=? y) && (y <=? 254))) eqn:E4; lia.
Qed.

Lemma Forall2_eqlen {A B} (R : A -> B -> Prop) a b : Forall2 R a b -> length a = length b.
Proof. induction 1; cbn; congruence. Qed.

Lemma scalar_ok : forall a b, length a = length b ->
  (scalar_loop a b = true <-> Forall2 (fun x y => toupper_iso88591 x = toupper_iso88591 y) a b).
Proof.
  induction a as [|x a IH]; intros [|y b] L; try discriminate; cbn [scalar_loop].
  - split; constructor.
  - rewrite andb_true_iff, N.eqb_eq, IH by (now injection L). split.
    + intros [? ?]. now constructor.
    + intros H. inversion H; auto.
Qed.

Lemma lanes_ok : forall k a b, length a = length b ->
  (lanes k a b = true <-> Forall2 (fun x y => lane_upper x = lane_upper y) (firstn k a) (firstn k b)).
Proof.
  induction k as [|k IH]; intros a b L; cbn [lanes firstn]; [split; constructor|].
  destruct a as [|x a], b as [|y b]; try discriminate; cbn [nth tl].
  - rewrite N.eqb_refl. cbn [andb]. rewrite IH by reflexivity. rewrite firstn_nil. split; constructor.
  - rewrite andb_true_iff, N.eqb_eq, IH by (now injection L). split.
    + intros [? ?]. now constructor.
    + intros H. inversion H; auto.
Qed.

Lemma sse_ok : forall fuel a b, (length a <= fuel)%nat -> length a = length b ->
  (sse_loop fuel a b = true <-> Forall2 (fun x y => lane_upper x = lane_upper y) a b).
Proof.
  induction fuel as [|fuel IH]; intros a b L E.
  - destruct a, b; try discriminate; [|cbn in L; lia]. cbn. split; constructor.
  - destruct a as [|x a]; [destruct b; [cbn; split; constructor|discriminate]|].
    cbn [sse_loop]. set (xa := x :: a) in *. rewrite andb_true_iff, lanes_ok by exact E.
    assert (L1 : length (skipn 16 xa) = length (skipn 16 b)) by (rewrite !skipn_length; congruence).
    rewrite IH; [|rewrite skipn_length; unfold xa in *; cbn [length] in *; lia|exact L1].
    split.
    + intros [H1 H2]. rewrite <- (firstn_skipn 16 xa), <- (firstn_skipn 16 b). now apply Forall2_app.
    + intros H. rewrite <- (firstn_skipn 16 xa) in H. apply Forall2_app_inv_l in H.
      destruct H as (b1 & b2 & H1 & H2 & Eb). pose proof (Forall2_eqlen _ _ _ H1) as Lb.
      assert (B1 : firstn 16 b = b1 /\ skipn 16 b = b2).
      { assert (L2 : length (skipn 16 xa) = length b2) by (now apply Forall2_eqlen in H2).
        rewrite firstn_length in Lb. rewrite skipn_length in L1, L2.
        destruct (Nat.le_gt_cases 16 (length xa)) as [G|G].
        - rewrite Nat.min_l in Lb by exact G. subst b. rewrite firstn_pre, skipn_pre by (symmetry; exact Lb). auto.
        - rewrite Nat.min_r in Lb by lia. assert (L0 : length b2 = 0%nat) by lia. destruct b2 as [|z b2]; [|discriminate L0].
          subst b. rewrite app_nil_r in *. rewrite firstn_all2, skipn_all2 by lia. auto. }
      destruct B1 as [-> ->]. auto.
Qed.

Lemma Forall2_eq_refl {A B} (f : A -> B) : forall a, Forall2 (fun x y => f x = f y) a a.
Proof. induction a; constructor; auto. Qed.

Lemma bytes_eqb_spec a b : reflect (a = b) (bytes_eqb a b).
Proof. unfold bytes_eqb. destruct (list_eq_dec N.eq_dec a b); now constructor. Qed.

Lemma casecmp_scalar a b :
  ident_casecmp OtherArch a b = true <-> Forall2 (fun x y => toupper_iso88591 x = toupper_iso88591 y) a b.
Proof.
  unfold ident_casecmp. destruct (bytes_eqb_spec a b) as [->|Ne].
  - split; auto. intros _. apply Forall2_eq_refl.
  - destruct (Nat.eqb_spec (length a) (length b)) as [L|L]; cbn [negb].
    + now apply scalar_ok.
    + split; [discriminate|]. intros H. apply Forall2_eqlen in H. congruence.
Qed.
Lemma casecmp_x86 a b :
  ident_casecmp X86_64 a b = true <-> Forall2 (fun x y => lane_upper x = lane_upper y) a b.
Proof.
  unfold ident_casecmp. destruct (bytes_eqb_spec a b) as [->|Ne].
  - split; auto. intros _. apply Forall2_eq_refl.
  - destruct (Nat.eqb_spec (length a) (length b)) as [L|L]; cbn [negb].
    + apply sse_ok; [lia|exact L].
    + split; [discriminate|]. intros H. apply Forall2_eqlen in H. congruence.
Qed.

Lemma Forall2_iff {A} (P : A -> Prop) (R Q : A -> A -> Prop) : (forall x y, P x -> P y -> (R x y <-> Q x y)) ->
  forall a b, Forall P a -> Forall P b -> (Forall2 R a b <-> Forall2 Q a b).
Proof.
  intros H. induction a as [|x a IH]; intros b Fa Fb.
  - split; intros K; inversion K; constructor.
  - destruct b as [|y b]; [split; intros K; inversion K|].
    specialize (IH b (Forall_inv_tail Fa) (Forall_inv_tail Fb)). pose proof (H x y (Forall_inv Fa) (Forall_inv Fb)).
    split; intros K; inversion K; subst; constructor; tauto.
Qed.

Lemma casehash_upper a b : Forall2 (fun x y => toupper_iso88591 x = toupper_iso88591 y) a b ->
  ident_casehash a = ident_casehash b.
Proof.
  intros H. unfold ident_casehash. f_equal. generalize 5381. induction H as [|x y a b E H IH]; intros h; [reflexivity|].
  cbn [fold_left]. rewrite E. apply IH.
Qed.

Lemma tolower_upper x : byte_ok x -> toupper_iso88591 (tolower_iso88591 x) = toupper_iso88591 x.
Proof.
  unfold byte_ok. intros H. unfold tolower_iso88591.
  destruct ((65 <=? x) && (x <=? 90)) eqn:E1.
  { unfold toupper_iso88591. replace ((97 <=? x + 97 - 65) && (x + 97 - 65 <=? 122)) with true by lia.
    replace ((97 <=? x) && (x <=? 122)) with false by lia.
    replace (((224 <=? x) && (x <=? 246)) || ((248 <=? x) && (x <=? 254))) with false by lia. lia. }
  destruct (((192 <=? x) && (x <=? 214)) || ((216 <=? x) && (x <=? 222))) eqn:E2; [|reflexivity].
  unfold toupper_iso88591. replace ((97 <=? x + 32) && (x + 32 <=? 122)) with false by lia.
  replace (((224 <=? x + 32) && (x + 32 <=? 246)) || ((248 <=? x + 32) && (x + 32 <=? 254))) with true by lia.
  replace ((97 <=? x) && (x <=? 122)) with false by lia.
  replace (((224 <=? x) && (x <=? 246)) || ((248 <=? x) && (x <=? 254))) with false by lia. lia.
Qed.

(* ---- library files ---- *)

Lemma i32_small v : (- 2147483648 <= v < 2147483648)%Z -> to_i32 v = v.
Proof.
  intros H. unfold to_i32. destruct (Z.ltb_spec v 0) as [L|L].
  - replace (v mod 4294967296)%Z with (v + 4294967296)%Z.
    + destruct (Z.ltb_spec (v + 4294967296) 2147483648); lia.
    + apply Zmod_unique with (-1)%Z; lia.
  - rewrite Z.mod_small by lia. destruct (Z.ltb_spec v 2147483648); lia.
Qed.

Lemma scan_no_nul s : Forall (fun c => 0 < c < 256) s -> fst (scan 0 s) = s.
Proof.
  induction s as [|c s IH]; intros F; [reflexivity|]. cbn [scan]. pose proof (Forall_inv F) as Hc. cbn beta in Hc.
  destruct (N.eqb_spec c 0); [lia|]. specialize (IH (Forall_inv_tail F)). destruct (scan 0 s). cbn [fst] in *. now subst.
Qed.
Lemma ident_new_ok s : s <> [] -> Forall (fun c => 0 < c < 256) s -> ident_new s = Ok s.
Proof. intros Hn F. unfold ident_new. rewrite scan_no_nul by exact F. destruct s; congruence. Qed.

Lemma read_data_app : forall q1 q2 c buf l1 c1 b1, read_data q1 c buf = Ok (l1, c1, b1) ->
  read_data (q1 ++ q2) c buf = (do! (l2, c2, b2) <- read_data q2 c1 b1; Ok (l1 ++ l2, c2, b2)).
Proof.
  induction q1 as [|q q1 IH]; intros q2 c buf l1 c1 b1 H; cbn [read_data app] in *.
  - injection H as <- <- <-. destruct (read_data q2 c buf) as [[[l2 c2] b2]|]; reflexivity.
  - destruct (read_datum q c buf) as [[[d c'] b']|]; [|discriminate]. cbn [bind] in *.
    destruct (read_data q1 c' b') as [[[l c''] b'']|] eqn:E; [|discriminate]. cbn [bind] in H. injection H as <- <- <-.
    rewrite (IH q2 c' b' _ _ _ E). destruct (read_data q2 c'' b'') as [[[l2 c2] b2]|]; reflexivity.
Qed.

(* Reading the fields of a context gives [ds] and leaves the cache [ca]. *)
Definition reads_back (fs : list field) (ds : list datum) (ca : list (option bytes)) : Prop :=
  Forall in_range fs /\ nth_error ca 0 = Some None /\
  forall rest, read_data (map request_of ds) rstart (concat (map enc fs) ++ rest) = Ok (ds, RCtx true ca, rest).

Lemma reads_snoc fs ds ca gs d ca' : reads_back fs ds ca -> Forall in_range gs ->
  (forall j x, nth_error ca j = Some x -> nth_error ca' j = Some x) ->
  (forall rest, read_datum (request_of d) (RCtx true ca) (concat (map enc gs) ++ rest) = Ok (d, RCtx true ca', rest)) ->
  reads_back (fs ++ gs) (ds ++ [d]) ca'.
Proof.
  intros (F & R0 & R) G Ext H. split; [now apply Forall_app|]. split; [now apply Ext|]. intros rest. rewrite map_app, map_app, concat_app, <- app_assoc.
  rewrite (read_data_app _ _ _ _ _ _ _ (R _)). cbn [map read_data]. rewrite H. reflexivity.
Qed.

Lemma read_int v rest : (- 2147483648 <= v < 2147483648)%Z ->
  (do! (x, r) <- read_field KInt (enc (FInt v) ++ rest); match x with FInt v => Ok (to_i32 v, r) | _ => Fault end) = Ok (v, rest).
Proof.
  intros H. assert (R : in_range (FInt v)) by (cbn [in_range]; change (2 ^ 63)%Z with 9223372036854775808%Z; lia).
  pose proof (read_field_ok (FInt v) rest R) as E. cbn [kind_of] in E. rewrite E.
  cbn [bind]. now rewrite i32_small.
Qed.

Lemma read_ref ca v i rest : (0 < v < 2147483648)%Z -> nth_error ca (Z.to_nat (v - 1)) = Some i ->
  read_datum RIdent (RCtx true ca) (concat (map enc [FInt v]) ++ rest) = Ok (DIdent i, RCtx true ca, rest).
Proof.
  intros Hv E. cbn [read_datum]. unfold ident_read. cbn [new_format cache]. cbn [map concat]. rewrite app_nil_r.
  rewrite read_int by lia. cbn [bind]. destruct (Z.ltb_spec v 0); [lia|]. destruct (Z.eqb_spec v 0); [lia|]. now rewrite E.
Qed.

Lemma read_new ca s rest : s <> [] -> Forall (fun c => 0 < c < 256) s -> N.of_nat (length s) <= 61440 ->
  read_datum RIdent (RCtx true ca) (concat (map enc [FInt (- Z.of_nat (length s)); FRaw s]) ++ rest) =
  Ok (DIdent (Some s), RCtx true (ca ++ [Some s]), rest).
Proof.
  intros Hn F L. cbn [read_datum]. unfold ident_read. cbn [new_format cache map concat]. rewrite app_nil_r, <- app_assoc.
  rewrite read_int by lia. cbn [bind].
  assert (length s <> 0)%nat by (destruct s; [congruence|discriminate]).
  destruct (Z.ltb_spec (- Z.of_nat (length s)) 0); [|lia].
  replace (Z.to_nat (- - Z.of_nat (length s))) with (length s) by lia.
  assert (R : in_range (FRaw s)).
  { split; [|exact L]. eapply Forall_impl; [|exact F]. cbn beta. unfold is_byte. intros; lia. }
  pose proof (read_field_ok (FRaw s) rest R) as E. cbn [kind_of] in E. rewrite E. cbn [bind]. rewrite ident_new_ok by assumption. reflexivity.
Qed.

(* The state after the operations [os]: contexts, what reads back from them, and
   the marks. *)
Definition winv (w : wstate) (os : list wop) (cas : list (list (option bytes))) : Prop :=
  length (ctxs w) = begun os /\ length cas = begun os /\
  wr_gen w = (N.of_nat (begun os) + 1) mod 65536 /\
  (forall k c ca, nth_error (ctxs w) k = Some c -> nth_error cas k = Some ca ->
     generation c = N.of_nat k + 1 /\ N.of_nat (length ca) = next_index c /\
     next_index c <= 1 + N.of_nat (length os) /\
     reads_back (out c) (written k os) ca) /\
  (forall k, (begun os <= k)%nat -> written k os = []) /\
  (forall i g ix, wmarks w i = (g, ix) -> g = 0 \/
     exists k ca, g = N.of_nat k + 1 /\ nth_error cas k = Some ca /\ nth_error ca (N.to_nat ix) = Some (Some i)).

Lemma written_snoc k : forall os o, written k (os ++ [o]) = written k os ++ written k [o].
Proof.
  induction os as [|o' os IH]; intros o; [reflexivity|]. cbn [app]. destruct o' as [|j d]; cbn [written].
  - apply IH.
  - destruct (Nat.eqb j k); rewrite IH; reflexivity.
Qed.
Lemma begun_snoc : forall os o, begun (os ++ [o]) = (begun os + begun [o])%nat.
Proof.
  induction os as [|o' os IH]; intros o; [reflexivity|]. cbn [app]. destruct o'; cbn [begun]; rewrite IH; cbn [begun]; lia.
Qed.

Lemma set_nth_len {A} (l : list A) k x : (k < length l)%nat -> length (set_nth l k x) = length l.
Proof. intros H. unfold set_nth. rewrite app_length, firstn_length, skipn_length || (rewrite app_length; cbn [length]; rewrite firstn_length, skipn_length). cbn [length]. rewrite ?skipn_length. lia. Qed.
Lemma set_nth_same {A} (l : list A) k x : (k < length l)%nat -> nth_error (set_nth l k x) k = Some x.
Proof.
  intros H. unfold set_nth. rewrite nth_error_app2; rewrite firstn_length, Nat.min_l by lia; [|lia].
  rewrite Nat.sub_diag. reflexivity.
Qed.
Lemma set_nth_other {A} (l : list A) k x j : (k < length l)%nat -> j <> k -> nth_error (set_nth l k x) j = nth_error l j.
Proof.
  intros H Hj. unfold set_nth. destruct (Nat.lt_ge_cases j k) as [L|L].
  - rewrite nth_error_app1 by (rewrite firstn_length; lia).
    rewrite <- (firstn_skipn k l) at 2. rewrite nth_error_app1 by (rewrite firstn_length; lia). reflexivity.
  - rewrite nth_error_app2; rewrite firstn_length, Nat.min_l by lia; [|lia].
    rewrite <- (firstn_skipn (S k) l) at 2. rewrite nth_error_app2 by (rewrite firstn_length; lia).
    rewrite firstn_length, Nat.min_l by lia. replace (j - k)%nat with (S (j - S k)) by lia. reflexivity.
Qed.

Lemma winv_begin w os cas w' : winv w os cas -> N.of_nat (begun os) < 65535 ->
  ident_write_begin w = Ok w' -> winv w' (os ++ [WBegin]) (cas ++ [[None]]).
Proof.
  intros (L1 & L2 & G & C & Z & M) B E. unfold ident_write_begin in E. destruct (wr_gen w =? 0) eqn:E0; [discriminate|].
  injection E as <-. unfold winv. cbn [ctxs wr_gen wmarks]. rewrite begun_snoc, !app_length. cbn [begun length].
  split; [lia|]. split; [lia|]. split; [|split; [|split]].
  - rewrite G. rewrite N.add_mod_idemp_l by discriminate. f_equal. lia.
  - intros k c ca Hc Hca. rewrite written_snoc. cbn [written]. rewrite app_nil_r.
    destruct (Nat.lt_ge_cases k (begun os)) as [Lk|Lk].
    + rewrite nth_error_app1 in Hc, Hca by lia. destruct (C _ _ _ Hc Hca) as (C1 & C2 & C3 & C4).
      split; [exact C1|]. split; [exact C2|]. split; [lia|exact C4].
    + rewrite nth_error_app2 in Hc, Hca by lia. rewrite L1 in Hc. rewrite L2 in Hca.
      destruct (k - begun os)%nat as [|j] eqn:Ek; [|destruct j; discriminate]. cbn in Hc, Hca. injection Hc as <-. injection Hca as <-.
      cbn [generation next_index out length]. split.
      { rewrite G. rewrite N.mod_small by lia. lia. }
      split; [reflexivity|]. split; [lia|].
      rewrite Z by lia. split; [constructor|]. split; [reflexivity|]. intros rest. reflexivity.
  - intros k Hk. rewrite written_snoc. cbn [written]. rewrite app_nil_r. apply Z. lia.
  - intros i g ix Hi. destruct (M i g ix Hi) as [->|(k & ca & Eg & Ek & Ei)]; [now left|]. right. exists k, ca.
    split; [exact Eg|]. split; [|exact Ei]. rewrite nth_error_app1; [exact Ek|]. apply nth_error_Some. congruence.
Qed.

Lemma nth_error_ex {A} (l : list A) k : (k < length l)%nat -> exists x, nth_error l k = Some x.
Proof. intros H. destruct (nth_error l k) eqn:E; [eauto|]. apply nth_error_None in E. lia. Qed.

(* Context [k] goes from [c] to [c'], whose fields read back as one more datum. *)
Lemma winv_put w os cas k c ca d c' ca' m :
  winv w os cas -> nth_error (ctxs w) k = Some c -> nth_error cas k = Some ca ->
  generation c' = generation c -> N.of_nat (length ca') = next_index c' -> next_index c' <= 1 + next_index c ->
  reads_back (out c') (written k os ++ [d]) ca' ->
  (forall j x, nth_error ca j = Some x -> nth_error ca' j = Some x) ->
  (forall i, m i = wmarks w i \/ exists ix, m i = (generation c, ix) /\ nth_error ca' (N.to_nat ix) = Some (Some i)) ->
  winv (WState (wr_gen w) m (set_nth (ctxs w) k c')) (os ++ [WPut k d]) (set_nth cas k ca').
Proof.
  intros (L1 & L2 & G & C & Z & M) Hc Hca Eg En Le Rb Ext Mk.
  assert (Hk : (k < begun os)%nat) by (rewrite <- L1; apply nth_error_Some; congruence).
  destruct (C _ _ _ Hc Hca) as (C1 & C2 & C3 & C4).
  unfold winv. cbn [ctxs wr_gen wmarks]. rewrite begun_snoc, !app_length. cbn [begun length]. rewrite !set_nth_len by lia.
  rewrite Nat.add_0_r. split; [exact L1|]. split; [exact L2|]. split; [exact G|]. split; [|split].
  - intros j c2 ca2 H1 H2. rewrite written_snoc. cbn [written]. destruct (Nat.eq_dec j k) as [->|Nj].
    + rewrite set_nth_same in H1 by lia. rewrite set_nth_same in H2 by lia. injection H1 as <-. injection H2 as <-. rewrite Nat.eqb_refl.
      split; [congruence|]. split; [exact En|]. split; [lia|exact Rb].
    + rewrite set_nth_other in H1 by lia. rewrite set_nth_other in H2 by lia. destruct (C _ _ _ H1 H2) as (D1 & D2 & D3 & D4).
      destruct (Nat.eqb_spec k j); [congruence|]. rewrite app_nil_r. split; [exact D1|]. split; [exact D2|]. split; [lia|exact D4].
  - intros j Hj. rewrite written_snoc. cbn [written]. destruct (Nat.eqb_spec k j); [lia|]. rewrite app_nil_r. now apply Z.
  - intros i g ix Hi. destruct (Mk i) as [E|(ix' & E & Ei)].
    + rewrite E in Hi. destruct (M i g ix Hi) as [->|(j & ca2 & E1 & E2 & E3)]; [now left|]. right.
      destruct (Nat.eq_dec j k) as [->|Nj].
      * exists k, ca'. split; [exact E1|]. split; [apply set_nth_same; lia|]. apply Ext. congruence.
      * exists j, ca2. split; [exact E1|]. split; [now rewrite set_nth_other by lia|exact E3].
    + right. rewrite E in Hi. injection Hi as <- <-. exists k, ca'. split; [exact C1|]. split; [apply set_nth_same; lia|exact Ei].
Qed.

Lemma wstep_ok w os cas o : winv w os cas -> N.of_nat (length os) < 2147483646 ->
  match o with WBegin => N.of_nat (begun os) < 65535 | WPut k d => (k < begun os)%nat /\ storable d end ->
  exists w' cas', wstep w o = Ok w' /\ winv w' (os ++ [o]) cas'.
Proof.
  intros I Ho H. pose proof I as (L1 & L2 & G & C & Z & M). destruct o as [|k d]; cbn [wstep].
  - assert (E : exists w', ident_write_begin w = Ok w').
    { unfold ident_write_begin. destruct (N.eqb_spec (wr_gen w) 0) as [E|]; [|eauto].
      rewrite G, N.mod_small in E by lia. lia. }
    destruct E as [w' E]. exists w', (cas ++ [[None]]). split; [exact E|]. now apply (winv_begin w).
  - destruct H as [Hk Hd]. destruct (nth_error_ex (ctxs w) k) as [c Hc]; [lia|].
    destruct (nth_error_ex cas k) as [ca Hca]; [lia|]. destruct (C _ _ _ Hc Hca) as (C1 & C2 & C3 & C4).
    destruct d as [[i|]|x]; cbn [write_datum].
    + unfold ident_write. rewrite Hc. destruct (wmarks w i) as [g ix] eqn:Em.
      destruct (N.eqb_spec g (generation c)) as [->|Ng].
      * eexists _, _. split; [reflexivity|]. eapply winv_put; try eassumption; cbn [generation next_index out]; auto; [lia|].
        destruct (M i _ _ Em) as [E0|(j & ca2 & E1 & E2 & E3)]; [lia|].
        assert (j = k) by lia. subst j. rewrite Hca in E2. injection E2 as <-.
        assert (Lx : (N.to_nat ix < length ca)%nat) by (apply nth_error_Some; congruence).
        apply (reads_snoc _ _ ca); [exact C4| | |].
        -- constructor; [|constructor]. cbn [in_range]. change (2 ^ 63)%Z with 9223372036854775808%Z. lia.
        -- auto.
        -- intros rest. cbn [request_of]. apply read_ref; [lia|]. rewrite <- E3. f_equal. lia.
      * destruct (N.eqb_spec (next_index c + 1) (P32 - 1)) as [E|_]; [unfold P32 in E; lia|].
        cbn [storable] in Hd. destruct Hd as (D1 & D2 & D3).
        eexists _, (set_nth cas k (ca ++ [Some i])). split; [reflexivity|].
        assert (Last : nth_error (ca ++ [Some i]) (N.to_nat (next_index c)) = Some (Some i)).
        { rewrite nth_error_app2 by lia. replace (N.to_nat (next_index c) - length ca)%nat with O by lia. reflexivity. }
        eapply winv_put; try eassumption; cbn [generation next_index out]; auto.
        -- rewrite app_length. cbn [length]. lia.
        -- lia.
        -- apply (reads_snoc _ _ ca); [exact C4| | |].
           ++ constructor; [cbn [in_range]; change (2 ^ 63)%Z with 9223372036854775808%Z; lia|]. constructor; [|constructor].
              split; [|exact D3]. eapply Forall_impl; [|exact D2]. cbn beta. unfold is_byte. intros; lia.
           ++ intros j x Hj. rewrite nth_error_app1; [exact Hj|]. apply nth_error_Some. congruence.
           ++ intros rest. cbn [request_of]. now apply read_new.
        -- intros j x Hj. rewrite nth_error_app1; [exact Hj|]. apply nth_error_Some. congruence.
        -- intros j. unfold set_mark. destruct (bytes_eqb_spec j i) as [->|_]; [right; eauto|now left].
    + unfold ident_write. rewrite Hc. eexists _, _. split; [reflexivity|].
      eapply winv_put; try eassumption; cbn [generation next_index out]; auto; [lia|].
      apply (reads_snoc _ _ ca); [exact C4| | |].
      * constructor; [|constructor]. cbn [in_range]. change (2 ^ 63)%Z with 9223372036854775808%Z. lia.
      * auto.
      * intros rest. cbn [request_of]. apply read_ref; [lia|]. exact (proj1 (proj2 C4)).
    + rewrite Hc. eexists _, _. split; [reflexivity|].
      eapply winv_put; try eassumption; cbn [generation next_index out]; auto; [lia|].
      apply (reads_snoc _ _ ca); [exact C4| | |].
      * constructor; [exact Hd|constructor].
      * auto.
      * intros rest. cbn [request_of read_datum map concat]. rewrite app_nil_r, read_field_ok by exact Hd. reflexivity.
Qed.

Lemma wrun_ok : forall os2 os1 w cas, winv w os1 cas -> well_formed (begun os1) os2 ->
  N.of_nat (begun (os1 ++ os2)) <= 65535 -> N.of_nat (length (os1 ++ os2)) < 2147483647 ->
  (forall k d, In (WPut k d) os2 -> storable d) ->
  exists w' cas', wrun w os2 = Ok w' /\ winv w' (os1 ++ os2) cas'.
Proof.
  induction os2 as [|o os2 IH]; intros os1 w cas I Wf B L St; cbn [wrun].
  - rewrite app_nil_r. eauto.
  - assert (Lo : N.of_nat (length os1) < 2147483646) by (rewrite app_length in L; cbn [length] in L; lia).
    change (o :: os2) with ([o] ++ os2) in *. rewrite app_assoc in *.
    assert (Bm : (begun (os1 ++ [o]) <= begun ((os1 ++ [o]) ++ os2))%nat).
    { clear. generalize (os1 ++ [o]) as l. intros l. induction l as [|o' l IHl]; cbn [app begun]; [lia|]. destruct o'; cbn [begun]; lia. }
    rewrite begun_snoc in Bm.
    destruct (wstep_ok w os1 cas o I Lo) as (w1 & cas1 & E1 & I1).
    { destruct o as [|k d]; cbn [begun] in Bm; [lia|]. split; [cbn [app well_formed] in Wf; tauto|]. apply (St k). now left. }
    cbn [app wrun]. rewrite E1. cbn [bind]. apply (IH _ w1 cas1 I1).
    + rewrite begun_snoc. destruct o; cbn [app well_formed begun] in *; [now rewrite Nat.add_1_r|rewrite Nat.add_0_r; tauto].
    + exact B.
    + exact L.
    + intros k d H. apply (St k). now right.
Qed.

Lemma wstart_inv : winv wstart [] [].
Proof.
  split; [reflexivity|]. split; [reflexivity|]. split; [reflexivity|]. split; [|split].
  - intros k c ca H. destruct k; discriminate.
  - reflexivity.
  - intros i g ix [= <- <-]. now left.
Qed.
