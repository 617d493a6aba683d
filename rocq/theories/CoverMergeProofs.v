From Coq Require Import ZArith List Bool Arith Lia Permutation.
From Verif Require Import Base CoverModel CoverSpec CoverProofs.
Import ListNotations.

(* When the merging of the items of a scope reads outside the array. *)

Definition matches (olds news : list item) : nat :=
  length (filter (fun it => existsb (same_item it) olds) news).

Lemma existsb_in olds it : existsb (same_item it) olds = true <-> In (key it) (map key olds).
Proof.
  rewrite existsb_exists, in_map_iff. split.
  - intros [x [I S]]. apply same_item_true in S. exists x. auto.
  - intros [x [K I]]. exists x. split; [exact I|]. apply same_item_true. congruence.
Qed.

Lemma matches_keys olds olds' news :
  map key olds = map key olds' -> matches olds news = matches olds' news.
Proof.
  intros E. unfold matches. f_equal. apply filter_ext. intros it.
  destruct (existsb (same_item it) olds) eqn:A; destruct (existsb (same_item it) olds') eqn:B; auto.
  - apply existsb_in in A. rewrite E in A. apply existsb_in in A. congruence.
  - apply existsb_in in B. rewrite <- E in B. apply existsb_in in B. congruence.
Qed.

Lemma matches_app olds new news :
  ~ In (key new) (map key news) -> matches (olds ++ [new]) news = matches olds news.
Proof.
  intros N. unfold matches. f_equal. apply filter_ext_in. intros it I.
  rewrite existsb_app. cbn [existsb]. replace (same_item it new) with false; [now rewrite !orb_false_r|].
  symmetry. apply same_item_false. intros K. apply N. rewrite <- K. now apply in_map.
Qed.

Lemma matches_cons olds new rest :
  matches olds (new :: rest) =
  (if existsb (same_item new) olds then 1 else 0) + matches olds rest.
Proof. unfold matches. cbn [filter]. destruct (existsb _ olds); reflexivity. Qed.

Lemma matches_le olds news : NoDup (map key news) -> matches olds news <= length olds.
Proof.
  intros ND. unfold matches.
  rewrite <- (map_length key (filter _ news)), <- (map_length key olds).
  apply NoDup_incl_length.
  - induction news as [|n r IH]; cbn [filter map]; [constructor|].
    cbn [map] in ND. inversion ND as [|? ? N ND']; subst.
    destruct (existsb (same_item n) olds); [|now apply IH]. cbn [map].
    constructor; [|now apply IH]. intros I. apply N. apply in_map_iff in I.
    destruct I as [x [K I]]. apply filter_In in I. rewrite <- K. apply in_map. apply I.
  - intros k I. apply in_map_iff in I. destruct I as [x [<- I]].
    apply filter_In in I. apply existsb_in. apply I.
Qed.

Lemma search_found olds new p r :
  p < length olds \/ olds = [] -> search (length olds) olds p new = Ok r ->
  match r with
  | Some j => exists o, nth_error olds j = Some o /\ key new = key o
  | None => ~ In (key new) (map key olds)
  end.
Proof.
  intros Hp R. destruct (search_ok olds new p Hp) as [r' [R' Q]].
  rewrite R in R'. injection R' as <-. exact Q.
Qed.

Lemma merge_items_safe : forall news i added olds,
  NoDup (map key news) -> (i - added) + matches olds news < length olds -> added <= i ->
  exists ms, merge_items news i added olds = Ok ms.
Proof.
  induction news as [|new rest IH]; intros i added olds NN H LE; cbn [merge_items]; [eauto|].
  cbn [map] in NN. inversion NN as [|? ? N NN']; subst.
  assert (Hp : i - added < length olds) by lia.
  destruct (search_ok olds new (i - added) (or_introl Hp)) as [r [R Q]].
  rewrite R. cbn [bind]. rewrite matches_cons in H. destruct r as [p|].
  - destruct Q as [o [E K]]. rewrite E.
    assert (MK : map key (replace olds p (merge_one o (i_data new))) = map key olds).
    { apply (map_replace key olds p _ o E). apply key_merge_one. }
    apply IH; [exact NN' | | lia].
    rewrite (matches_keys _ _ rest MK), length_replace.
    replace (existsb (same_item new) olds) with true in H.
    2:{ symmetry. apply existsb_in. rewrite K. apply in_map. now apply nth_error_In in E. }
    lia.
  - apply IH; [exact NN' | | lia].
    rewrite (matches_app olds new rest N), app_length. cbn [length].
    destruct (existsb (same_item new) olds); lia.
Qed.

Definition bad (i : nat) (olds news : list item) : Prop :=
  olds <> [] /\ length olds - i < length news /\
  forall it, In it (firstn (length olds - i) news) -> In (key it) (map key olds).

Lemma merge_items_fault : forall news i olds,
  NoDup (map key news) -> i <= length olds -> i + matches olds news <= length olds ->
  (merge_items news i 0 olds = Fault <-> bad i olds news).
Proof.
  induction news as [|new rest IH]; intros i olds NN LE H; cbn [merge_items].
  - split; [discriminate|]. intros [_ [L _]]. cbn in L. lia.
  - cbn [map] in NN. inversion NN as [|? ? N NN']; subst. rewrite Nat.sub_0_r.
    rewrite matches_cons in H.
    destruct (Nat.eq_dec i (length olds)) as [E|NE].
    + destruct olds as [|o r].
      * cbn in E. subst i. cbn [search length bind app].
        destruct (merge_items_safe rest 1 1 [new] NN') as [ms M]; [| lia |].
        { change [new] with ([] ++ [new]). rewrite (matches_app [] new rest N).
          unfold matches. cbn [existsb].
          assert (X : filter (fun _ : item => false) rest = []).
          { clear. induction rest; cbn; auto. }
          rewrite X. cbn. lia. }
        rewrite M. split; [discriminate|]. intros [X _]. congruence.
      * rewrite search_beyond by (try discriminate; lia). cbn [bind].
        split; [|reflexivity]. intros _. split; [discriminate|].
        rewrite E, Nat.sub_diag. split; [cbn; lia | intros it []].
    + assert (Hp : i < length olds) by lia.
      destruct (search_ok olds new i (or_introl Hp)) as [r [R Q]].
      rewrite R. cbn [bind]. unfold bad.
      replace (length olds - i) with (S (length olds - S i)) by lia. cbn [firstn length].
      destruct r as [p|].
      * destruct Q as [o [E K]]. rewrite E.
        assert (Io : In (key new) (map key olds)).
        { rewrite K. apply in_map. now apply nth_error_In in E. }
        assert (MK : map key (replace olds p (merge_one o (i_data new))) = map key olds).
        { apply (map_replace key olds p _ o E). apply key_merge_one. }
        replace (existsb (same_item new) olds) with true in H
          by (symmetry; now apply existsb_in).
        rewrite IH; [| exact NN' | rewrite length_replace; lia
                    | rewrite (matches_keys _ _ rest MK), length_replace; lia].
        unfold bad. rewrite length_replace, MK.
        split; intros [A [B C]].
        -- split; [intros ->; cbn in Hp; lia|]. split; [lia|].
           intros it [<-|I]; [exact Io | now apply C].
        -- split; [intros X; apply (f_equal (@length item)) in X; rewrite length_replace in X;
                   cbn in X; lia|]. split; [lia|].
           intros it I. apply C. now right.
      * destruct (merge_items_safe rest (S i) 1 (olds ++ [new]) NN') as [ms M]; [| lia |].
        { rewrite (matches_app olds new rest N), app_length. cbn [length].
          destruct (existsb (same_item new) olds); lia. }
        rewrite M. split; [discriminate|]. intros [_ [_ C]]. exfalso. apply Q.
        apply C. now left.
Qed.

Lemma merge_scope_name new old m : merge_scope new old = Ok m -> s_name m = s_name old.
Proof.
  rewrite merge_scope_eq. intros E.
  apply bind_ok in E. destruct E as [its [_ E]].
  apply bind_ok in E. destruct E as [kids [_ E]]. injection E as <-.
  apply with_items_proj.
Qed.

Lemma bind_fault {A B} (x : res A) (g : A -> res B) :
  bind x g = Fault <-> x = Fault \/ exists a, x = Ok a /\ g a = Fault.
Proof.
  destruct x as [a|]; cbn [bind]; split.
  - intros E. right. eauto.
  - intros [E|[b [E F]]]; [discriminate|]. injection E as ->. exact F.
  - auto.
  - auto.
Qed.

Lemma place_fault merge new kids :
  place merge new kids = Fault <->
  exists c, child kids (s_name new) = Some c /\ merge c = Fault.
Proof.
  induction kids as [|c r IH]; cbn [place].
  - split; [discriminate | intros [c [E _]]; discriminate].
  - rewrite child_cons, (Nat.eqb_sym (s_name new)).
    destruct (Nat.eqb_spec (s_name c) (s_name new)) as [N|N].
    + rewrite bind_fault. split.
      * intros [E|[a [_ E]]]; [eauto | discriminate].
      * intros [c' [E F]]. injection E as ->. now left.
    + rewrite bind_fault, IH. split.
      * intros [E|[a [_ E]]]; [exact E | discriminate].
      * auto.
Qed.

Lemma merge_kids_fault : forall ns kids,
  NoDup (map s_name ns) -> NoDup (map s_name kids) ->
  (merge_kids ns kids = Fault <->
   exists o n, In o kids /\ In n ns /\ s_name o = s_name n /\ merge_scope n o = Fault).
Proof.
  induction ns as [|n ns IH]; intros kids NN NK; cbn [merge_kids].
  - split; [discriminate | intros [o [n [_ [[] _]]]]].
  - cbn [map] in NN. inversion NN as [|? ? N NN']; subst.
    rewrite bind_fault, place_fault. split.
    + intros [[c [C M]]|[k1 [P F]]].
      * apply child_some in C. exists c, n. destruct C as [C1 C2]. split; [exact C1|]. split; [now left|]. split; [exact C2 | exact M].
      * pose proof (place_ok _ _ _ _ P) as PO.
        destruct (child kids (s_name n)) as [c|] eqn:C.
        -- destruct PO as [c' [M Q]]. destruct (Q (merge_scope_name _ _ _ M)) as [A [B D]].
           apply IH in F; [|exact NN' | rewrite A; exact NK].
           destruct F as [o [x [Io [Ix [E F]]]]]. destruct (D o Io) as [->|Io'].
           ++ exfalso. apply N. rewrite (merge_scope_name _ _ _ M) in E.
              apply child_some in C. destruct C as [_ C]. rewrite <- C, E. now apply in_map.
           ++ exists o, x. split; [exact Io'|]. split; [now right|]. auto.
        -- subst k1. apply child_none in C.
           apply IH in F; [|exact NN' | rewrite map_app; now apply nodup_app_one].
           destruct F as [o [x [Io [Ix [E F]]]]]. apply in_app_iff in Io.
           destruct Io as [Io|[<-|[]]].
           ++ exists o, x. split; [exact Io|]. split; [now right|]. auto.
           ++ exfalso. apply N. rewrite E. now apply in_map.
    + intros [o [x [Io [[<-|Ix] [E F]]]]].
      * left. exists o. split; [|exact F]. rewrite <- E. now apply child_in.
      * destruct (place (merge_scope n) n kids) as [k1|] eqn:P; [|left; now apply place_fault].
        right. exists k1. split; [reflexivity|].
        pose proof (place_ok _ _ _ _ P) as PO.
        assert (NX : s_name n <> s_name x).
        { intros X. apply N. rewrite X. now apply in_map. }
        destruct (child kids (s_name n)) as [c|] eqn:C.
        -- destruct PO as [c' [M Q]]. destruct (Q (merge_scope_name _ _ _ M)) as [A [B D]].
           apply IH; [exact NN' | rewrite A; exact NK|].
           exists o, x. split; [|auto].
           assert (X : child k1 (s_name o) = Some o).
           { rewrite B. destruct (Nat.eqb_spec (s_name n) (s_name o)); [congruence|].
             now apply child_in. }
           apply child_some in X. apply X.
        -- subst k1. apply child_none in C.
           apply IH; [exact NN' | rewrite map_app; now apply nodup_app_one|].
           exists o, x. split; [apply in_app_iff; now left | auto].
Qed.

Lemma merge_scope_fault : forall new old, tidy old -> tidy new ->
  (merge_scope new old = Fault <-> overrun old new).
Proof.
  apply (scope_induction (fun new => forall old, tidy old -> tidy new ->
          (merge_scope new old = Fault <-> overrun old new))).
  intros t n h l b items children IH old TO TN.
  set (new := Scope t n h l b items children) in *.
  pose proof (tidy_inv _ TO) as [NO [NKO [SO TKO]]].
  pose proof (tidy_inv _ TN) as [NN [NKN [SN TKN]]].
  assert (HI : merge_items (s_items new) 0 0 (s_items old) = Fault <->
               bad 0 (s_items old) (s_items new)).
  { apply merge_items_fault; [exact NN | lia |]. now apply matches_le. }
  rewrite merge_scope_eq, bind_fault, HI. split.
  - intros [[A [B C]]|[its [_ F]]].
    + rewrite Nat.sub_0_r in *. apply overrun_here; [exact A | exact B |].
      intros it I. apply C in I. apply in_map_iff in I. destruct I as [o [K I]].
      exists o. unfold key in K. injection K as K1 K2. auto.
    + apply bind_fault in F. destruct F as [F|[k [_ F]]]; [|discriminate].
      apply (merge_kids_fault _ _ NKN NKO) in F.
      destruct F as [o [x [Io [Ix [E F]]]]].
      apply (overrun_below old new o x Io Ix E).
      apply (IH x Ix o (TKO o Io) (TKN x Ix)). exact F.
  - intros O. inversion O as [? ? A B C | ? ? o x Io Ix E OV]; subst.
    + left. split; [exact A|]. rewrite Nat.sub_0_r. split; [exact B|].
      intros it I. destruct (C it I) as [o [Io [K1 K2]]].
      apply in_map_iff. exists o. split; [|exact Io]. unfold key. congruence.
    + destruct (merge_items (s_items new) 0 0 (s_items old)) as [its|] eqn:M.
      * right. exists its. split; [reflexivity|]. apply bind_fault. left.
        apply (merge_kids_fault _ _ NKN NKO). exists o, x.
        split; [exact Io|]. split; [exact Ix|]. split; [exact E|].
        apply (IH x Ix o (TKO o Io) (TKN x Ix)). exact OV.
      * left. apply HI. reflexivity.
Qed.

(* Order of the files. *)

Definition sane_data (k : item_kind) (a : Z) : Prop :=
  (0 <= a <= INT_MAX)%Z \/ (k = KToggle /\ a = INT_MIN).

Lemma cap_sane k a b (M : Z) : (0 <= a <= M)%Z -> (0 <= b <= M)%Z ->
  (0 <= Z.min (a + b) M <= M)%Z \/ (k = KToggle /\ Z.min (a + b) M = INT_MIN).
Proof. intros A B. left. destruct (Z.min_spec (a + b) M) as [[X ->]|[X ->]]; lia. Qed.

Lemma cap_assoc a b c (M : Z) : (0 <= a <= M)%Z -> (0 <= b <= M)%Z -> (0 <= c <= M)%Z ->
  Z.min (Z.min (a + b) M + c) M = Z.min (a + Z.min (b + c) M) M.
Proof.
  intros A B C.
  destruct (Z.min_spec (a + b) M) as [[X ->]|[X ->]];
  destruct (Z.min_spec (b + c) M) as [[Y ->]|[Y ->]]; lia.
Qed.

Lemma plain_sane k a : k <> KToggle -> sane_data k a -> (0 <= a <= INT_MAX)%Z.
Proof. intros N [A|[E _]]; [exact A | contradiction]. Qed.

Lemma together_plain k a b : k <> KToggle -> together k a b = Z.min (a + b) INT_MAX.
Proof. destruct k; intros N; reflexivity || contradiction. Qed.

Lemma together_marked a b : (a < 0 \/ b < 0)%Z -> together KToggle a b = INT_MIN.
Proof.
  intros H. unfold together. destruct (Z.ltb_spec (Z.min a b) 0) as [_|H1]; [reflexivity|].
  apply Z.min_glb_iff in H1. lia.
Qed.

Lemma together_unmarked a b : (0 <= a)%Z -> (0 <= b)%Z ->
  together KToggle a b = Z.min (a + b) INT_MAX.
Proof.
  intros A B. unfold together. destruct (Z.ltb_spec (Z.min a b) 0) as [H|_]; [|reflexivity].
  apply Z.min_lt_iff in H. lia.
Qed.

Lemma kind_toggle (k : item_kind) : k = KToggle \/ k <> KToggle.
Proof. destruct k; auto; right; discriminate. Qed.

Lemma together_sane k a b : sane_data k a -> sane_data k b -> sane_data k (together k a b).
Proof.
  intros A B. destruct (kind_toggle k) as [->|N].
  - destruct A as [A|[_ A]]; [destruct B as [B|[_ B]]|].
    + rewrite together_unmarked by lia. now apply cap_sane.
    + right. split; [reflexivity|]. apply together_marked. right. rewrite B. reflexivity.
    + right. split; [reflexivity|]. apply together_marked. left. rewrite A. reflexivity.
  - rewrite together_plain by exact N. apply cap_sane; now apply (plain_sane k).
Qed.

Lemma together_comm k a b : together k a b = together k b a.
Proof.
  unfold together. rewrite (Z.add_comm a b), (Z.min_comm a b). reflexivity.
Qed.

Lemma together_assoc k a b c :
  sane_data k a -> sane_data k b -> sane_data k c ->
  together k (together k a b) c = together k a (together k b c).
Proof.
  intros A B C. destruct (kind_toggle k) as [->|N].
  - assert (NEG : (INT_MIN < 0)%Z) by reflexivity.
    destruct A as [A|[_ ->]]; [destruct B as [B|[_ ->]]; [destruct C as [C|[_ ->]]|]|].
    + assert (0 <= Z.min (a + b) INT_MAX)%Z by (apply Z.min_glb; [lia | discriminate]).
      assert (0 <= Z.min (b + c) INT_MAX)%Z by (apply Z.min_glb; [lia | discriminate]).
      rewrite (together_unmarked a b), (together_unmarked b c) by lia.
      rewrite !together_unmarked by lia. now apply cap_assoc.
    + rewrite (together_marked _ INT_MIN) by auto. rewrite (together_marked b INT_MIN) by auto.
      now rewrite (together_marked a INT_MIN) by auto.
    + rewrite (together_marked a INT_MIN) by auto. rewrite (together_marked INT_MIN c) by auto.
      now rewrite (together_marked a INT_MIN) by auto.
    + rewrite (together_marked INT_MIN b) by auto. rewrite !(together_marked INT_MIN) by auto.
      reflexivity.
  - rewrite !together_plain by exact N. apply cap_assoc; now apply (plain_sane k).
Qed.

Definition fits (k : item_kind) (v : option (item_kind * Z)) : Prop :=
  match v with None => True | Some (k', a) => k' = k /\ sane_data k a end.

Lemma both_fits k x y : fits k x -> fits k y -> fits k (both x y).
Proof.
  destruct x as [[k1 a]|]; destruct y as [[k2 b]|]; cbn; auto.
  intros [-> A] [-> B]. split; [reflexivity | now apply together_sane].
Qed.

Lemma both_swap k acc x y : fits k acc -> fits k x -> fits k y ->
  both (both acc x) y = both (both acc y) x.
Proof.
  destruct acc as [[k0 z]|]; destruct x as [[k1 a]|]; destruct y as [[k2 b]|]; cbn; auto.
  - intros [-> A] [-> B] [-> C].
    rewrite together_assoc, (together_comm k a b), <- together_assoc by assumption. reflexivity.
  - intros _ [-> B] [-> C]. now rewrite together_comm.
Qed.

Lemma fold_both_perm k l l' : Permutation l l' -> forall acc, fits k acc ->
  (forall v, In v l -> fits k v) ->
  fold_left both l acc = fold_left both l' acc.
Proof.
  induction 1 as [|x l l' P IH|x y l|l1 l2 l3 P1 IH1 P2 IH2]; intros acc A F; cbn [fold_left].
  - reflexivity.
  - apply IH; [apply both_fits; [exact A | apply F; now left]|].
    intros v I. apply F. now right.
  - rewrite (both_swap k acc y x); [reflexivity | exact A | | ]; apply F; [now left | right; now left].
  - rewrite (IH1 acc A F). apply IH2; [exact A|].
    intros v I. apply F. apply Permutation_sym in P1. now apply (Permutation_in v P1).
Qed.

Lemma recorded_sane s : tidy s -> forall path h f k a,
  recorded s path h f = Some (k, a) -> sane_data k a.
Proof.
  intros T path. revert s T. induction path as [|n p IH]; intros s T h f k a R.
  - rewrite recorded_nil in R. apply lookup_some in R. destruct R as [it [I [_ [<- <-]]]].
    apply tidy_inv in T. destruct T as [_ [_ [SA _]]]. apply (SA it I).
  - rewrite recorded_cons in R. destruct (child (s_children s) n) as [c|] eqn:C; [|discriminate].
    apply child_some in C. destruct C as [I _]. apply tidy_inv in T.
    destruct T as [_ [_ [_ TC]]]. exact (IH c (TC c I) h f k a R).
Qed.

Lemma alike_sym a b : alike a b -> alike b a.
Proof. intros H path h f k x k' y R R'. symmetry. exact (H path h f k' y k x R' R). Qed.

Lemma merge_more_ok : forall fs d r,
  merge_more fs d = Ok r ->
  tidy (d_root d) -> (forall x, In x fs -> tidy (d_root x)) ->
  (forall x y, In x (d :: fs) -> In y (d :: fs) -> alike (d_root x) (d_root y)) ->
  tidy (d_root r) /\
  forall path h f, recorded (d_root r) path h f =
    fold_left both (map (fun x => recorded (d_root x) path h f) fs) (recorded (d_root d) path h f).
Proof.
  induction fs as [|g fs IH]; intros d r E TD TF AL; cbn [merge_more] in E.
  - injection E as <-. split; [exact TD | reflexivity].
  - apply bind_ok in E. destruct E as [d' [E1 E2]].
    unfold merge_file in E1. apply bind_ok in E1. destruct E1 as [m [M E1]]. injection E1 as <-.
    destruct (merge_scope_ok _ _ _ M TD (TF g (or_introl eq_refl))) as [TM [_ RM]].
    { apply AL; [now left | right; now left]. }
    assert (KM : forall x path h f k a k' b, In x (d :: g :: fs) ->
       recorded m path h f = Some (k, a) -> recorded (d_root x) path h f = Some (k', b) -> k = k').
    { intros x path h f k a k' b Ix R R'. rewrite RM in R.
      destruct (recorded (d_root d) path h f) as [[k1 a1]|] eqn:RD.
      - destruct (recorded (d_root g) path h f) as [[k2 a2]|]; cbn in R; injection R as <- _;
          exact (AL d x (or_introl eq_refl) Ix path h f k1 a1 k' b RD R').
      - cbn in R. apply (AL g x (or_intror (or_introl eq_refl)) Ix path h f k a k' b R R'). }
    destruct (IH _ _ E2) as [TR RR].
    + exact TM.
    + intros x I. apply TF. now right.
    + intros x y [<-|Ix] [<-|Iy].
      * intros path h f k a k' b R R'. cbn [d_root] in *. rewrite R in R'. now injection R' as <- _.
      * intros path h f k a k' b R R'. cbn [d_root] in *.
        apply (KM y path h f k a k' b); auto. right. now right.
      * apply alike_sym. intros path h f k a k' b R R'. cbn [d_root] in *.
        apply (KM x path h f k a k' b); auto. right. now right.
      * apply AL; right; now right.
    + split; [exact TR|]. intros path h f. rewrite RR. cbn [map fold_left d_root]. now rewrite RM.
Qed.

Lemma values_fit (dbs : list scope) :
  (forall x, In x dbs -> tidy x) -> (forall x y, In x dbs -> In y dbs -> alike x y) ->
  forall path h f, exists k, forall v, In v (map (fun x => recorded x path h f) dbs) -> fits k v.
Proof.
  intros T AL path h f.
  assert (X : (exists x k a, In x dbs /\ recorded x path h f = Some (k, a)) \/
              (forall x, In x dbs -> recorded x path h f = None)).
  { clear T AL. induction dbs as [|d r IH]; [right; intros x []|].
    destruct (recorded d path h f) as [[k a]|] eqn:R.
    - left. exists d, k, a. split; [now left | exact R].
    - destruct IH as [[x [k [a [I R']]]]|N].
      + left. exists x, k, a. split; [now right | exact R'].
      + right. intros x [<-|I]; [exact R | now apply N]. }
  destruct X as [[x [k [a [I R]]]]|N].
  - exists k. intros v Iv. apply in_map_iff in Iv. destruct Iv as [y [<- Iy]].
    destruct (recorded y path h f) as [[k' b]|] eqn:R'; [|exact Logic.I]. split.
    + symmetry. exact (AL x y I Iy path h f k a k' b R R').
    + assert (E : k = k') by exact (AL x y I Iy path h f k a k' b R R'). subst k'.
      exact (recorded_sane y (T y Iy) path h f k b R').
  - exists KStmt. intros v Iv. apply in_map_iff in Iv. destruct Iv as [y [<- Iy]].
    rewrite (N y Iy). exact Logic.I.
Qed.
