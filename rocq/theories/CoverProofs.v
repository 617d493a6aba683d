From Coq Require Import ZArith List Bool Arith Lia Permutation.
From Verif Require Import Base CoverModel CoverSpec.
Import ListNotations.

Lemma scope_induction (P : scope -> Prop)
  (H : forall t n h l b items children,
     (forall c, In c children -> P c) -> P (Scope t n h l b items children)) :
  forall s, P s.
Proof.
  fix IH 1. intros [t n h l b items children]. apply H.
  induction children as [|c r IHr]; intros c' I.
  - destruct I.
  - destruct I as [<-|I]; [apply IH | exact (IHr c' I)].
Qed.

Definition key (it : item) : ident * Z := (i_hier it, i_flags it).

Lemma same_item_true a b : same_item a b = true <-> key a = key b.
Proof.
  unfold same_item, key. rewrite andb_true_iff, Nat.eqb_eq, Z.eqb_eq.
  split; [intros [-> ->]; reflexivity | intros E; injection E; auto].
Qed.

Lemma same_item_false a b : same_item a b = false <-> key a <> key b.
Proof.
  rewrite <- same_item_true. destruct (same_item a b); split; congruence.
Qed.

(* The visits of the inner loop: p, p+1, ..., wrapping round. *)
Lemma search_walk olds new :
  forall v p, p < length olds ->
  exists r, search v olds p new = Ok r /\
    match r with
    | Some j => exists o, nth_error olds j = Some o /\ key new = key o
    | None => forall d, d < v -> forall o,
        nth_error olds ((p + d) mod length olds) = Some o -> key new <> key o
    end.
Proof.
  induction v as [|v IH]; intros p Hp; cbn [search].
  - exists None. split; [reflexivity|]. intros d Hd. lia.
  - destruct (nth_error olds p) as [o|] eqn:E.
    2:{ apply nth_error_None in E. lia. }
    destruct (same_item new o) eqn:SI.
    + exists (Some p). split; [reflexivity|]. exists o. split; [exact E|].
      now apply same_item_true.
    + apply same_item_false in SI.
      set (q := if p =? length olds - 1 then 0 else S p).
      assert (Hq : q < length olds).
      { unfold q. destruct (Nat.eqb_spec p (length olds - 1)); lia. }
      destruct (IH q Hq) as [r [R Q]]. exists r. split; [exact R|].
      destruct r as [j|]; [exact Q|].
      intros [|d] Hd o' E'.
      * rewrite Nat.add_0_r, Nat.mod_small in E' by lia. congruence.
      * apply (Q d ltac:(lia) o'). rewrite <- E'. f_equal.
        unfold q. destruct (Nat.eqb_spec p (length olds - 1)) as [->|N].
        -- replace (length olds - 1 + S d) with (d + 1 * length olds) by lia.
           rewrite Nat.mod_add by lia. reflexivity.
        -- f_equal. lia.
Qed.

Lemma search_ok olds new p :
  p < length olds \/ olds = [] ->
  exists r, search (length olds) olds p new = Ok r /\
    match r with
    | Some j => exists o, nth_error olds j = Some o /\ key new = key o
    | None => ~ In (key new) (map key olds)
    end.
Proof.
  intros [Hp | ->].
  2:{ exists None. split; [reflexivity|]. intros []. }
  destruct (search_walk olds new (length olds) p Hp) as [r [R Q]].
  exists r. split; [exact R|]. destruct r as [j|]; [exact Q|].
  intros I. apply in_map_iff in I. destruct I as [o [K I]].
  apply In_nth_error in I. destruct I as [j E].
  assert (Hj : j < length olds) by (apply nth_error_Some; congruence).
  assert (X : exists d, d < length olds /\ (p + d) mod length olds = j).
  { destruct (le_lt_dec p j).
    - exists (j - p). split; [lia|]. rewrite Nat.mod_small by lia. lia.
    - exists (j + length olds - p). split; [lia|].
      replace (p + (j + length olds - p)) with (j + 1 * length olds) by lia.
      rewrite Nat.mod_add by lia. apply Nat.mod_small. exact Hj. }
  destruct X as [d [Hd Ed]].
  apply (Q d Hd o); [rewrite Ed; exact E | congruence].
Qed.

Lemma search_beyond olds new p :
  length olds <= p -> olds <> [] -> search (length olds) olds p new = Fault.
Proof.
  intros Hp N. destruct olds as [|o r]; [congruence|].
  cbn [length search]. replace (nth_error (o :: r) p) with (@None item); [reflexivity|].
  symmetry. apply nth_error_None. exact Hp.
Qed.

Lemma key_merge_one it d : key (merge_one it d) = key it.
Proof.
  unfold merge_one. destruct (i_kind it); try reflexivity.
  destruct (_ || _); reflexivity.
Qed.

Lemma kind_merge_one it d : i_kind (merge_one it d) = i_kind it.
Proof.
  unfold merge_one. destruct (i_kind it) eqn:K; try exact K.
  destruct (_ || _); exact K.
Qed.

Lemma merge_one_data it d :
  sane it -> ((0 <= d <= INT_MAX)%Z \/ (i_kind it = KToggle /\ d = INT_MIN)) ->
  i_data (merge_one it d) = together (i_kind it) (i_data it) d /\ sane (merge_one it d).
Proof.
  unfold sane. rewrite kind_merge_one.
  intros A B. unfold merge_one, together, saturate_add, unreachable, INT_MIN, INT_MAX in *.
  destruct (i_kind it);
    try (destruct A as [A|[A _]]; [|discriminate]; destruct B as [B|[B _]]; [|discriminate];
         cbn [with_data i_data];
         destruct (Z.leb_spec (-2147483648) (i_data it + d)); [|lia];
         destruct (Z.leb_spec (i_data it + d) 2147483647); cbn [andb]; split; lia).
  destruct (Z.ltb_spec (i_data it) 0); destruct (Z.ltb_spec d 0);
    destruct (Z.ltb_spec (Z.min (i_data it) d) 0); try lia; cbn [orb with_data i_data];
    try (split; [lia | right; split; reflexivity]).
  destruct (Z.leb_spec (-2147483648) (i_data it + d)); [|lia].
  destruct (Z.leb_spec (i_data it + d) 2147483647); cbn [andb]; split; lia.
Qed.

Lemma length_replace {A} (l : list A) p x : length (replace l p x) = length l.
Proof. revert p. induction l as [|y l IH]; intros [|p]; cbn; auto. Qed.

Lemma map_replace {A B} (g : A -> B) l p x y :
  nth_error l p = Some y -> g x = g y -> map g (replace l p x) = map g l.
Proof.
  revert p. induction l as [|z l IH]; intros [|p] E G; cbn in *; try discriminate.
  - injection E as <-. now rewrite G.
  - f_equal. now apply IH.
Qed.

Lemma in_replace {A} (l : list A) p x y :
  In y (replace l p x) -> y = x \/ In y l.
Proof.
  revert p. induction l as [|z l IH]; intros [|p]; cbn; intros I; auto.
  - destruct I; auto.
  - destruct I as [I|I]; auto. destruct (IH p I); auto.
Qed.

(* Looking for an item by its key. *)
Definition lookup (its : list item) (h : ident) (f : Z) : option (item_kind * Z) :=
  match List.find (fun it => Nat.eqb (i_hier it) h && Z.eqb (i_flags it) f) its with
  | Some it => Some (i_kind it, i_data it)
  | None => None
  end.

Lemma keyb it (h : ident) (f : Z) :
  (Nat.eqb (i_hier it) h && Z.eqb (i_flags it) f) = true <-> key it = (h, f).
Proof.
  rewrite andb_true_iff, Nat.eqb_eq, Z.eqb_eq. unfold key.
  split; [intros [-> ->]; reflexivity | intros E; injection E; auto].
Qed.

Lemma lookup_none its h f : ~ In (h, f) (map key its) -> lookup its h f = None.
Proof.
  intros N. unfold lookup.
  destruct (List.find _ its) as [it|] eqn:E; [|reflexivity].
  apply find_some in E. destruct E as [I K]. apply keyb in K.
  exfalso. apply N. rewrite <- K. apply in_map. exact I.
Qed.

Lemma lookup_in its it :
  NoDup (map key its) -> In it its ->
  lookup its (i_hier it) (i_flags it) = Some (i_kind it, i_data it).
Proof.
  unfold lookup. induction its as [|x r IH]; intros ND I; [destruct I|].
  cbn [map] in ND. inversion ND as [|? ? N ND']; subst. cbn [List.find].
  destruct (Nat.eqb (i_hier x) (i_hier it) && Z.eqb (i_flags x) (i_flags it)) eqn:E.
  - apply keyb in E. destruct I as [->|I]; [reflexivity|].
    exfalso. apply N. rewrite E. change (In (key it) (map key r)). now apply in_map.
  - destruct I as [->|I].
    + exfalso. assert (X : (Nat.eqb (i_hier it) (i_hier it) && Z.eqb (i_flags it) (i_flags it)) = true)
        by now apply keyb. congruence.
    + now apply IH.
Qed.

Lemma lookup_some its h f k d :
  lookup its h f = Some (k, d) ->
  exists it, In it its /\ key it = (h, f) /\ i_kind it = k /\ i_data it = d.
Proof.
  unfold lookup. destruct (List.find _ its) as [it|] eqn:E; [|discriminate].
  intros X. injection X as <- <-. apply find_some in E. destruct E as [I K].
  apply keyb in K. eauto.
Qed.

Lemma lookup_app its x h f :
  lookup (its ++ [x]) h f =
  match lookup its h f with
  | Some r => Some r
  | None => if Nat.eqb (i_hier x) h && Z.eqb (i_flags x) f then Some (i_kind x, i_data x) else None
  end.
Proof.
  unfold lookup. induction its as [|y r IH]; cbn [app List.find].
  - destruct (_ && _); reflexivity.
  - destruct (Nat.eqb (i_hier y) h && Z.eqb (i_flags y) f); [reflexivity | exact IH].
Qed.

Lemma lookup_cons x r h f :
  lookup (x :: r) h f =
  if Nat.eqb (i_hier x) h && Z.eqb (i_flags x) f then Some (i_kind x, i_data x) else lookup r h f.
Proof. unfold lookup. cbn [List.find]. destruct (_ && _); reflexivity. Qed.

Lemma lookup_replace its p o x h f :
  NoDup (map key its) -> nth_error its p = Some o -> key x = key o ->
  lookup (replace its p x) h f =
  if Nat.eqb (i_hier x) h && Z.eqb (i_flags x) f then Some (i_kind x, i_data x)
  else lookup its h f.
Proof.
  revert p. induction its as [|y r IH]; intros p ND E K; [destruct p; discriminate|].
  cbn [map] in ND. inversion ND as [|? ? N ND']; subst.
  destruct p as [|p]; cbn [nth_error] in E; cbn [replace]; rewrite !lookup_cons.
  - injection E as ->.
    destruct (Nat.eqb (i_hier x) h && Z.eqb (i_flags x) f) eqn:B; [reflexivity|].
    destruct (Nat.eqb (i_hier o) h && Z.eqb (i_flags o) f) eqn:B'; [|reflexivity].
    apply keyb in B'. exfalso.
    assert (X : (Nat.eqb (i_hier x) h && Z.eqb (i_flags x) f) = true)
      by (apply keyb; congruence). congruence.
  - rewrite (IH p ND' E K).
    destruct (Nat.eqb (i_hier y) h && Z.eqb (i_flags y) f) eqn:B; [|reflexivity].
    destruct (Nat.eqb (i_hier x) h && Z.eqb (i_flags x) f) eqn:B'; [|reflexivity].
    exfalso. apply keyb in B. apply keyb in B'. apply N.
    rewrite B, <- B', K. apply in_map. apply nth_error_In in E. exact E.
Qed.

Lemma nodup_app_one {A} (l : list A) x : NoDup l -> ~ In x l -> NoDup (l ++ [x]).
Proof.
  intros ND N. induction ND as [|y l Y ND IH]; cbn.
  - constructor; [intros []|constructor].
  - constructor.
    + intros I. apply in_app_iff in I. destruct I as [I|[I|[]]]; [auto|].
      subst. apply N. now left.
    + apply IH. intros I. apply N. now right.
Qed.

(* The items of one scope. *)
Lemma merge_items_ok : forall news i added olds ms,
  merge_items news i added olds = Ok ms ->
  NoDup (map key olds) -> NoDup (map key news) ->
  (forall it, In it olds -> sane it) -> (forall it, In it news -> sane it) ->
  (forall o n, In o olds -> In n news -> key o = key n -> i_kind o = i_kind n) ->
  NoDup (map key ms) /\
  (forall it, In it ms -> sane it) /\
  (forall h f, lookup ms h f = both (lookup olds h f) (lookup news h f)).
Proof.
  induction news as [|new rest IH]; intros i added olds ms E NO NN SO SN AL; cbn [merge_items] in E.
  - injection E as <-. split; [exact NO|]. split; [exact SO|].
    intros h f. cbn. destruct (lookup olds h f) as [[k a]|]; reflexivity.
  - apply bind_ok in E. destruct E as [found [E1 E2]].
    cbn [map] in NN. inversion NN as [|? ? NNr NN']; subst.
    assert (Hp : i - added < length olds \/ olds = []).
    { destruct olds as [|o r]; [now right|]. left.
      destruct (le_lt_dec (length (o :: r)) (i - added)) as [L|L]; [|exact L].
      rewrite (search_beyond (o :: r) new _ L) in E1 by discriminate. discriminate. }
    destruct (search_ok olds new _ Hp) as [r [R Q]].
    rewrite R in E1. injection E1 as <-.
    destruct r as [p|].
    + destruct Q as [o [N K]]. rewrite N in E2.
      assert (Io : In o olds) by (eapply nth_error_In; exact N).
      assert (KK : i_kind o = i_kind new)
        by (apply AL; [exact Io | now left | congruence]).
      assert (DN : (0 <= i_data new <= INT_MAX)%Z \/ (i_kind o = KToggle /\ i_data new = INT_MIN)).
      { destruct (SN new (or_introl eq_refl)) as [D|[D D']]; [now left|].
        right. split; [congruence | exact D']. }
      destruct (merge_one_data o (i_data new) (SO o Io) DN) as [MD MS].
      set (x := merge_one o (i_data new)) in *.
      assert (KX : key x = key o) by apply key_merge_one.
      assert (MK : map key (replace olds p x) = map key olds)
        by (apply (map_replace key olds p x o N KX)).
      destruct (IH _ _ _ _ E2) as [A [B C]].
      * rewrite MK. exact NO.
      * exact NN'.
      * intros it I. apply in_replace in I. destruct I as [->|I]; [exact MS | now apply SO].
      * intros it I. apply SN. now right.
      * intros a b Ia Ib Kab. apply in_replace in Ia. destruct Ia as [->|Ia].
        -- unfold x. rewrite kind_merge_one. apply AL; [exact Io | now right | congruence].
        -- apply AL; [exact Ia | now right | exact Kab].
      * split; [exact A|]. split; [exact B|]. intros h f. rewrite C.
        rewrite (lookup_replace olds p o x h f NO N KX), lookup_cons.
        destruct (Nat.eqb (i_hier x) h && Z.eqb (i_flags x) f) eqn:T.
        -- apply keyb in T.
           assert (Tn : (Nat.eqb (i_hier new) h && Z.eqb (i_flags new) f) = true)
             by (apply keyb; congruence).
           rewrite Tn.
           assert (Lr : lookup rest h f = None).
           { apply lookup_none. intros I. apply NNr. rewrite K, <- KX, T. exact I. }
           rewrite Lr.
           assert (Lo : lookup olds h f = Some (i_kind o, i_data o)).
           { rewrite <- (lookup_in olds o NO Io). unfold key in *. congruence. }
           rewrite Lo. cbn [both]. rewrite MD.
           replace (i_kind x) with (i_kind o) by (symmetry; apply kind_merge_one). reflexivity.
        -- assert (Tn : (Nat.eqb (i_hier new) h && Z.eqb (i_flags new) f) = false).
           { apply not_true_is_false. intros Z. apply keyb in Z.
             assert (X : (Nat.eqb (i_hier x) h && Z.eqb (i_flags x) f) = true)
               by (apply keyb; congruence). congruence. }
           rewrite Tn. reflexivity.
    + destruct (IH _ _ _ _ E2) as [A [B C]].
      * rewrite map_app. apply nodup_app_one; [exact NO | exact Q].
      * exact NN'.
      * intros it I. apply in_app_iff in I. destruct I as [I|[<-|[]]]; [now apply SO|].
        apply SN. now left.
      * intros it I. apply SN. now right.
      * intros a b Ia Ib Kab. apply in_app_iff in Ia. destruct Ia as [Ia|[<-|[]]].
        -- apply AL; [exact Ia | now right | exact Kab].
        -- exfalso. apply NNr. rewrite Kab. now apply in_map.
      * split; [exact A|]. split; [exact B|]. intros h f. rewrite C.
        rewrite lookup_app, lookup_cons.
        destruct (Nat.eqb (i_hier new) h && Z.eqb (i_flags new) f) eqn:T.
        -- apply keyb in T.
           rewrite (lookup_none olds h f) by (rewrite <- T; exact Q).
           rewrite (lookup_none rest h f) by (rewrite <- T; exact NNr).
           reflexivity.
        -- destruct (lookup olds h f) as [[k a]|]; reflexivity.
Qed.

(* Which child has a name. *)
Definition child (kids : list scope) (n : ident) : option scope :=
  List.find (fun c => Nat.eqb (s_name c) n) kids.

Lemma child_cons c r n :
  child (c :: r) n = if Nat.eqb (s_name c) n then Some c else child r n.
Proof. reflexivity. Qed.

Lemma child_none kids n : ~ In n (map s_name kids) <-> child kids n = None.
Proof.
  induction kids as [|c r IH]; cbn [map]; [split; auto|].
  rewrite child_cons. destruct (Nat.eqb_spec (s_name c) n) as [E|E].
  - split; [intros N; exfalso; apply N; now left | discriminate].
  - rewrite <- IH. split; intros N I; apply N; [now right|].
    destruct I; [contradiction | assumption].
Qed.

Lemma child_some kids n c : child kids n = Some c -> In c kids /\ s_name c = n.
Proof.
  intros E. apply find_some in E. rewrite Nat.eqb_eq in E. exact E.
Qed.

Lemma child_in kids c :
  NoDup (map s_name kids) -> In c kids -> child kids (s_name c) = Some c.
Proof.
  induction kids as [|x r IH]; intros ND I; [destruct I|].
  cbn [map] in ND. inversion ND as [|? ? N ND']; subst. rewrite child_cons.
  destruct (Nat.eqb_spec (s_name x) (s_name c)) as [E|E].
  - destruct I as [->|I]; [reflexivity|]. exfalso. apply N. rewrite E. now apply in_map.
  - destruct I as [->|I]; [congruence | now apply IH].
Qed.

Lemma recorded_nil s h f : recorded s [] h f = lookup (s_items s) h f.
Proof. reflexivity. Qed.

Lemma recorded_cons s n p h f :
  recorded s (n :: p) h f =
  match child (s_children s) n with Some c => recorded c p h f | None => None end.
Proof.
  unfold recorded. cbn [scope_at]. fold (child (s_children s) n).
  destruct (child (s_children s) n); reflexivity.
Qed.

Lemma place_ok merge new kids kids' :
  place merge new kids = Ok kids' ->
  match child kids (s_name new) with
  | None => kids' = kids ++ [new]
  | Some c => exists c', merge c = Ok c' /\
      (s_name c' = s_name c ->
       map s_name kids' = map s_name kids /\
       (forall n, child kids' n = if Nat.eqb (s_name new) n then Some c' else child kids n) /\
       (forall x, In x kids' -> x = c' \/ In x kids))
  end.
Proof.
  revert kids'. induction kids as [|c r IH]; intros kids' E; cbn [place] in E.
  - injection E as <-. reflexivity.
  - rewrite child_cons. rewrite (Nat.eqb_sym (s_name new)) in E.
    destruct (Nat.eqb_spec (s_name c) (s_name new)) as [N|N].
    + apply bind_ok in E. destruct E as [c' [E1 E2]]. injection E2 as <-.
      exists c'. split; [exact E1|]. intros NC. split; [cbn; now rewrite NC|].
      split; [|intros x [->|I]; [now left | right; now right]].
      intros n. rewrite !child_cons, NC, N.
      destruct (Nat.eqb (s_name new) n); reflexivity.
    + apply bind_ok in E. destruct E as [r' [E1 E2]]. injection E2 as <-.
      specialize (IH r' E1). destruct (child r (s_name new)) as [c0|].
      * destruct IH as [c' [M Q]]. exists c'. split; [exact M|].
        intros NC. destruct (Q NC) as [A [B C]]. split; [cbn; now rewrite A|]. split.
        -- intros n. rewrite !child_cons, B.
           destruct (Nat.eqb_spec (s_name c) n) as [E3|]; [|reflexivity].
           destruct (Nat.eqb_spec (s_name new) n) as [E'|]; [congruence | reflexivity].
        -- intros x [->|I]; [right; now left|]. destruct (C x I); auto. right. now right.
      * now rewrite IH.
Qed.

Fixpoint merge_kids (ns kids : list scope) : res (list scope) :=
  match ns with
  | [] => Ok kids
  | n :: ns' => do! kids' <- place (merge_scope n) n kids; merge_kids ns' kids'
  end.

Lemma merge_scope_eq new old :
  merge_scope new old =
  do! items <- merge_items (s_items new) 0 0 (s_items old);
  do! kids <- merge_kids (s_children new) (s_children old);
  Ok (with_items old items kids).
Proof.
  destruct new as [t n h l b items children]. cbn [merge_scope s_items s_children].
  destruct (merge_items items 0 0 (s_items old)) as [its|]; [|reflexivity]. cbn [bind].
  match goal with |- bind (?f children (s_children old)) _ = _ =>
    assert (X : forall ns kids, f ns kids = merge_kids ns kids) end.
  { induction ns as [|x r IH]; intros kids; [reflexivity|]. cbn [merge_kids].
    destruct (place (merge_scope x) x kids) as [k'|]; [|reflexivity]. cbn [bind]. apply IH. }
  now rewrite X.
Qed.

Lemma tidy_inv s : tidy s ->
  NoDup (map key (s_items s)) /\ NoDup (map s_name (s_children s)) /\
  (forall it, In it (s_items s) -> sane it) /\ (forall c, In c (s_children s) -> tidy c).
Proof. intros T. destruct T as [t n h l b items children A B C D]. cbn. auto. Qed.

Lemma tidy_with old items kids :
  NoDup (map key items) -> NoDup (map s_name kids) ->
  (forall it, In it items -> sane it) -> (forall c, In c kids -> tidy c) ->
  tidy (with_items old items kids).
Proof. destruct old. intros A B C D. cbn. now constructor. Qed.

Lemma with_items_proj old items kids :
  s_items (with_items old items kids) = items /\
  s_children (with_items old items kids) = kids /\
  s_name (with_items old items kids) = s_name old.
Proof. destruct old. repeat split. Qed.

Definition merges_right (new : scope) : Prop :=
  forall old m, merge_scope new old = Ok m -> tidy old -> tidy new -> alike old new ->
  tidy m /\ s_name m = s_name old /\
  forall path h f, recorded m path h f = both (recorded old path h f) (recorded new path h f).

Lemma alike_child old new o n :
  alike old new -> NoDup (map s_name (s_children old)) -> NoDup (map s_name (s_children new)) ->
  In o (s_children old) -> In n (s_children new) -> s_name o = s_name n -> alike o n.
Proof.
  intros AL NO NN Io In' E path h f k x k' y R R'.
  apply (AL (s_name o :: path) h f k x k' y); rewrite recorded_cons.
  - now rewrite (child_in _ _ NO Io).
  - now rewrite E, (child_in _ _ NN In').
Qed.

Lemma both_none_r x : both x None = x.
Proof. destruct x as [[k a]|]; reflexivity. Qed.

Lemma merge_kids_ok : forall ns kids kids',
  merge_kids ns kids = Ok kids' ->
  (forall n, In n ns -> merges_right n) ->
  NoDup (map s_name ns) -> NoDup (map s_name kids) ->
  (forall c, In c ns -> tidy c) -> (forall c, In c kids -> tidy c) ->
  (forall o n, In o kids -> In n ns -> s_name o = s_name n -> alike o n) ->
  NoDup (map s_name kids') /\ (forall c, In c kids' -> tidy c) /\
  forall nm path h f,
    match child kids' nm with Some c => recorded c path h f | None => None end =
    both (match child kids nm with Some c => recorded c path h f | None => None end)
         (match child ns nm with Some c => recorded c path h f | None => None end).
Proof.
  induction ns as [|n ns IH]; intros kids kids' E MR NN NK TN TK AL; cbn [merge_kids] in E.
  - injection E as <-. split; [exact NK|]. split; [exact TK|].
    intros nm path h f. cbn [child List.find]. now rewrite both_none_r.
  - apply bind_ok in E. destruct E as [k1 [E1 E2]].
    cbn [map] in NN. inversion NN as [|? ? N NN']; subst.
    pose proof (place_ok _ _ _ _ E1) as P.
    destruct (child kids (s_name n)) as [c|] eqn:C.
    + destruct P as [c' [M Q]].
      destruct (child_some _ _ _ C) as [Ic Nc].
      destruct (MR n (or_introl eq_refl) c c' M (TK c Ic) (TN n (or_introl eq_refl))
                  (AL c n Ic (or_introl eq_refl) Nc)) as [Tc [Nc' Rc]].
      destruct (Q Nc') as [A [B D]].
      destruct (IH k1 kids' E2) as [F [G K]].
      * intros x I. apply MR. now right.
      * exact NN'.
      * rewrite A. exact NK.
      * intros x I. apply TN. now right.
      * intros x I. destruct (D x I) as [->|I']; [exact Tc | now apply TK].
      * intros x y Ix Iy Nxy. destruct (D x Ix) as [->|I'].
        -- exfalso. apply N. rewrite <- Nc, <- Nc', Nxy. now apply in_map.
        -- apply AL; [exact I' | now right | exact Nxy].
      * split; [exact F|]. split; [exact G|]. intros nm path h f.
        rewrite K, B, child_cons.
        destruct (Nat.eqb_spec (s_name n) nm) as [<-|NE].
        -- rewrite C, Rc.
           assert (X : child ns (s_name n) = None) by (now apply child_none).
           rewrite X, both_none_r. reflexivity.
        -- reflexivity.
    + subst k1. apply child_none in C.
      destruct (IH (kids ++ [n]) kids' E2) as [F [G K]].
      * intros x I. apply MR. now right.
      * exact NN'.
      * rewrite map_app. now apply nodup_app_one.
      * intros x I. apply TN. now right.
      * intros x I. apply in_app_iff in I. destruct I as [I|[<-|[]]]; [now apply TK|].
        apply TN. now left.
      * intros x y Ix Iy Nxy. apply in_app_iff in Ix. destruct Ix as [Ix|[<-|[]]].
        -- apply AL; [exact Ix | now right | exact Nxy].
        -- exfalso. apply N. rewrite Nxy. now apply in_map.
      * split; [exact F|]. split; [exact G|]. intros nm path h f. rewrite K, child_cons.
        assert (X : child (kids ++ [n]) nm =
                    match child kids nm with
                    | Some c => Some c
                    | None => if Nat.eqb (s_name n) nm then Some n else None end).
        { clear. unfold child. induction kids as [|c r IHr]; cbn [app List.find].
          - destruct (Nat.eqb (s_name n) nm); reflexivity.
          - destruct (Nat.eqb (s_name c) nm); [reflexivity | exact IHr]. }
        rewrite X. destruct (child kids nm) as [c|] eqn:CK.
        -- destruct (Nat.eqb_spec (s_name n) nm) as [<-|NE]; [|reflexivity].
           exfalso. apply child_none in C. congruence.
        -- destruct (Nat.eqb_spec (s_name n) nm) as [<-|NE]; [|reflexivity].
           assert (Y : child ns (s_name n) = None) by (now apply child_none).
           rewrite Y. now rewrite both_none_r.
Qed.

Lemma merge_scope_ok : forall new, merges_right new.
Proof.
  apply scope_induction. intros t n h l b items children IH old m E TO TN AL.
  rewrite merge_scope_eq in E. cbn [s_items s_children] in E.
  apply bind_ok in E. destruct E as [its [E1 E]].
  apply bind_ok in E. destruct E as [kids [E2 E]]. injection E as <-.
  pose proof (tidy_inv _ TO) as [NO [NKO [SO TKO]]].
  pose proof (tidy_inv _ TN) as [NN [NKN [SN TKN]]]. cbn [s_items s_children] in *.
  destruct (merge_items_ok _ _ _ _ _ E1 NO NN SO SN) as [A [B C]].
  { intros o x Io Ix K.
    apply (AL [] (i_hier o) (i_flags o) (i_kind o) (i_data o) (i_kind x) (i_data x));
      rewrite recorded_nil.
    - now apply lookup_in.
    - cbn [s_items]. unfold key in K. injection K as -> ->. now apply lookup_in. }
  destruct (merge_kids_ok _ _ _ E2 IH NKN NKO TKN TKO) as [D [F G]].
  { intros o x Io Ix Nox.
    apply (alike_child old (Scope t n h l b items children) o x AL NKO NKN Io Ix Nox). }
  destruct (with_items_proj old its kids) as [PI [PC PN]].
  split; [now apply tidy_with|]. split; [exact PN|].
  intros [|nm path] hh f.
  - rewrite !recorded_nil, PI. exact (C hh f).
  - rewrite !recorded_cons, PC. cbn [s_children]. exact (G nm path hh f).
Qed.
