(* C60: merging coverage databases. *)

From Coq Require Import ZArith List Bool Arith Lia Permutation.
From Verif Require Import Base CoverModel CoverSpec CoverProofs CoverMergeProofs.
Import ListNotations.

(* C60: after a merge every cover point of either database is there once, with
   the counts of both together. *)
Theorem C60_merge_partial : forall old new m,
  tidy old -> tidy new -> alike old new ->
  merge_scope new old = Ok m ->
  tidy m /\
  forall path h f, recorded m path h f = both (recorded old path h f) (recorded new path h f).
Proof.
  intros old new m TO TN AL M.
  destruct (merge_scope_ok new old m M TO TN AL) as [A [_ B]]. split; assumption.
Qed.

(* Any number of files: the counts are those of all of them together. *)
Theorem C60_merge_files_partial : forall mask first files r,
  (forall x, In x (first :: files) -> tidy (d_root x)) ->
  (forall x y, In x (first :: files) -> In y (first :: files) -> alike (d_root x) (d_root y)) ->
  merge_files mask first files = Ok r ->
  forall path h f,
    recorded (d_root r) path h f =
    fold_left both (map (fun x => recorded (d_root x) path h f) (first :: files)) None.
Proof.
  intros mask first files r T AL M path h f. unfold merge_files in M.
  destruct (merge_more_ok files (read_items first mask) r M) as [_ R].
  - apply (T first). now left.
  - intros x I. apply T. now right.
  - intros x y [<-|Ix] [<-|Iy]; cbn [read_items d_root].
    + apply (AL first first); now left.
    + apply (AL first y); [now left | now right].
    + apply (AL x first); [now right | now left].
    + apply AL; now right.
  - rewrite R. reflexivity.
Qed.

(* C60: the order in which the files are named does not matter. *)
Theorem C60_any_order_partial : forall mask first files r mask' first' files' r',
  (forall x, In x (first :: files) -> tidy (d_root x)) ->
  (forall x y, In x (first :: files) -> In y (first :: files) -> alike (d_root x) (d_root y)) ->
  Permutation (first :: files) (first' :: files') ->
  merge_files mask first files = Ok r -> merge_files mask' first' files' = Ok r' ->
  forall path h f, recorded (d_root r) path h f = recorded (d_root r') path h f.
Proof.
  intros mask first files r mask' first' files' r' T AL P M M' path h f.
  assert (P' := Permutation_sym P).
  rewrite (C60_merge_files_partial mask first files r T AL M path h f).
  rewrite (C60_merge_files_partial mask' first' files' r'); [| | |exact M'].
  - destruct (values_fit (map d_root (first :: files))) with (path := path) (h := h) (f := f)
      as [k F].
    + intros x I. apply in_map_iff in I. destruct I as [d [<- I]]. now apply T.
    + intros x y Ix Iy. apply in_map_iff in Ix, Iy.
      destruct Ix as [d [<- Ix]]. destruct Iy as [e [<- Iy]]. now apply AL.
    + rewrite map_map in F. apply (fold_both_perm k); [|exact Logic.I|exact F].
      now apply Permutation_map.
  - intros x I. apply T. now apply (Permutation_in x P').
  - intros x y Ix Iy. apply AL; now apply (Permutation_in _ P').
Qed.

(* C60: exactly when the merge reads outside the array of items. *)
Theorem C60_merge_fault : forall old new, tidy old -> tidy new ->
  (merge_scope new old = Fault <-> overrun old new).
Proof. intros old new TO TN. exact (merge_scope_fault new old TO TN). Qed.

(* So merging never fails where no such prefix exists; in particular a
   database with the same items as the other merges. *)
Theorem C60_merge_total : forall old new, tidy old -> tidy new -> ~ overrun old new ->
  exists m, merge_scope new old = Ok m.
Proof.
  intros old new TO TN N. destruct (merge_scope new old) as [m|] eqn:M; [eauto|].
  exfalso. apply N. now apply (C60_merge_fault old new TO TN).
Qed.

(* Two runs of one design: the same tree with other counts. *)
Inductive same_shape : scope -> scope -> Prop :=
  same_shape_intro : forall t n h l b its kids t' n' h' l' b' its' kids',
    map (fun it => (i_hier it, i_flags it)) its = map (fun it => (i_hier it, i_flags it)) its' ->
    n = n' -> Forall2 same_shape kids kids' ->
    same_shape (Scope t n h l b its kids) (Scope t' n' h' l' b' its' kids').

Lemma same_shape_name a b : same_shape a b -> s_name a = s_name b.
Proof. intros H. inversion H; subst. reflexivity. Qed.

Lemma forall2_pair {A B} (R : A -> B -> Prop) (f : A -> nat) (g : B -> nat) l l' :
  (forall a b, R a b -> f a = g b) -> Forall2 R l l' -> NoDup (map f l) ->
  forall a b, In a l -> In b l' -> f a = g b -> R a b.
Proof.
  intros FG. induction 1 as [|x y l l' H F IH]; intros ND a b Ia Ib E; [destruct Ia|].
  cbn [map] in ND. inversion ND as [|? ? N ND']; subst.
  assert (X : map f l = map g l').
  { clear -FG F. induction F as [|x y l l' H F IH]; cbn; [reflexivity|]. now rewrite (FG x y H), IH. }
  destruct Ia as [<-|Ia]; destruct Ib as [<-|Ib].
  - exact H.
  - exfalso. apply N. rewrite X, E. now apply in_map.
  - exfalso. apply N. rewrite (FG x y H), <- E. now apply in_map.
  - now apply IH.
Qed.

Lemma same_shape_no_overrun : forall new old, tidy old -> same_shape old new -> ~ overrun old new.
Proof.
  apply (scope_induction (fun new => forall old, tidy old -> same_shape old new -> ~ overrun old new)).
  intros t n h l b items children IH old TO H O.
  inversion H as [t1 n1 h1 l1 b1 its kids t2 n2 h2 l2 b2 its2 kids2 EI EN F]; subst.
  inversion O as [? ? A B C | ? ? o x Io Ix E OV]; subst.
  - cbn [s_items] in B. apply (f_equal (@length _)) in EI. rewrite !map_length in EI. lia.
  - cbn [s_children] in Io, Ix. apply tidy_inv in TO. destruct TO as [_ [NK [_ TK]]].
    apply (IH x Ix o (TK o Io)); [|exact OV].
    exact (forall2_pair same_shape s_name s_name kids children same_shape_name F NK o x Io Ix E).
Qed.

(* C60: databases of two runs of the same design always merge. *)
Theorem C60_same_design : forall old new, tidy old -> tidy new -> same_shape old new ->
  exists m, merge_scope new old = Ok m.
Proof.
  intros old new TO TN H. apply C60_merge_total; [exact TO | exact TN |].
  now apply same_shape_no_overrun.
Qed.

(* C60: the counts of a run are added to the items by their tags. *)
Theorem C60_update_counts : forall counts its its',
  update_items counts its = Ok its' ->
  Forall2 (fun a b => exists d, nth_error counts (Z.to_nat (i_tag a)) = Some d /\
             b = with_data a (i_data b) /\
             ((sane a) -> (0 <= d <= INT_MAX)%Z \/ (i_kind a = KToggle /\ d = INT_MIN) ->
              i_data b = together (i_kind a) (i_data a) d)) its its'.
Proof.
  induction its as [|a its IH]; cbn [update_items]; intros its' E; [injection E as <-; constructor|].
  destruct (nth_error counts (Z.to_nat (i_tag a))) as [d|] eqn:N; [|discriminate].
  apply bind_ok in E. destruct E as [r [R E]]. injection E as <-. constructor; [|now apply IH].
  exists d. split; [exact N|]. split.
  - unfold merge_one. destruct (i_kind a); try reflexivity.
    destruct (unreachable (i_data a) || unreachable d); reflexivity.
  - intros SA SD. apply (merge_one_data a d SA SD).
Qed.

(* Examples. *)

Definition eloc := Loc 1 1 0 0 0.
Definition ex_item k tag d h :=
  Item k tag d 0 0 1 1 0 [] eloc eloc eloc h None.
Definition ex_leaf n its := Scope false n n eloc None its [].
Definition ex_root its kids := Scope true 1 1 eloc (Some 9) its kids.

Definition ex_old := ex_root [] [ex_leaf 2 [ex_item KStmt 0 2147483646 20; ex_item KToggle 1 4 21]; ex_leaf 3 [ex_item KBranch 2 7 30]].
Definition ex_new := ex_root [] [ex_leaf 4 [ex_item KStmt 0 5 40]; ex_leaf 2 [ex_item KToggle 1 INT_MIN 21; ex_item KStmt 2 9 20]].
Definition ex_longer := ex_root [] [ex_leaf 2 [ex_item KStmt 0 1 20; ex_item KToggle 1 4 21; ex_item KToggle 2 1 22]].

Ltac prove_tidy := repeat first
  [ progress intros
  | match goal with
    | |- tidy _ => constructor
    | |- NoDup _ => cbn; constructor
    | |- ~ _ => cbn; intros X
    | H : In _ [] |- _ => destruct H
    | H : In _ (_ :: _) |- _ => destruct H as [<-|H]
    | H : In _ (s_items _) |- _ => cbn in H
    | H : _ \/ _ |- _ => destruct H
    | H : False |- _ => destruct H
    | |- sane _ => unfold sane, INT_MAX, INT_MIN; cbn [i_data i_kind ex_item]
    end
  | discriminate ].

Example ex_old_tidy : tidy ex_old.
Proof. unfold ex_old, ex_root, ex_leaf. prove_tidy; left; lia. Qed.
Example ex_new_tidy : tidy ex_new.
Proof.
  unfold ex_new, ex_root, ex_leaf. prove_tidy; (left; lia) || (right; split; reflexivity) || idtac.
Qed.
Example ex_longer_tidy : tidy ex_longer.
Proof. unfold ex_longer, ex_root, ex_leaf. prove_tidy; left; lia. Qed.

Example C60_merge_example : exists m, merge_scope ex_new ex_old = Ok m /\
  recorded m [2] 20 0 = Some (KStmt, INT_MAX) /\
  recorded m [2] 21 0 = Some (KToggle, INT_MIN) /\
  recorded m [3] 30 0 = Some (KBranch, 7%Z) /\
  recorded m [4] 40 0 = Some (KStmt, 5%Z).
Proof. eexists. split; [vm_compute; reflexivity|]. vm_compute. auto. Qed.

(* C60 fails: when a scope of the second database has the items of the first
   and then more, for example because it is of a design with a wider signal,
   the merge reads behind the array. *)
Theorem C60_overrun_refuted : exists old new,
  tidy old /\ tidy new /\ alike old new /\ merge_scope new old = Fault.
Proof.
  exists ex_old, ex_longer. split; [apply ex_old_tidy|]. split; [apply ex_longer_tidy|]. split.
  - intros path h f k x k' y R R'. destruct path as [|p [|q path]].
    + discriminate.
    + unfold recorded in R, R'. cbn [scope_at ex_old ex_longer ex_root s_children List.find ex_leaf s_name] in R, R'.
      destruct (Nat.eqb_spec 2 p) as [E|E].
      * unfold ex_leaf, ex_item in R, R'. cbn [s_items List.find i_hier i_flags i_kind] in R, R'.
        destruct (Nat.eqb 20 h && Z.eqb 0 f); [injection R as <- _; injection R' as <- _; reflexivity|].
        destruct (Nat.eqb 21 h && Z.eqb 0 f); [injection R as <- _; injection R' as <- _; reflexivity|].
        discriminate.
      * discriminate.
    + unfold recorded in R. cbn [scope_at ex_old ex_root s_children List.find ex_leaf s_name] in R.
      destruct (Nat.eqb 2 p); [cbn in R; discriminate|].
      destruct (Nat.eqb 3 p); cbn in R; discriminate.
  - vm_compute. reflexivity.
Qed.

(* In the other order the same two merge. *)
Example C60_other_order : exists m, merge_scope ex_old ex_longer = Ok m.
Proof. eexists. vm_compute. reflexivity. Qed.

(* C60 fails: the options given for the report are lost when there is a
   second database: they are replaced by those in that file. *)
Theorem C60_options_lost_refuted : exists mask first files r,
  merge_files mask first files = Ok r /\ Z.land (d_mask r) mask <> mask.
Proof.
  exists 512%Z, (Db 1 0 3 ex_old), [Db 1 0 3 ex_old]. eexists.
  split; [vm_compute; reflexivity | discriminate].
Qed.
(* With one database they are kept. *)
Theorem C60_options_one : forall mask first r,
  merge_files mask first [] = Ok r -> Z.land (d_mask r) mask = mask.
Proof.
  intros mask first r E. injection E as <-. cbn [d_mask read_items].
  apply Z.bits_inj'. intros n H. rewrite Z.land_spec, Z.lor_spec.
  destruct (Z.testbit mask n); [now rewrite orb_true_r | now rewrite andb_false_r].
Qed.

Print Assumptions C60_merge_partial.
Print Assumptions C60_merge_files_partial.
Print Assumptions C60_any_order_partial.
Print Assumptions C60_merge_fault.
Print Assumptions C60_merge_total.
Print Assumptions C60_same_design.
Print Assumptions C60_update_counts.
Print Assumptions C60_overrun_refuted.
Print Assumptions C60_options_lost_refuted.
Print Assumptions C60_options_one.
