From Coq Require Import ZArith NArith List Bool Arith Lia Relations.
From Verif Require Import Base NumberModel CoverModel ObjModel ObjKindProofs ObjGraphModel ObjGraphSpec.
Import ListNotations.
Local Open Scope nat_scope.

(* ---- references of an object ---- *)

Definition item_refers (it : item) (r : oref) : Prop :=
  it = VObject (Some r) \/ exists l, it = VArray (Some l) /\ In (Some r) l.

Lemma refs_of_ok t it : fits t it ->
  exists l, refs_of t it = Ok l /\ forall r, In (Some r) l <-> item_refers it r.
Proof.
  intros F. unfold item_refers.
  destruct t as [[]|], it as [i|o|[a|]|z|d|x|n]; cbn in F; try contradiction; cbn [refs_of];
    eexists; (split; [reflexivity|]); intros r; cbn [In];
    (split; [intros H|intros [H|(l & H & I)]]); try (now destruct H); try discriminate H.
  - destruct H as [->|[]]. now left.
  - injection H as ->. now left.
  - right. now exists a.
  - injection H as ->. exact I.
Qed.

Lemma skipn_cons {A} (l : list A) n x : nth_error l n = Some x -> skipn n l = x :: skipn (S n) l.
Proof.
  revert n. induction l as [|y l IH]; intros [|n] H; try discriminate H.
  - now injection H as ->.
  - cbn [nth_error] in H. cbn [skipn]. rewrite (IH n H). reflexivity.
Qed.

Lemma refs_from_ok has mask items :
  (forall bit, bit < 64 -> tb has bit = true ->
     exists it, nth_error items (rank has bit) = Some it /\ fits (type_of_bit bit) it) ->
  forall k b, b + k = 64 ->
  exists l, refs_from (seq b k) has mask (skipn (rank has b) items) = Ok l /\
    forall r, In (Some r) l <-> exists bit it, b <= bit < 64 /\ tb mask bit = true /\ tb has bit = true /\
      nth_error items (rank has bit) = Some it /\ item_refers it r.
Proof.
  intros W. induction k as [|k IH]; intros b B; cbn [seq refs_from].
  - exists []. split; [reflexivity|]. intros r. split; [intros []|]. intros (bit & it & H & _). lia.
  - destruct (IH (S b) ltac:(lia)) as (l & E & L). assert (RS := rank_S has b).
    fold (tb has b). destruct (tb has b) eqn:T.
    + destruct (W b ltac:(lia) T) as (it & NI & FI).
      rewrite (skipn_cons _ _ _ NI). replace (S (rank has b)) with (rank has (S b)) by lia.
      fold (tb mask b).
      destruct (tb mask b) eqn:M.
      * destruct (refs_of_ok _ _ FI) as (l0 & E0 & L0). rewrite E0. cbn [bind]. rewrite E. cbn [bind].
        exists (l0 ++ l). split; [reflexivity|]. intros r. rewrite in_app_iff, L0, L. split.
        -- intros [H|(bit & it' & H1 & H2)].
           ++ exists b, it. repeat split; try assumption; lia.
           ++ exists bit, it'. split; [lia|exact H2].
        -- intros (bit & it' & H1 & H2 & H3 & H4 & H5). destruct (Nat.eq_dec bit b) as [->|N].
           ++ left. congruence.
           ++ right. exists bit, it'. repeat split; try assumption; lia.
      * cbn [bind]. rewrite E. cbn [bind app]. exists l. split; [reflexivity|]. intros r. rewrite L. split.
        -- intros (bit & it' & H1 & H2). exists bit, it'. split; [lia|exact H2].
        -- intros (bit & it' & H1 & H2 & H3). destruct (Nat.eq_dec bit b) as [->|N]; [congruence|].
           exists bit, it'. split; [lia|]. split; assumption.
    + replace (rank has b) with (rank has (S b)) by lia. rewrite E. exists l. split; [reflexivity|].
      intros r. rewrite L. split.
      * intros (bit & it' & H1 & H2). exists bit, it'. split; [lia|exact H2].
      * intros (bit & it' & H1 & H2 & H3 & H4). destruct (Nat.eq_dec bit b) as [->|N]; [congruence|].
        exists bit, it'. split; [lia|]. split; [assumption|]. split; assumption.
Qed.

Lemma lookup_item_slot has items bit it : bit < 64 ->
  lookup_item has items bit = Ok it <-> tb has bit = true /\ nth_error items (rank has bit) = Some it.
Proof.
  intros B. unfold lookup_item. rewrite slot_rank by lia. fold (tb has bit). destruct (tb has bit).
  - destruct (nth_error items (rank has bit)) as [x|]; split.
    + intros [= ->]. auto.
    + intros [_ [= ->]]. reflexivity.
    + discriminate.
    + intros [_ H]. discriminate.
  - split; [discriminate|]. intros [H _]. discriminate.
Qed.

Lemma refs_ok rg mask o : well_typed rg o ->
  exists l, refs rg mask o = Ok l /\ forall r, In (Some r) l <-> refers rg mask o r.
Proof.
  intros W. unfold refs.
  destruct (refs_from_ok (obj_has rg o) mask (o_items o)) with (k := 64) (b := 0) as (l & E & L); [|reflexivity|].
  { intros bit B T. destruct (W bit B T) as (it & E & F). apply lookup_item_slot in E; [|exact B].
    exists it. split; [apply E|exact F]. }
  exists l. split; [exact E|]. intros r. rewrite L. unfold refers, item_refers. split.
  - intros (bit & it & H1 & H2 & H3 & H4 & H5). exists bit, it. split; [lia|]. split; [exact H2|].
    split; [|exact H5]. apply lookup_item_slot; [lia|]. auto.
  - intros (bit & it & H1 & H2 & H3 & H5). exists bit, it. apply lookup_item_slot in H3; [|exact H1].
    split; [lia|]. split; [exact H2|]. split; [apply H3|]. split; [apply H3|exact H5].
Qed.

Lemma refers_mask rg mask o r : refers rg mask o r -> refers rg (N.ones 64) o r.
Proof.
  intros (bit & it & B & M & E & I). exists bit, it. split; [exact B|]. split; [|split; assumption].
  apply N.ones_spec_low. lia.
Qed.

(* ---- events ---- *)

Definition enters (ev : list event) : list oref := flat_map (fun e => match e with Enter r => [r] | Leave _ => [] end) ev.
Definition leaves (ev : list event) : list oref := flat_map (fun e => match e with Leave r => [r] | Enter _ => [] end) ev.

Lemma enters_app a b : enters (a ++ b) = enters a ++ enters b.
Proof. apply flat_map_app. Qed.
Lemma leaves_app a b : leaves (a ++ b) = leaves a ++ leaves b.
Proof. apply flat_map_app. Qed.

Lemma in_leaves ev r : In r (leaves ev) <-> In (Leave r) ev.
Proof.
  unfold leaves. rewrite in_flat_map. split.
  - intros ([x|x] & I & H); cbn in H; [destruct H|]. destruct H as [->|[]]. exact I.
  - intros I. exists (Leave r). split; [exact I|now left].
Qed.

Lemma before_app_l {A} (a b : list A) x y : before a x y -> before (a ++ b) x y.
Proof. intros (l1 & l2 & l3 & ->). exists l1, l2, (l3 ++ b). rewrite <- app_assoc. cbn. now rewrite <- app_assoc. Qed.

Lemma before_app_r {A} (a b : list A) x y : before b x y -> before (a ++ b) x y.
Proof. intros (l1 & l2 & l3 & ->). exists (a ++ l1), l2, l3. now rewrite <- app_assoc. Qed.

Lemma before_split {A} (a b : list A) x y : In x a -> In y b -> before (a ++ b) x y.
Proof.
  intros I J. apply in_split in I, J. destruct I as (a1 & a2 & ->). destruct J as (b1 & b2 & ->).
  exists a1, (a2 ++ b1), b2. rewrite <- !app_assoc. reflexivity.
Qed.

(* ---- the traversal ---- *)

Lemma oref_eqb_spec a b : oref_eqb a b = true <-> a = b.
Proof.
  unfold oref_eqb. destruct a as [a1 a2], b as [b1 b2]. cbn [fst snd]. rewrite andb_true_iff, !Nat.eqb_eq.
  split; [intros [-> ->]; reflexivity|intros [= -> ->]; auto].
Qed.

Lemma met_spec seen r : met seen r = true <-> In r seen.
Proof.
  unfold met. rewrite existsb_exists. split.
  - intros (x & I & E). apply oref_eqb_spec in E. now subst.
  - intros I. exists r. split; [exact I|now apply oref_eqb_spec].
Qed.

Lemma oref_dec (a b : oref) : {a = b} + {a <> b}.
Proof. repeat decide equality. Qed.

Lemma NoDup_app {A} (a b : list A) : NoDup a -> NoDup b -> (forall x, In x a -> ~ In x b) -> NoDup (a ++ b).
Proof.
  induction a as [|x a IH]; intros Na Nb D; [exact Nb|]. inversion Na; subst. cbn. constructor.
  - rewrite in_app_iff. intros [I|I]; [contradiction|]. exact (D x (or_introl eq_refl) I).
  - apply IH; [assumption|exact Nb|]. intros y I. apply D. now right.
Qed.

Section Visit.
Variables (rg : registry) (h : heap) (inside : oref -> bool) (mask : N).

Definition iedge (a b : oref) : Prop := edge rg h mask a b /\ inside b = true.
Definition ileads : oref -> oref -> Prop := clos_refl_trans oref iedge.
Definition valid (r : oref) : Prop := exists o, lookup rg h r = Some o.

Record good (start : oref -> Prop) (seen seen' : list oref) (ev : list event) : Prop := {
  g_nodup : NoDup seen';
  g_valid : forall x, In x seen' -> valid x;
  g_incl : incl seen seen';
  g_start : forall x, start x -> inside x = true -> In x seen';
  g_from : forall x, In x seen' -> In x seen \/ exists s, start s /\ inside s = true /\ ileads s x;
  g_closed : forall x y, In x seen' -> ~ In x seen -> iedge x y -> In y seen';
  g_enters : NoDup (enters ev) /\ forall x, In x (enters ev) <-> In x seen' /\ ~ In x seen;
  g_leaves : NoDup (leaves ev) /\ forall x, In x (leaves ev) <-> In x seen' /\ ~ In x seen;
  g_nest : forall x, In x (enters ev) -> before ev (Enter x) (Leave x);
  g_order : forall x y, In x seen' -> ~ In x seen -> iedge x y ->
    In y seen \/ before ev (Leave y) (Leave x) \/ ileads y x }.

Lemma good_nil (start : oref -> Prop) seen : NoDup seen -> (forall x, In x seen -> valid x) ->
  (forall x, start x -> inside x = true -> In x seen) -> good start seen seen [].
Proof.
  intros N V S0. constructor; auto.
  - apply incl_refl.
  - intros x y I N1. contradiction.
  - split; [constructor|]. intros x. cbn. tauto.
  - split; [constructor|]. intros x. cbn. tauto.
  - intros x [].
  - intros x y I N1. contradiction.
Qed.

Lemma good_app st1 st2 s0 s1 s2 e1 e2 : good st1 s0 s1 e1 -> good st2 s1 s2 e2 ->
  good (fun x => st1 x \/ st2 x) s0 s2 (e1 ++ e2).
Proof.
  intros G1 G2.
  assert (DX : forall x, In x s1 \/ ~ In x s1) by (intros x; destruct (in_dec oref_dec x s1); auto).
  constructor.
  - exact (g_nodup _ _ _ _ G2).
  - exact (g_valid _ _ _ _ G2).
  - eapply incl_tran; [exact (g_incl _ _ _ _ G1)|exact (g_incl _ _ _ _ G2)].
  - intros x [S1|S2] I; [apply (g_incl _ _ _ _ G2); now apply (g_start _ _ _ _ G1)|now apply (g_start _ _ _ _ G2)].
  - intros x I. destruct (g_from _ _ _ _ G2 x I) as [I1|(s & S2 & R)].
    + destruct (g_from _ _ _ _ G1 x I1) as [I0|(s & S1 & R)]; [now left|]. right. exists s. tauto.
    + right. exists s. tauto.
  - intros x y I N E. destruct (DX x) as [I1|N1].
    + apply (g_incl _ _ _ _ G2). now apply (g_closed _ _ _ _ G1) with x.
    + now apply (g_closed _ _ _ _ G2) with x.
  - destruct (g_enters _ _ _ _ G1) as [N1 M1], (g_enters _ _ _ _ G2) as [N2 M2]. rewrite enters_app. split.
    + apply NoDup_app; [exact N1|exact N2|]. intros x I J. apply M1 in I. apply M2 in J. tauto.
    + intros x. rewrite in_app_iff, M1, M2. split.
      * intros [[A B]|[A B]]; [split; [now apply (g_incl _ _ _ _ G2)|exact B]|].
        split; [exact A|]. intros C. apply B. now apply (g_incl _ _ _ _ G1).
      * intros [A B]. destruct (DX x); tauto.
  - destruct (g_leaves _ _ _ _ G1) as [N1 M1], (g_leaves _ _ _ _ G2) as [N2 M2]. rewrite leaves_app. split.
    + apply NoDup_app; [exact N1|exact N2|]. intros x I J. apply M1 in I. apply M2 in J. tauto.
    + intros x. rewrite in_app_iff, M1, M2. split.
      * intros [[A B]|[A B]]; [split; [now apply (g_incl _ _ _ _ G2)|exact B]|].
        split; [exact A|]. intros C. apply B. now apply (g_incl _ _ _ _ G1).
      * intros [A B]. destruct (DX x); tauto.
  - intros x I. rewrite enters_app in I. apply in_app_or in I. destruct I as [I|I].
    + apply before_app_l. now apply (g_nest _ _ _ _ G1).
    + apply before_app_r. now apply (g_nest _ _ _ _ G2).
  - intros x y I N E. destruct (DX x) as [I1|N1].
    + destruct (g_order _ _ _ _ G1 x y I1 N E) as [A|[A|A]]; [now left|right; left; now apply before_app_l|tauto].
    + destruct (g_order _ _ _ _ G2 x y I N1 E) as [A|[A|A]]; [|right; left; now apply before_app_r|tauto].
      destruct (in_dec oref_dec y s0) as [I0|N0]; [now left|]. right. left.
      apply before_split; apply in_leaves; [apply (g_leaves _ _ _ _ G1); auto|apply (g_leaves _ _ _ _ G2); auto].
Qed.

Lemma good_wrap (ch : oref -> Prop) r seen seen' ev :
  (forall y, ch y <-> edge rg h mask r y) -> inside r = true -> ~ In r seen ->
  good ch (r :: seen) seen' ev -> good (eq r) seen seen' (Enter r :: ev ++ [Leave r]).
Proof.
  intros CH IR NR G.
  assert (RI : In r seen') by (apply (g_incl _ _ _ _ G); now left).
  assert (RD : forall x, In x seen' -> ~ In x seen -> x = r \/ ~ In x (r :: seen)).
  { intros x I N. destruct (oref_dec x r) as [->|D]; [now left|]. right. intros [E|J]; [now symmetry in E|contradiction]. }
  assert (FR : forall x, In x seen' -> ~ In x seen -> ileads r x).
  { intros x I N. destruct (RD x I N) as [->|N']; [apply rt_refl|].
    destruct (g_from _ _ _ _ G x I) as [J|(s & S1 & S2 & S3)]; [contradiction|].
    apply rt_trans with s; [|exact S3]. apply rt_step. split; [now apply CH|exact S2]. }
  constructor.
  - exact (g_nodup _ _ _ _ G).
  - exact (g_valid _ _ _ _ G).
  - intros x I. apply (g_incl _ _ _ _ G). now right.
  - intros x <- _. exact RI.
  - intros x I. destruct (in_dec oref_dec x seen) as [J|J]; [now left|]. right. exists r. auto.
  - intros x y I N E. destruct (RD x I N) as [->|N'].
    + destruct E as [E1 E2]. apply (g_start _ _ _ _ G); [now apply CH|exact E2].
    + now apply (g_closed _ _ _ _ G) with x.
  - destruct (g_enters _ _ _ _ G) as [N1 M1].
    assert (EQ : enters (Enter r :: ev ++ [Leave r]) = r :: enters ev).
    { change (enters ([Enter r] ++ ev ++ [Leave r]) = r :: enters ev). rewrite !enters_app. cbn. now rewrite app_nil_r. }
    rewrite EQ. split.
    + constructor; [|exact N1]. intros I. apply M1 in I. destruct I as [_ I]. apply I. now left.
    + intros x. split.
      * intros [<-|I]; [auto|]. apply M1 in I. destruct I as [A B]. split; [exact A|]. intros C. apply B. now right.
      * intros [A B]. destruct (RD x A B) as [->|N']; [now left|]. right. now apply M1.
  - destruct (g_leaves _ _ _ _ G) as [N1 M1].
    assert (EQ : leaves (Enter r :: ev ++ [Leave r]) = leaves ev ++ [r]).
    { change (leaves ([Enter r] ++ ev ++ [Leave r]) = leaves ev ++ [r]). now rewrite !leaves_app. }
    rewrite EQ. split.
    + apply NoDup_app; [exact N1|constructor; [intros []|constructor]|]. intros x I [<-|[]].
      apply M1 in I. destruct I as [_ I]. apply I. now left.
    + intros x. rewrite in_app_iff. split.
      * intros [I|[<-|[]]]; [|auto]. apply M1 in I. destruct I as [A B]. split; [exact A|]. intros C. apply B. now right.
      * intros [A B]. destruct (RD x A B) as [->|N']; [right; now left|]. left. now apply M1.
  - intros x I. change (In x (enters ([Enter r] ++ ev ++ [Leave r]))) in I. rewrite !enters_app in I. cbn in I.
    destruct I as [<-|I].
    + exists [], ev, []. reflexivity.
    + rewrite app_nil_r in I. change (before ([Enter r] ++ ev ++ [Leave r]) (Enter x) (Leave x)).
      apply before_app_r, before_app_l. now apply (g_nest _ _ _ _ G).
  - intros x y I N E. change (Enter r :: ev ++ [Leave r]) with ([Enter r] ++ ev ++ [Leave r]).
    destruct (RD x I N) as [->|N'].
    + assert (YI : In y seen').
      { destruct E as [E1 E2]. apply (g_start _ _ _ _ G); [now apply CH|exact E2]. }
      destruct (in_dec oref_dec y seen) as [J|J]; [now left|]. right.
      destruct (RD y YI J) as [->|N']; [right; apply rt_refl|]. left.
      apply before_app_r, before_split; [|now left]. apply in_leaves. now apply (g_leaves _ _ _ _ G).
    + destruct (g_order _ _ _ _ G x y I N' E) as [[<-|A]|[A|A]].
      * right. right. now apply FR.
      * now left.
      * right. left. now apply before_app_r, before_app_l.
      * now repeat right.
Qed.

Lemma good_start (st st' : oref -> Prop) seen seen' ev : (forall x, st x <-> st' x) ->
  good st seen seen' ev -> good st' seen seen' ev.
Proof.
  intros E G. destruct G. constructor; auto.
  - intros x S1. apply g_start0. now apply E.
  - intros x I. destruct (g_from0 x I) as [J|(s & S1 & S2)]; [now left|]. right. exists s. split; [now apply E|exact S2].
Qed.

(* Objects that exist. *)
Definition all_refs : list oref :=
  concat (map (fun p => map (fun q => (fst p, fst q)) (place rg 0 (snd p))) (combine (seq 0 (length h)) h)).

Lemma place_length at_ objs : length (place rg at_ objs) = length objs.
Proof. revert at_. induction objs as [|o objs IH]; intros at_; cbn; [reflexivity|now rewrite IH]. Qed.

Lemma all_refs_length : length all_refs = length (concat h).
Proof.
  unfold all_refs. generalize 0 at 2. induction h as [|objs h' IH]; intros n; [reflexivity|].
  cbn [length seq combine map concat fst snd]. rewrite !app_length, map_length, place_length. f_equal. apply IH.
Qed.

Lemma combine_seq {A} (l : list A) : forall n k x, nth_error l k = Some x -> In (n + k, x) (combine (seq n (length l)) l).
Proof.
  induction l as [|y l IH]; intros n [|k] x H; try discriminate H; cbn [length seq combine].
  - injection H as ->. left. f_equal. lia.
  - right. replace (n + S k) with (S n + k) by lia. now apply IH.
Qed.

Lemma find_at_in {A} i (l : list (nat * A)) x : find_at i l = Some x -> In (i, x) l.
Proof.
  unfold find_at. destruct (find _ l) as [[j y]|] eqn:F; [|discriminate]. intros [= <-].
  apply find_some in F. destruct F as [F1 F2]. cbn in F2. apply Nat.eqb_eq in F2. cbn [snd]. now subst.
Qed.

Lemma valid_all r : valid r -> In r all_refs.
Proof.
  intros [o H]. unfold lookup in H. destruct (nth_error h (fst r)) as [objs|] eqn:N; [|discriminate].
  apply find_at_in in H. unfold all_refs. apply in_concat.
  exists (map (fun q => (fst r, fst q)) (place rg 0 objs)). split.
  - apply in_map_iff. exists (fst r, objs). split; [reflexivity|]. exact (combine_seq h 0 (fst r) objs N).
  - apply in_map_iff. exists (snd r, o). split; [now destruct r|exact H].
Qed.

Variable SD : sound rg h.

Lemma visit_each_good (f : list oref -> option oref -> res (list oref * list event)) : forall l seen B,
  (forall s r, NoDup s -> (forall x, In x s -> valid x) -> (forall x, r = Some x -> valid x) -> B <= length s ->
     exists s' ev, f s r = Ok (s', ev) /\ good (fun x => r = Some x) s s' ev) ->
  NoDup seen -> (forall x, In x seen -> valid x) -> (forall x, In (Some x) l -> valid x) -> B <= length seen ->
  exists seen' ev, visit_each f seen l = Ok (seen', ev) /\ good (fun x => In (Some x) l) seen seen' ev.
Proof.
  induction l as [|r l IH]; intros seen B F N V W L; cbn [visit_each].
  - exists seen, []. split; [reflexivity|]. apply good_nil; auto. intros x [].
  - destruct (F seen r N V) as (s1 & e1 & E1 & G1); [|exact L|].
    { intros x ->. apply W. now left. }
    rewrite E1. cbn [bind].
    destruct (IH s1 B F (g_nodup _ _ _ _ G1) (g_valid _ _ _ _ G1)) as (s2 & e2 & E2 & G2).
    { intros x I. apply W. now right. }
    { assert (X := NoDup_incl_length N (g_incl _ _ _ _ G1)). lia. }
    rewrite E2. cbn [bind]. exists s2, (e1 ++ e2). split; [reflexivity|].
    eapply good_start; [|exact (good_app _ _ _ _ _ _ _ G1 G2)]. intros x. cbn. tauto.
Qed.

Lemma visit_good : forall fuel seen r, NoDup seen -> (forall x, In x seen -> valid x) ->
  (forall x, r = Some x -> valid x) -> length (concat h) < fuel + length seen ->
  exists seen' ev, visit fuel rg h inside mask seen r = Ok (seen', ev) /\ good (fun x => r = Some x) seen seen' ev.
Proof.
  induction fuel as [|fuel IH]; intros seen r N V W L; (destruct r as [r|]; [|cbn [visit]; exists seen, [];
    split; [reflexivity|]; apply good_nil; auto; discriminate]); cbn [visit].
  all: destruct (inside r) eqn:I; cbn [negb];
    [|exists seen, []; split; [reflexivity|]; apply good_nil; auto; intros x [= <-]; congruence].
  all: destruct (met seen r) eqn:M;
    [exists seen, []; split; [reflexivity|]; apply met_spec in M; apply good_nil; auto; now intros x [= <-]|].
  all: assert (NI : ~ In r seen) by (intros X; apply met_spec in X; congruence).
  all: assert (VR : valid r) by (now apply W).
  all: assert (N' : NoDup (r :: seen)) by (now constructor).
  all: assert (LEN : length (r :: seen) <= length all_refs)
    by (apply NoDup_incl_length; [exact N'|]; intros x [<-|X]; apply valid_all; auto).
  all: rewrite all_refs_length in LEN; cbn [length] in LEN.
  - lia.
  - destruct VR as [o LO]. rewrite LO. destruct SD as [SD1 SD2].
    destruct (refs_ok rg mask o (SD1 r o LO)) as (l & E & RL). rewrite E. cbn [bind].
    assert (CH : forall y, In (Some y) l <-> edge rg h mask r y).
    { intros y. rewrite RL. unfold edge. split; [intros H; now exists o|]. intros (o' & LO' & H). congruence. }
    destruct (visit_each_good (visit fuel rg h inside mask) l (r :: seen) (S (length seen))) as (s' & ev & E' & G).
    { intros s r0 Ns Vs Ws Ls. apply IH; auto. lia. }
    { exact N'. }
    { intros x [<-|X]; [now exists o|auto]. }
    { intros x X. apply RL in X. apply refers_mask in X. apply SD2 with r. now exists o. }
    { cbn. lia. }
    rewrite E'. cbn [bind]. exists s', (Enter r :: ev ++ [Leave r]). split; [reflexivity|].
    eapply good_start; [|apply (good_wrap (fun y => In (Some y) l)); eauto].
    intros x. cbn. split; [congruence|congruence].
Qed.

End Visit.

(* A closed set with the start holds what the start leads to. *)
Lemma good_reach rg h inside mask start seen' ev : good rg h inside mask start [] seen' ev ->
  forall x, In x seen' <-> exists s, start s /\ inside s = true /\ ileads rg h inside mask s x.
Proof.
  intros G x. split.
  - intros I. destruct (g_from _ _ _ _ _ _ _ _ G x I) as [[]|H]. exact H.
  - intros (s & S1 & S2 & R). apply clos_rt_rtn1 in R.
    induction R as [|y z E R IH]; [now apply (g_start _ _ _ _ _ _ _ _ G)|].
    apply (g_closed _ _ _ _ _ _ _ _ G) with y; auto.
Qed.

(* ---- the list of calls ---- *)

Definition sel (rg : registry) (h : heap) (tag kind : nat) (r : oref) : bool :=
  match lookup rg h r with Some o => selects rg tag kind o | None => false end.

Lemma called_filter rg h tag kind ev : flat_map (called rg h tag kind) ev = filter (sel rg h tag kind) (leaves ev).
Proof.
  induction ev as [|[r|r] ev IH]; [reflexivity|exact IH|].
  cbn [flat_map called]. change (leaves (Leave r :: ev)) with (r :: leaves ev). cbn [filter].
  unfold sel at 1. rewrite IH. destruct (lookup rg h r) as [o|]; [|reflexivity]. now destruct (selects rg tag kind o).
Qed.

Lemma before_leaves ev x y : before ev (Leave x) (Leave y) -> before (leaves ev) x y.
Proof.
  intros (l1 & l2 & l3 & ->). exists (leaves l1), (leaves l2), (leaves l3).
  change (leaves (l1 ++ [Leave x] ++ l2 ++ [Leave y] ++ l3) = leaves l1 ++ x :: leaves l2 ++ y :: leaves l3).
  now rewrite !leaves_app.
Qed.

Lemma before_filter {A} (f : A -> bool) l x y : before l x y -> f x = true -> f y = true -> before (filter f l) x y.
Proof.
  intros (l1 & l2 & l3 & ->) X Y. exists (filter f l1), (filter f l2), (filter f l3).
  rewrite filter_app. cbn [filter]. rewrite X, filter_app. cbn [filter]. now rewrite Y.
Qed.

Lemma clos_impl {A} (R1 R2 : A -> A -> Prop) : (forall x y, R1 x y -> R2 x y) ->
  forall x y, clos_refl_trans A R1 x y -> clos_refl_trans A R2 x y.
Proof.
  intros H x y R. induction R as [x y R|x|x y z R1' IH1 R2' IH2]; [apply rt_step; auto|apply rt_refl|eapply rt_trans; eauto].
Qed.

(* ---- forwarding ---- *)

Section Forward.
Variables (rg : registry) (key : nat) (marked : list oref).
Let keep (p : nat * object) : bool := met marked (key, fst p).

Lemma place_low at_ objs i o : In (i, o) (place rg at_ objs) -> at_ <= i.
Proof.
  revert at_. induction objs as [|x objs IH]; intros at_ I; [destruct I|]. destruct I as [[= -> _]|I]; [lia|].
  apply IH in I. lia.
Qed.

Lemma place_in at_ objs i o : In (i, o) (place rg at_ objs) -> In o objs.
Proof.
  revert at_. induction objs as [|x objs IH]; intros at_ I; [destruct I|]. destruct I as [[= _ ->]|I]; [now left|].
  right. now apply IH in I.
Qed.

Lemma forward_loop_ok : forall objs at_ woff l w, (forall o, In o objs -> 1 <= units rg o) ->
  forward_loop rg key marked at_ woff objs = (l, w) ->
  let kept := map snd (filter keep (place rg at_ objs)) in
  map fst l = map fst (place rg at_ objs) /\
  (forall i o, In (i, o) (place rg at_ objs) -> keep (i, o) = true ->
     exists v, In (i, Some v) l /\ In (v, o) (place rg woff kept)) /\
  (forall i v, In (i, Some v) l -> woff <= v < w /\ met marked (key, i) = true) /\
  (forall i j v v', In (i, Some v) l -> In (j, Some v') l -> i < j -> v < v') /\
  w = woff + list_sum (map (units rg) kept).
Proof.
  induction objs as [|o objs IH]; intros at_ woff l w SZ E; cbn [forward_loop] in E.
  - injection E as <- <-. cbn. split; [reflexivity|]. split; [intros i o []|]. split; [intros i v []|].
    split; [intros i j v v' []|]. lia.
  - assert (SO : 1 <= units rg o) by (apply SZ; now left).
    assert (SZ' : forall x, In x objs -> 1 <= units rg x) by (intros x X; apply SZ; now right).
    assert (KE : keep (at_, o) = met marked (key, at_)) by reflexivity.
    cbn [place filter]. rewrite KE.
    destruct (met marked (key, at_)) eqn:M.
    + destruct (forward_loop rg key marked (at_ + units rg o) (woff + units rg o) objs) as [l1 w1] eqn:E1.
      injection E as <- <-. destruct (IH _ _ _ _ SZ' E1) as (A & B & C & D & F).
      cbn [map fst snd place]. split; [now f_equal|]. split; [|split; [|split]].
      * intros i x [[= <- <-]|I] K; [exists woff; split; now left|].
        destruct (B i x I K) as (v & V1 & V2). exists v. split; now right.
      * intros i v [[= <- <-]|I]; [|destruct (C i v I); split; [lia|assumption]].
        split; [|exact M]. rewrite F. cbn [map list_sum fold_right]. unfold list_sum. lia.
      * intros i j v v' [[= <- <-]|I] [[= <- <-]|J] L.
        -- lia.
        -- destruct (C _ _ J). lia.
        -- assert (X : In i (map fst (place rg (at_ + units rg o) objs)))
             by (rewrite <- A; exact (in_map fst _ _ I)).
           apply in_map_iff in X. destruct X as ([i' x] & EI & X). cbn in EI. subst i'. apply place_low in X. lia.
        -- now apply (D i j).
      * rewrite F. cbn [map list_sum fold_right]. unfold list_sum. lia.
    + destruct (forward_loop rg key marked (at_ + units rg o) woff objs) as [l1 w1] eqn:E1.
      injection E as <- <-. destruct (IH _ _ _ _ SZ' E1) as (A & B & C & D & F).
      cbn [map fst snd]. split; [now f_equal|]. split; [|split; [|split]].
      * intros i x [[= <- <-]|I] K; [congruence|].
        destruct (B i x I K) as (v & V1 & V2). exists v. split; [now right|exact V2].
      * intros i v [H|I]; [discriminate H|]. now apply C.
      * intros i j v v' [H|I] [H'|J] L; try discriminate. now apply (D i j).
      * exact F.
Qed.

Lemma place_nodup objs : (forall o, In o objs -> 1 <= units rg o) -> forall at_, NoDup (map fst (place rg at_ objs)).
Proof.
  induction objs as [|o objs IH]; intros SZ at_; cbn; constructor.
  - intros I. apply in_map_iff in I. destruct I as ([i x] & E & I). cbn in E. subst i. apply place_low in I.
    specialize (SZ o (or_introl eq_refl)). lia.
  - apply IH. intros x X. apply SZ. now right.
Qed.

End Forward.

Lemma find_at_nodup {A} i (l : list (nat * A)) x : NoDup (map fst l) -> In (i, x) l -> find_at i l = Some x.
Proof.
  unfold find_at. induction l as [|[j y] l IH]; intros N I; [destruct I|]. cbn [find fst]. inversion N as [|? ? N1 N2]; subst.
  destruct I as [[= -> ->]|I]; [now rewrite Nat.eqb_refl|].
  destruct (Nat.eqb_spec j i) as [->|D]; [|now apply IH].
  exfalso. apply N1. exact (in_map fst _ _ I).
Qed.

(* ---- deciding soundness, for examples ---- *)

Definition fitsb (t : option ityp) (it : item) : bool :=
  match t, it with
  | Some TIdent, VIdent _ | Some TObject, VObject _ | Some TArray, VArray _
  | Some TInt, VInt _ | Some TDouble, VDouble _ | Some TText, VText _ | Some TNumber, VNumber _ => true
  | _, _ => false
  end.

Definition well_typedb (rg : registry) (o : object) : bool :=
  forallb (fun b => if N.testbit (obj_has rg o) (N.of_nat b)
                    then match lookup_item (obj_has rg o) (o_items o) b with
                         | Ok it => fitsb (type_of_bit b) it
                         | Fault => false
                         end
                    else true) (seq 0 64).

Definition soundb (rg : registry) (h : heap) : bool :=
  forallb (fun r => match lookup rg h r with
                    | None => true
                    | Some o =>
                        well_typedb rg o &&
                        match refs rg (N.ones 64) o with
                        | Ok l => forallb (fun x => match x with
                                                    | Some y => match lookup rg h y with Some _ => true | None => false end
                                                    | None => true
                                                    end) l
                        | Fault => false
                        end
                    end) (all_refs rg h).

Lemma well_typedb_ok rg o : well_typedb rg o = true -> well_typed rg o.
Proof.
  intros W bit B T. unfold well_typedb in W. rewrite forallb_forall in W.
  assert (I : In bit (seq 0 64)) by (apply in_seq; lia). specialize (W bit I). rewrite T in W. clear I.
  destruct (lookup_item (obj_has rg o) (o_items o) bit) as [it|]; [|discriminate].
  exists it. split; [reflexivity|]. unfold fits, fitsb in *.
  destruct (type_of_bit bit) as [[]|], it; try discriminate W; exact I.
Qed.

Lemma soundb_ok rg h : soundb rg h = true -> sound rg h.
Proof.
  intros H. unfold soundb in H. rewrite forallb_forall in H.
  assert (H' : forall r o, lookup rg h r = Some o -> well_typed rg o /\
    exists l, refs rg (N.ones 64) o = Ok l /\ forall y, In (Some y) l -> exists o', lookup rg h y = Some o').
  { intros r o L. assert (X := H r (valid_all rg h r (ex_intro _ o L))). cbv beta in X. rewrite L in X.
    apply andb_true_iff in X. destruct X as [X1 X2]. split; [now apply well_typedb_ok|].
    destruct (refs rg (N.ones 64) o) as [l|]; [|discriminate]. exists l. split; [reflexivity|].
    intros y Y. rewrite forallb_forall in X2. specialize (X2 (Some y) Y). cbv beta iota in X2.
    destruct (lookup rg h y) as [o'|]; [now exists o'|discriminate]. }
  split; [intros r o L; now apply (H' r o L)|].
  intros a b (o & L & R). destruct (H' a o L) as (W & l & E & V). apply V.
  destruct (refs_ok rg (N.ones 64) o W) as (l' & E' & RL). rewrite E in E'. injection E' as <-. now apply RL.
Qed.
