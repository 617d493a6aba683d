(* Lemmas on the attributes of signals *)
From Coq Require Import List ZArith Arith Bool Lia.
From Verif Require Import Base SigAttrSpec SigAttrModel.
Import ListNotations.
Local Open Scope nat_scope.

(** ** Pieces *)

Definition posw (l : list nexus) : Prop := Forall (fun n => 0 < width n) l.
Definition piece (l : list nexus) (o : nat) (n : nexus) : Prop :=
  exists l1 l2, l = l1 ++ n :: l2 /\ o = total l1.

Lemma total_cons : forall n l, total (n :: l) = width n + total l.
Proof. reflexivity. Qed.
Lemma total_app : forall l1 l2, total (l1 ++ l2) = total l1 + total l2.
Proof. intros l1 l2. unfold total. rewrite map_app, list_sum_app. reflexivity. Qed.

Lemma piece_nil : forall o n, ~ piece [] o n.
Proof. intros o n (l1 & l2 & E & _). destruct l1; discriminate. Qed.
Lemma piece_cons : forall m l o n, piece (m :: l) o n <->
  (o = 0 /\ n = m) \/ (width m <= o /\ piece l (o - width m) n).
Proof.
  intros m l o n. split.
  - intros (l1 & l2 & E & ->). destruct l1 as [|x l1].
    + injection E as -> ->. left. split; reflexivity.
    + injection E as -> ->. right. rewrite total_cons. split; [lia|].
      exists l1, l2. split; [reflexivity|lia].
  - intros [(-> & ->)|(L & l1 & l2 & -> & T)].
    + exists [], l. split; reflexivity.
    + exists (m :: l1), l2. split; [reflexivity|]. rewrite total_cons. lia.
Qed.

Lemma piece_pos : forall l o n, posw l -> piece l o n -> 0 < width n.
Proof.
  intros l o n P (l1 & l2 & -> & _). unfold posw in P. rewrite Forall_forall in P.
  apply P. apply in_or_app. right. left. reflexivity.
Qed.
Lemma piece_end : forall l o n, piece l o n -> o + width n <= total l.
Proof.
  intros l o n (l1 & l2 & -> & ->). rewrite total_app, total_cons. lia.
Qed.
Lemma piece_cover : forall l i, i < total l -> exists o n, piece l o n /\ o <= i < o + width n.
Proof.
  induction l as [|m l IH]; intros i I; [cbn in I; lia|]. rewrite total_cons in I.
  destruct (le_lt_dec (width m) i) as [G|L].
  - destruct (IH (i - width m) ltac:(lia)) as (o & n & P & B).
    exists (width m + o), n. split; [|lia]. apply piece_cons. right.
    split; [lia|]. replace (width m + o - width m) with o by lia. exact P.
  - exists 0, m. split; [|lia]. apply piece_cons. left. split; reflexivity.
Qed.

(* Boundaries *)
Fixpoint bnd (x : nat) (l : list nexus) : Prop :=
  x = 0 \/ match l with [] => False | n :: l => width n <= x /\ bnd (x - width n) l end.
Lemma bnd_le : forall l x, bnd x l -> x <= total l.
Proof.
  induction l as [|n l IH]; intros x; cbn [bnd]; intros [->|H]; try lia; try contradiction.
  rewrite total_cons. destruct H as [L B]. apply IH in B. lia.
Qed.
Lemma bnd_piece : forall l x o n, bnd x l -> piece l o n -> o + width n <= x \/ x <= o.
Proof.
  induction l as [|m l IH]; intros x o n B P; [apply piece_nil in P; contradiction|].
  cbn [bnd] in B. destruct B as [->|[L B]]; [lia|]. apply piece_cons in P.
  destruct P as [(-> & ->)|(LE & P)]; [left; lia|].
  destruct (IH _ _ _ B P); [left|right]; lia.
Qed.

Lemma cut_total : forall l off, total (cut off l) = total l.
Proof.
  induction l as [|n l IH]; intros off; [reflexivity|]. cbn [cut].
  destruct (Nat.leb_spec (width n) off); [rewrite !total_cons, IH; reflexivity|].
  destruct (Nat.ltb_spec 0 off); [|reflexivity]. rewrite !total_cons. cbn [width]. lia.
Qed.
Lemma cut_pos : forall l off, posw l -> posw (cut off l).
Proof.
  induction l as [|n l IH]; intros off P; [exact P|]. inversion_clear P as [|? ? Pn Pl].
  cbn [cut]. destruct (Nat.leb_spec (width n) off).
  - constructor; [exact Pn|apply IH; exact Pl].
  - destruct (Nat.ltb_spec 0 off); repeat constructor; cbn [width]; try lia; exact Pl.
Qed.
Lemma cut_bnd : forall l off, off <= total l -> bnd off (cut off l).
Proof.
  induction l as [|n l IH]; intros off L; [cbn in L; left; lia|]. rewrite total_cons in L.
  cbn [cut]. destruct (Nat.leb_spec (width n) off).
  - cbn [bnd]. right. split; [assumption|]. apply IH. lia.
  - destruct (Nat.ltb_spec 0 off); [|cbn [bnd]; left; lia]. cbn [bnd width]. right.
    split; [lia|]. left. lia.
Qed.
Lemma bnd_cut : forall l x off, bnd x l -> bnd x (cut off l).
Proof.
  induction l as [|n l IH]; intros x off B; [exact B|]. cbn [bnd] in B.
  destruct B as [->|[L B]]; [destruct (cut off (n :: l)); left; reflexivity|].
  cbn [cut]. destruct (Nat.leb_spec (width n) off).
  - cbn [bnd]. right. split; [exact L|apply IH; exact B].
  - destruct (Nat.ltb_spec 0 off); cbn [bnd width]; right.
    + split; [lia|]. right. split; [lia|].
      replace (x - off - (width n - off)) with (x - width n) by lia. exact B.
    + split; [exact L|exact B].
Qed.
Lemma cut_piece : forall l off o n, piece (cut off l) o n ->
  exists o0 n0, piece l o0 n0 /\ o0 <= o /\ o + width n <= o0 + width n0 /\
    last_event n = last_event n0 /\ event_delta n = event_delta n0.
Proof.
  induction l as [|m l IH]; intros off o n P; [apply piece_nil in P; contradiction|].
  cbn [cut] in P. destruct (Nat.leb_spec (width m) off) as [G|G].
  - apply piece_cons in P. destruct P as [(-> & ->)|(L & P)].
    + exists 0, m. split; [apply piece_cons; left; split; reflexivity|]. repeat split; lia.
    + destruct (IH _ _ _ P) as (o0 & n0 & P0 & A & B & C & D).
      exists (width m + o0), n0. split.
      * apply piece_cons. right. split; [lia|].
        replace (width m + o0 - width m) with o0 by lia. exact P0.
      * repeat split; try lia; assumption.
  - destruct (Nat.ltb_spec 0 off).
    + apply piece_cons in P. destruct P as [(-> & ->)|(L & P)].
      * exists 0, m. split; [apply piece_cons; left; split; reflexivity|].
        cbn [width last_event event_delta]. repeat split; lia.
      * cbn [width] in *. apply piece_cons in P. destruct P as [(Z & ->)|(L2 & P)].
        -- exists 0, m. split; [apply piece_cons; left; split; reflexivity|].
           cbn [width last_event event_delta]. repeat split; lia.
        -- cbn [width] in *. exists o, n. split; [|repeat split; lia].
           apply piece_cons. right. split; [lia|].
           replace (o - width m) with (o - off - (width m - off)) by lia. exact P.
    + exists o, n. split; [exact P|]. repeat split; lia.
Qed.

Lemma from_split : forall l off, posw l -> bnd off l ->
  exists l1, l = l1 ++ from off l /\ total l1 = off.
Proof.
  induction l as [|n l IH]; intros off P B.
  - cbn [bnd] in B. destruct B as [->|[]]. exists []. split; reflexivity.
  - inversion_clear P as [|? ? Pn Pl]. cbn [bnd] in B. cbn [from].
    destruct (Nat.eqb_spec off 0) as [->|NZ]; [exists []; split; reflexivity|].
    destruct B as [E|[L B]]; [lia|]. destruct (IH _ Pl B) as (l1 & E & T).
    exists (n :: l1). split; [cbn; f_equal; exact E|]. rewrite total_cons. lia.
Qed.
Lemma piece_app_r : forall l1 l2 o n, piece l2 o n -> piece (l1 ++ l2) (total l1 + o) n.
Proof.
  intros l1 l2 o n (x & y & -> & ->). exists (l1 ++ x), y.
  split; [rewrite <- app_assoc; reflexivity|]. rewrite total_app. reflexivity.
Qed.
Lemma piece_app_inv : forall l1 l2 o n, posw (l1 ++ l2) -> piece (l1 ++ l2) o n -> total l1 <= o ->
  piece l2 (o - total l1) n.
Proof.
  induction l1 as [|m l1 IH]; intros l2 o n P H L.
  - cbn in *. replace (o - 0) with o by lia. exact H.
  - cbn [app] in *. inversion_clear P as [|? ? Pn Pl]. rewrite total_cons in *.
    apply piece_cons in H. destruct H as [(-> & ->)|(LE & H)]; [lia|].
    replace (o - (width m + total l1)) with (o - width m - total l1) by lia.
    apply IH; [exact Pl|exact H|lia].
Qed.
Lemma bnd_app : forall l1 l2 x, posw (l1 ++ l2) -> bnd (total l1 + x) (l1 ++ l2) -> bnd x l2.
Proof.
  induction l1 as [|m l1 IH]; intros l2 x P H; [exact H|].
  cbn [app] in *. inversion_clear P as [|? ? Pn Pl]. rewrite total_cons in *.
  cbn [bnd] in H. destruct H as [E|[_ H]]; [lia|]. apply IH; [exact Pl|].
  replace (width m + total l1 + x - width m) with (total l1 + x) in H by lia. exact H.
Qed.

(** ** Scans *)

Lemma any_ok : forall s l count, posw l -> bnd count l ->
  exists r, any_event s l count = Ok r /\
    (r = true -> exists o n, piece l o n /\ o + width n <= count /\ nexus_event s n = true) /\
    (r = false -> forall o n, piece l o n -> o < count -> nexus_event s n = false).
Proof.
  intros s. induction l as [|m l IH]; intros count P B.
  - cbn [bnd] in B. destruct B as [->|[]]. exists false. split; [reflexivity|].
    split; [discriminate|]. intros _ o n X. apply piece_nil in X. contradiction.
  - inversion_clear P as [|? ? Pn Pl]. cbn [any_event].
    destruct (Nat.eqb_spec count 0) as [->|NZ].
    { exists false. split; [reflexivity|]. split; [discriminate|]. intros _ o n _ X. lia. }
    cbn [bnd] in B. destruct B as [E|[L B]]; [lia|].
    destruct (nexus_event s m) eqn:EV.
    { exists true. split; [reflexivity|]. split; [|discriminate]. intros _. exists 0, m.
      split; [apply piece_cons; left; split; reflexivity|]. split; [lia|exact EV]. }
    rewrite (proj2 (Nat.ltb_ge count (width m)) L).
    destruct (IH _ Pl B) as (r & E & T & F). exists r. split; [exact E|]. split.
    + intros R. destruct (T R) as (o & n & X & Y & Z). exists (width m + o), n.
      split; [|split; [lia|exact Z]]. apply piece_cons. right. split; [lia|].
      replace (width m + o - width m) with o by lia. exact X.
    + intros R o n X Y. apply piece_cons in X. destruct X as [(_ & ->)|(LE & X)]; [exact EV|].
      apply (F R (o - width m) n X). lia.
Qed.

Lemma min_ok : forall s l count last, posw l -> bnd count l ->
  exists r, min_last s l count last = Ok r /\ (r <= last)%Z /\
    (forall o n, piece l o n -> o < count -> (last_event n <= now s)%Z ->
       (r <= now s - last_event n)%Z) /\
    (r = last \/ exists o n, piece l o n /\ o + width n <= count /\ (last_event n <= now s)%Z /\
       r = (now s - last_event n)%Z).
Proof.
  intros s. induction l as [|m l IH]; intros count last P B.
  - cbn [bnd] in B. destruct B as [->|[]]. exists last. split; [reflexivity|].
    split; [lia|]. split; [|left; reflexivity]. intros o n X. apply piece_nil in X. contradiction.
  - inversion_clear P as [|? ? Pn Pl]. cbn [min_last].
    destruct (Nat.eqb_spec count 0) as [->|NZ].
    { exists last. split; [reflexivity|]. split; [lia|]. split; [|left; reflexivity].
      intros o n _ X. lia. }
    cbn [bnd] in B. destruct B as [E|[L B]]; [lia|].
    rewrite (proj2 (Nat.ltb_ge count (width m)) L).
    set (last' := if (last_event m <=? now s)%Z then Z.min last (now s - last_event m) else last).
    destruct (IH _ last' Pl B) as (r & E & T & F & G). exists r. split; [exact E|].
    assert (last' <= last)%Z as L1 by (unfold last'; destruct (last_event m <=? now s)%Z; lia).
    split; [lia|]. split.
    + intros o n X Y W. apply piece_cons in X. destruct X as [(_ & ->)|(LE & X)].
      * unfold last' in T. rewrite (proj2 (Z.leb_le _ _) W) in T. lia.
      * apply (F (o - width m) n X); [lia|exact W].
    + destruct G as [->|(o & n & X & Y & W & R)].
      * unfold last'. destruct (Z.leb_spec (last_event m) (now s)); [|left; reflexivity].
        destruct (Z.min_spec last (now s - last_event m)) as [[_ ->]|[_ ->]]; [left; reflexivity|].
        right. exists 0, m. split; [apply piece_cons; left; split; reflexivity|].
        split; [lia|]. split; [assumption|reflexivity].
      * right. exists (width m + o), n. split; [|split; [lia|split; [exact W|exact R]]].
        apply piece_cons. right. split; [lia|].
        replace (width m + o - width m) with o by lia. exact X.
Qed.

Lemma replace_ok : forall f l off len l', posw l ->
  (forall n n', f n = Ok n' -> width n' = width n) ->
  replace off len f l = Ok l' ->
  exists n n', piece l off n /\ width n = len /\ f n = Ok n' /\
    posw l' /\ total l' = total l /\ (forall x, bnd x l <-> bnd x l') /\
    (forall o m, piece l' o m -> (o = off /\ m = n') \/
       (piece l o m /\ (o + width m <= off \/ off + len <= o))).
Proof.
  intros f. induction l as [|m l IH]; intros off len l' P W R; cbn [replace] in R; [discriminate|].
  inversion_clear P as [|? ? Pn Pl].
  destruct (Nat.eqb_spec off 0) as [->|NZ].
  - destruct (Nat.eqb_spec (width m) len) as [<-|]; [|discriminate].
    destruct (f m) as [n'|] eqn:E; [|discriminate]. cbn [bind] in R. injection R as <-.
    pose proof (W _ _ E) as WE. exists m, n'.
    split; [apply piece_cons; left; split; reflexivity|]. split; [reflexivity|].
    split; [exact E|]. split; [constructor; [lia|exact Pl]|].
    split; [rewrite !total_cons; lia|]. split; [intros x; cbn [bnd]; rewrite WE; reflexivity|].
    intros o k X. apply piece_cons in X. destruct X as [(-> & ->)|(LE & X)].
    + left. split; reflexivity.
    + right. rewrite WE in *. split; [|lia]. apply piece_cons. right. split; [exact LE|exact X].
  - destruct (Nat.ltb_spec off (width m)); [discriminate|].
    destruct (replace (off - width m) len f l) as [l2|] eqn:E; [|discriminate].
    cbn [bind] in R. injection R as <-.
    destruct (IH _ _ _ Pl W E) as (n & n' & A & B & C & D & F & G & H1).
    exists n, n'. split; [apply piece_cons; right; split; assumption|].
    split; [exact B|]. split; [exact C|]. split; [constructor; assumption|].
    split; [rewrite !total_cons; lia|].
    split; [intros x; cbn [bnd]; rewrite G; reflexivity|].
    intros o k X. apply piece_cons in X. destruct X as [(-> & ->)|(LE & X)].
    + right. split; [apply piece_cons; left; split; reflexivity|]. left. lia.
    + destruct (H1 _ _ X) as [(Y & ->)|(Y & Z)].
      * left. split; [lia|reflexivity].
      * right. split; [apply piece_cons; right; split; assumption|]. lia.
Qed.

(** ** Moments and histories *)
Local Open Scope Z_scope.

Definition mle (a b : moment) : Prop :=
  m_time a < m_time b \/ (m_time a = m_time b /\ m_delta a <= m_delta b).
Definition mlt (a b : moment) : Prop :=
  m_time a < m_time b \/ (m_time a = m_time b /\ m_delta a < m_delta b).
Definition ole (a b : option moment) : Prop :=
  match a, b with
  | None, _ => True
  | Some _, None => False
  | Some a, Some b => mle a b
  end.
Lemma ole_refl : forall a, ole a a.
Proof. intros [a|]; cbn; [unfold mle; lia|exact Logic.I]. Qed.
Lemma ole_trans : forall a b c, ole a b -> ole b c -> ole a c.
Proof.
  intros [a|] [b|] [c|]; cbn; unfold mle; intros; try contradiction; try exact Logic.I; lia.
Qed.
Lemma ole_antisym : forall a b, ole a b -> ole b a -> a = b.
Proof.
  intros [[t d]|] [[t' d']|]; cbn; unfold mle; cbn; intros; try contradiction; try reflexivity.
  assert (t = t') by lia. assert (d = d') by lia. subst. reflexivity.
Qed.

Definition lc (a n : nat) (init : value) (h : history) : option moment :=
  option_map fst (last_change a n init h).

(* The moments of a history go down *)
Fixpoint downward (h : history) : Prop :=
  match h with
  | [] => True
  | (m, _) :: h => (forall m' v, In (m', v) h -> mlt m' m) /\ downward h
  end.

Lemma same_spec : forall a n v v', same a n v v' = true <->
  (forall i, (a <= i < a + n)%nat -> v i = v' i).
Proof.
  intros a n v v'. unfold same. rewrite forallb_forall. split.
  - intros H i I. apply Z.eqb_eq, H, in_seq. lia.
  - intros H i I. apply in_seq in I. apply Z.eqb_eq, H. lia.
Qed.
Lemma same_sub : forall o w a n v v', (a <= o)%nat -> (o + w <= a + n)%nat ->
  same a n v v' = true -> same o w v v' = true.
Proof.
  intros o w a n v v' A B H. rewrite same_spec in *. intros i I. apply H. lia.
Qed.
Lemma same_ext : forall a n v v' u, (forall i, (a <= i < a + n)%nat -> v i = v' i) ->
  same a n v u = same a n v' u.
Proof.
  intros a n v v' u H. apply eq_true_iff_eq. rewrite !same_spec.
  split; intros G i I; rewrite <- G by exact I; [symmetry|]; apply H; exact I.
Qed.

Lemma lc_in : forall a n init h m, lc a n init h = Some m -> exists v, In (m, v) h.
Proof.
  intros a n init. unfold lc. induction h as [|[m v] h IH]; intros m' H; [discriminate|].
  cbn [last_change] in H. destruct (same a n v (current init h)).
  - destruct (IH _ H) as [v' I]. exists v'. right. exact I.
  - cbn in H. injection H as <-. exists v. left. reflexivity.
Qed.
Lemma lc_head : forall a n init m v h, downward ((m, v) :: h) ->
  ole (lc a n init ((m, v) :: h)) (Some m).
Proof.
  intros a n init m v h [D _]. destruct (lc a n init ((m, v) :: h)) as [m'|] eqn:E; [|exact Logic.I].
  apply lc_in in E. destruct E as [u [E|E]]; [injection E as -> ->; apply (ole_refl (Some m'))|].
  apply D in E. cbn. unfold mle, mlt in *. lia.
Qed.
Lemma lc_head_eq : forall a n init m v h, downward ((m, v) :: h) ->
  (lc a n init ((m, v) :: h) = Some m <-> same a n v (current init h) = false).
Proof.
  intros a n init m v h [D _]. unfold lc. cbn [last_change].
  destruct (same a n v (current init h)); [|split; reflexivity].
  split; [|discriminate]. intros E. apply (lc_in a n init h m) in E. destruct E as [u E].
  apply D in E. unfold mlt in E. lia.
Qed.
Lemma lc_sub : forall init h o w a n, downward h -> (a <= o)%nat -> (o + w <= a + n)%nat ->
  ole (lc o w init h) (lc a n init h).
Proof.
  intros init. induction h as [|[m v] h IH]; intros o w a n D A B; [exact Logic.I|].
  unfold lc at 2. cbn [last_change].
  destruct (same a n v (current init h)) eqn:E.
  - unfold lc at 1. cbn [last_change]. rewrite (same_sub o w a n _ _ A B E).
    destruct D as [_ D]. apply IH; assumption.
  - cbn [option_map fst]. apply lc_head. exact D.
Qed.
Lemma lc_ext : forall a n init m v v' h, (forall i, (a <= i < a + n)%nat -> v i = v' i) ->
  lc a n init ((m, v) :: h) = lc a n init ((m, v') :: h).
Proof.
  intros a n init m v v' h H. unfold lc. cbn [last_change].
  rewrite (same_ext a n v v' _ H). reflexivity.
Qed.
Lemma last_change_ext : forall a n init m v v' h, (forall i, (a <= i < a + n)%nat -> v i = v' i) ->
  last_change a n init ((m, v) :: h) = last_change a n init ((m, v') :: h).
Proof.
  intros a n init m v v' h H. cbn [last_change].
  rewrite (same_ext a n v v' _ H). reflexivity.
Qed.

(** ** The invariant *)

Definition ev (n : nexus) : option moment :=
  if last_event n =? TIME_HIGH then None else Some (At (last_event n) (event_delta n)).
Definition clk (s : state) : moment := At (now s) (iteration s).

Record inv (w a b : nat) (init : value) (h : history) (s : state) : Prop := Inv {
  i_pos : posw (chain s);
  i_tot : total (chain s) = w;
  i_ab : (a <= b)%nat;
  i_a : bnd a (chain s);
  i_b : bnd b (chain s);
  i_clk : moment_of h = clk s;
  i_eff : forall i, eff s i = current init h i;
  i_down : downward h;
  i_old : forall m v, In (m, v) h -> 0 <= m_time m;
  i_now : 0 <= now s < time_high;
  i_it : -1 <= iteration s < 65536 /\ (h <> [] -> 0 <= iteration s);
  i_low : forall o n, piece (chain s) o n -> ole (lc o (width n) init h) (ev n);
  i_top : forall o n, piece (chain s) o n -> ole (ev n) (Some (clk s));
  i_up : forall o n, piece (chain s) o n -> (a <= o)%nat -> (o + width n <= b)%nat ->
           ole (ev n) (lc a (b - a) init h);
  i_last : forall n, piece (chain s) a n -> (a + width n = b)%nat ->
           forall i, (a <= i < b)%nat ->
           lastv s i = match last_change a (b - a) init h with
                       | Some (_, v) => v i | None => current init h i end;
  i_cache : cache s = true -> w = 1%nat;
  i_flag : flag s = true -> cache s = true }.

Definition pre (s : state) : Prop :=
  cache s = true -> forall o n, piece (chain s) o n -> nexus_event s n = true -> flag s = true.
Definition synced (s : state) : Prop :=
  cache s = true -> forall o n, piece (chain s) o n -> flag s = nexus_event s n.

Lemma event_ev : forall s n, now s < time_high ->
  (nexus_event s n = true <-> ev n = Some (clk s)).
Proof.
  intros s n L. unfold nexus_event, ev, clk. rewrite andb_true_iff, !Z.eqb_eq.
  change TIME_HIGH with time_high. split.
  - intros [A B]. rewrite (proj2 (Z.eqb_neq (last_event n) time_high)) by lia.
    rewrite A, B. reflexivity.
  - destruct (Z.eqb_spec (last_event n) time_high); [discriminate|]. intros [= A B].
    split; assumption.
Qed.

Lemma current_same : forall a n v, same a n v v = true.
Proof. intros a n v. apply same_spec. reflexivity. Qed.
Lemma last_change_still : forall a n init m h,
  last_change a n init ((m, current init h) :: h) = last_change a n init h.
Proof. intros a n init m h. cbn [last_change]. rewrite current_same. reflexivity. Qed.

Definition nxt (st : step) : next := match st with Delta => NextDelta | Advance d => NextTime d end.

Lemma begin_inv : forall w a b init h s st, inv w a b init h s ->
  forward (nxt st) -> m_time (after (moment_of h) (nxt st)) < time_high ->
  m_delta (after (moment_of h) (nxt st)) < 65536 ->
  inv w a b init ((after (moment_of h) (nxt st), current init h) :: h) (begin_cycle s st) /\
  pre (begin_cycle s st).
Proof.
  intros w a b init h s st I F TL DL. pose proof (i_clk _ _ _ _ _ _ I) as CK. rewrite CK in *.
  assert (mlt (clk s) (after (clk s) (nxt st))) as LT
    by (unfold mlt, clk; destruct st; cbn in *; lia).
  assert (clk (begin_cycle s st) = after (clk s) (nxt st)) as CB by (destruct st; reflexivity).
  assert (chain (begin_cycle s st) = chain s /\ eff (begin_cycle s st) = eff s /\
          lastv (begin_cycle s st) = lastv s /\ cache (begin_cycle s st) = cache s /\
          flag (begin_cycle s st) = flag s) as (EC & EE & EL & EH & EF)
    by (destruct st; repeat split).
  assert (0 <= now (begin_cycle s st) < time_high) as NW.
  { pose proof (i_now _ _ _ _ _ _ I). destruct st; cbn in *; lia. }
  assert (0 <= iteration (begin_cycle s st) < 65536) as IW.
  { pose proof (i_it _ _ _ _ _ _ I) as [? _]. destruct st; cbn in *; lia. }
  assert (forall o n, piece (chain s) o n -> ole (ev n) (Some (after (clk s) (nxt st))) /\
            ev n <> Some (after (clk s) (nxt st))) as TP.
  { intros o n P. pose proof (i_top _ _ _ _ _ _ I o n P) as T. destruct (ev n) as [m|]; cbn in T.
    - cbn. unfold mle, mlt in *. split; [lia|]. intros [= ->]. lia.
    - split; [exact Logic.I|discriminate]. }
  split.
  - constructor; rewrite ?EC, ?EE, ?EL, ?EH, ?EF; try apply I.
    + symmetry. exact CB.
    + split; [|apply I]. intros m v IN. pose proof (i_down _ _ _ _ _ _ I) as D.
      destruct h as [|[m0 v0] h]; [destruct IN|]. cbn [moment_of] in CK. subst m0.
      destruct IN as [E|IN]; [injection E as <- _; exact LT|]. destruct D as [D _].
      apply D in IN. unfold mlt in *. lia.
    + intros m v [E|IN]; [injection E as <- _; rewrite <- CB; cbn [clk m_time]; lia|].
      apply (i_old _ _ _ _ _ _ I m v IN).
    + exact NW.
    + split; [lia|]. intros _. lia.
    + intros o n P. unfold lc. rewrite last_change_still. apply (i_low _ _ _ _ _ _ I o n P).
    + intros o n P. rewrite CB. apply (TP o n P).
    + intros o n P A B. unfold lc. rewrite last_change_still. apply (i_up _ _ _ _ _ _ I o n P A B).
    + intros n P E i L. rewrite last_change_still. apply (i_last _ _ _ _ _ _ I n P E i L).
  - intros _ o n P E. rewrite EC in P. apply event_ev in E; [|apply NW]. rewrite CB in E.
    destruct (TP o n P) as [_ N]. contradiction.
Qed.

Lemma write_in : forall off vs v i, (off <= i < off + length vs)%nat ->
  assign off vs v i = nth (i - off) vs 0.
Proof.
  intros off vs v i I. unfold assign. rewrite (proj2 (Nat.leb_le off i)) by lia.
  rewrite (proj2 (Nat.ltb_lt i (off + length vs))) by lia. reflexivity.
Qed.
Lemma write_out : forall off vs v i, ~ (off <= i < off + length vs)%nat -> assign off vs v i = v i.
Proof.
  intros off vs v i I. unfold assign.
  destruct (Nat.leb_spec off i); [|reflexivity].
  destruct (Nat.ltb_spec i (off + length vs)); [lia|reflexivity].
Qed.

Lemma forallb_false : forall {A : Type} (f : A -> bool) l, forallb f l = false ->
  exists i, In i l /\ f i = false.
Proof.
  intros A f l. induction l as [|x l IH]; cbn; [discriminate|].
  destruct (f x) eqn:FX; [|intros _; exists x; split; [left; reflexivity|exact FX]].
  intros H. destruct (IH H) as (i & P & Q). exists i. split; [right; exact P|exact Q].
Qed.

Lemma put_inv : forall w a b init h m v s off vs s',
  inv w a b init ((m, v) :: h) s -> pre s -> put_effective s off vs = Ok s' ->
  inv w a b init ((m, assign off vs v) :: h) s' /\ pre s'.
Proof.
  intros w a b init h m v s off vs s' I PR E. unfold put_effective in E.
  pose proof (i_clk _ _ _ _ _ _ I) as CK. cbn [moment_of] in CK.
  pose proof (i_now _ _ _ _ _ _ I) as NW.
  assert (forall u, downward ((m, u) :: h)) as DW by (intros u; exact (i_down _ _ _ _ _ _ I)).
  assert (forall m' v', In (m', v') ((m, assign off vs v) :: h) -> 0 <= m_time m') as OLDM.
  { intros m' v' [X|X]; [injection X as <- _; apply (i_old _ _ _ _ _ _ I m v); left; reflexivity|].
    apply (i_old _ _ _ _ _ _ I m' v'). right. exact X. }
  destruct (forallb _ _) eqn:EQ.
  - destruct (replace _ _ _ _); [|discriminate]. cbn [bind] in E. injection E as <-.
    split; [|exact PR].
    assert (forall i, v i = assign off vs v i) as SAME.
    { intros i. destruct (le_lt_dec off i) as [G|G].
      - destruct (le_lt_dec (off + length vs) i) as [G2|G2]; [rewrite write_out by lia; reflexivity|].
        rewrite write_in by lia. rewrite forallb_forall in EQ.
        specialize (EQ i ltac:(apply in_seq; lia)). apply Z.eqb_eq in EQ.
        pose proof (i_eff _ _ _ _ _ _ I i) as EF. cbn [current] in EF. rewrite <- EF. exact EQ.
      - rewrite write_out by lia. reflexivity. }
    constructor; try apply I.
    + intros i. cbn [current]. rewrite <- SAME. apply (i_eff _ _ _ _ _ _ I i).
    + exact OLDM.
    + destruct (i_it _ _ _ _ _ _ I) as [A B]. split; [exact A|]. intros _. apply B. discriminate.
    + intros o n P. rewrite <- (lc_ext o (width n) init m v) by (intros; apply SAME).
      apply (i_low _ _ _ _ _ _ I o n P).
    + intros o n P A B. rewrite <- (lc_ext a (b - a) init m v) by (intros; apply SAME).
      apply (i_up _ _ _ _ _ _ I o n P A B).
    + intros n P X i L. rewrite <- (last_change_ext a (b - a) init m v) by (intros; apply SAME).
      cbn [current]. rewrite <- SAME. apply (i_last _ _ _ _ _ _ I n P X i L).
  - destruct (replace off (length vs) (notify_event s) (chain s)) as [c|] eqn:R; [|discriminate].
    cbn [bind] in E. injection E as <-.
    assert (forall n n', notify_event s n = Ok n' -> width n' = width n) as WN.
    { intros n n' N. unfold notify_event in N. destruct (nexus_event s n); [discriminate|].
      injection N as <-. reflexivity. }
    destruct (replace_ok _ _ _ _ _ (i_pos _ _ _ _ _ _ I) WN R)
      as (n & n' & PN & WL & NF & PC & TC & BC & PP).
    unfold notify_event in NF. destruct (nexus_event s n) eqn:NE; [discriminate|].
    injection NF as <-. set (n' := Nexus (width n) (now s) (delta_cycle (iteration s))) in *.
    destruct (i_it _ _ _ _ _ _ I) as [IT IP]. specialize (IP ltac:(discriminate)).
    assert (ev n' = Some m) as EV.
    { unfold ev, n'. cbn [last_event event_delta]. change TIME_HIGH with time_high.
      rewrite (proj2 (Z.eqb_neq (now s) time_high)) by lia. unfold delta_cycle.
      rewrite Z.mod_small by lia. rewrite CK. reflexivity. }
    (* the slice had not changed in this cycle, and now it has *)
    assert (same off (length vs) v (current init h) = true) as OLD.
    { destruct (same off (length vs) v (current init h)) eqn:S; [reflexivity|].
      apply (lc_head_eq off (length vs) init m v h (DW v)) in S.
      pose proof (i_low _ _ _ _ _ _ I off n PN) as LO. rewrite WL, S in LO.
      pose proof (i_top _ _ _ _ _ _ I off n PN) as TO. rewrite <- CK in TO.
      pose proof (ole_antisym _ _ TO LO) as EE. rewrite CK in EE.
      apply event_ev in EE; [|lia]. congruence. }
    assert (exists i, (off <= i < off + length vs)%nat /\
              assign off vs v i <> current init h i) as (i0 & I0 & D0).
    { assert (exists i, In i (seq off (length vs)) /\ (eff s i =? nth (i - off) vs 0) = false)
        as (i & IN & NQ).
      { exact (forallb_false _ _ EQ). }
      apply in_seq in IN. exists i. split; [lia|]. rewrite write_in by lia.
      apply Z.eqb_neq in NQ. rewrite same_spec in OLD. rewrite <- (OLD i) by lia.
      pose proof (i_eff _ _ _ _ _ _ I i) as EF. cbn [current] in EF. rewrite <- EF. congruence. }
    assert (forall x k, (x <= off)%nat -> (off + length vs <= x + k)%nat ->
              same x k (assign off vs v) (current init h) = false) as NEW.
    { intros x k A B. destruct (same x k (assign off vs v) (current init h)) eqn:S; [|reflexivity].
      rewrite same_spec in S. rewrite (S i0) in D0 by lia. contradiction. }
    assert (forall x k, ((x + k <= off) \/ (off + length vs <= x))%nat ->
              forall i, (x <= i < x + k)%nat -> v i = assign off vs v i) as OUT.
    { intros x k O i L. rewrite write_out by lia. reflexivity. }
    (* the part watched can only have changed more recently *)
    assert (ole (lc a (b - a) init ((m, v) :: h))
                (lc a (b - a) init ((m, assign off vs v) :: h))) as MORE.
    { destruct (bnd_piece _ _ _ _ (i_a _ _ _ _ _ _ I) PN) as [A|A];
      [rewrite (lc_ext a (b - a) init m v (assign off vs v))
         by (apply OUT; right; lia); apply ole_refl|].
      destruct (bnd_piece _ _ _ _ (i_b _ _ _ _ _ _ I) PN) as [B|B];
      [|rewrite (lc_ext a (b - a) init m v (assign off vs v))
         by (apply OUT; left; pose proof (i_ab _ _ _ _ _ _ I); lia); apply ole_refl].
      rewrite WL in B.
      rewrite (proj2 (lc_head_eq a (b - a) init m (assign off vs v) h (DW _))
                 (NEW a (b - a)%nat A ltac:(lia))).
      apply lc_head. apply DW. }
    split.
    + constructor; cbn [chain eff lastv cache flag now iteration].
      * exact PC.
      * rewrite TC. apply I.
      * apply I.
      * apply BC. apply I.
      * apply BC. apply I.
      * exact CK.
      * intros i. cbn [current]. change (write off vs (eff s) i) with (assign off vs (eff s) i).
        destruct (le_lt_dec off i) as [G|G]; [|rewrite !write_out by lia; apply (i_eff _ _ _ _ _ _ I i)].
        destruct (le_lt_dec (off + length vs) i) as [G2|G2];
          [rewrite !write_out by lia; apply (i_eff _ _ _ _ _ _ I i)|].
        rewrite !write_in by lia. reflexivity.
      * apply DW.
      * exact OLDM.
      * exact NW.
      * split; [exact IT|]. intros _. exact IP.
      * intros o k P. destruct (PP o k P) as [(-> & ->)|(P0 & O)].
        -- rewrite EV. apply lc_head. apply DW.
        -- rewrite <- (lc_ext o (width k) init m v) by (apply OUT; lia).
           apply (i_low _ _ _ _ _ _ I o k P0).
      * intros o k P. change (clk _) with (clk s).
        destruct (PP o k P) as [(-> & ->)|(P0 & O)].
        -- rewrite EV, CK. apply ole_refl.
        -- apply (i_top _ _ _ _ _ _ I o k P0).
      * intros o k P A B. destruct (PP o k P) as [(-> & ->)|(P0 & O)].
        -- rewrite EV. unfold n' in B. cbn [width] in B.
           rewrite (proj2 (lc_head_eq a (b - a) init m (assign off vs v) h (DW _))
                      (NEW a (b - a)%nat A ltac:(lia))). apply ole_refl.
        -- apply ole_trans with (lc a (b - a) init ((m, v) :: h)); [|exact MORE].
           apply (i_up _ _ _ _ _ _ I o k P0 A B).
      * intros k P X i L. destruct (PP a k P) as [(-> & ->)|(P0 & O)].
        -- unfold n' in X. cbn [width] in X. cbn [last_change].
           rewrite (NEW off (b - off)%nat) by lia.
           unfold copy. rewrite (proj2 (Nat.leb_le off i)) by lia.
           rewrite (proj2 (Nat.ltb_lt i (off + length vs))) by lia. cbn [andb].
           rewrite (i_eff _ _ _ _ _ _ I i). cbn [current]. rewrite same_spec in OLD.
           apply OLD. lia.
        -- rewrite <- (last_change_ext a (b - a) init m v) by (apply OUT; lia).
           cbn [current]. rewrite <- (OUT a (b - a)%nat) by lia.
           unfold copy.
           assert ((off <=? i)%nat && (i <? off + length vs)%nat = false) as ->.
           { destruct (Nat.leb_spec off i); [|reflexivity].
             destruct (Nat.ltb_spec i (off + length vs)); [lia|reflexivity]. }
           apply (i_last _ _ _ _ _ _ I k P0 X i L).
      * apply I.
      * intros F. destruct (flag s) eqn:FS; [apply I; exact FS|exact F].
    + intros C o k P EK. cbn [cache flag] in *. rewrite C. apply orb_true_r.
Qed.

Lemma updates_inv : forall us w a b init h m v s s',
  inv w a b init ((m, v) :: h) s -> pre s -> updates s us = Ok s' ->
  inv w a b init ((m, assigns us v) :: h) s' /\ pre s'.
Proof.
  induction us as [|[off vs] us IH]; intros w a b init h m v s s' I PR E; cbn [updates] in E.
  - injection E as <-. split; assumption.
  - destruct (put_effective s off vs) as [s1|] eqn:P; [|discriminate]. cbn [bind] in E.
    destruct (put_inv _ _ _ _ _ _ _ _ _ _ _ I PR P) as [I1 PR1].
    cbn [assigns]. apply (IH _ _ _ _ _ _ _ _ _ I1 PR1 E).
Qed.

Lemma one_piece : forall l, posw l -> total l = 1%nat -> exists n, l = [n] /\ width n = 1%nat.
Proof.
  intros [|n l] P T; [discriminate|]. inversion_clear P as [|? ? Pn Pl].
  rewrite total_cons in T. destruct l as [|k l]; [exists n; cbn in T; split; [reflexivity|lia]|].
  inversion_clear Pl. rewrite total_cons in T. lia.
Qed.

Lemma sync_inv : forall w a b init h s, inv w a b init h s -> pre s ->
  exists s', sync_event_cache s = Ok s' /\ inv w a b init h s' /\ synced s'.
Proof.
  intros w a b init h s I PR. unfold sync_event_cache.
  destruct (cache s) eqn:C; [|exists s; split; [reflexivity|]; split; [exact I|];
                              intros X; congruence].
  destruct (one_piece (chain s) (i_pos _ _ _ _ _ _ I)) as (n & E & WN).
  { rewrite (i_tot _ _ _ _ _ _ I). apply (i_cache _ _ _ _ _ _ I C). }
  rewrite E.
  assert (piece (chain s) 0 n) as PN by (rewrite E; apply piece_cons; left; split; reflexivity).
  assert (forall o k, piece (chain s) o k -> k = n) as UN.
  { intros o k P. rewrite E in P. apply piece_cons in P. destruct P as [(_ & ->)|(_ & P)];
    [reflexivity|apply piece_nil in P; contradiction]. }
  destruct (nexus_event s n) eqn:EV.
  - rewrite (PR C 0%nat n PN EV). exists s. split; [reflexivity|]. split; [exact I|].
    intros _ o k P. rewrite (UN o k P), EV. apply (PR C 0%nat n PN EV).
  - exists (with_flag s true false). split; [reflexivity|]. split.
    + constructor; cbn [with_flag chain eff lastv cache flag now iteration]; try apply I.
      * intros _. apply (i_cache _ _ _ _ _ _ I C).
      * reflexivity.
    + intros _ o k P. cbn [with_flag chain flag] in *. rewrite (UN o k P). symmetry. exact EV.
Qed.

Lemma split_inv : forall w a b init h s x y, inv w a b init h s ->
  inv w a b init h (split_nexus s x y).
Proof.
  intros w a b init h s x y I. unfold split_nexus.
  assert (forall c off, 
    (forall o n, piece c o n -> exists o0 n0, piece (chain s) o0 n0 /\ (o0 <= o)%nat /\
       (o + width n <= o0 + width n0)%nat /\ ev n = ev n0) ->
    (forall o n, piece (cut off c) o n -> exists o0 n0, piece (chain s) o0 n0 /\ (o0 <= o)%nat /\
       (o + width n <= o0 + width n0)%nat /\ ev n = ev n0)) as ST.
  { intros c off H o n P. apply cut_piece in P. destruct P as (o1 & n1 & P1 & A & B & C & D).
    destruct (H o1 n1 P1) as (o0 & n0 & P0 & A0 & B0 & C0). exists o0, n0.
    split; [exact P0|]. split; [lia|]. split; [lia|]. rewrite <- C0. unfold ev.
    rewrite C, D. reflexivity. }
  assert (forall o n, piece (cut (x + y) (cut x (chain s))) o n ->
    exists o0 n0, piece (chain s) o0 n0 /\ (o0 <= o)%nat /\
       (o + width n <= o0 + width n0)%nat /\ ev n = ev n0) as SUB.
  { apply ST, ST. intros o n P. exists o, n. split; [exact P|]. repeat split; lia. }
  clear ST.
  assert (posw (cut (x + y) (cut x (chain s)))) as PW by (apply cut_pos, cut_pos; apply I).
  constructor; cbn [with_chain chain eff lastv cache flag now iteration]; try apply I.
  - exact PW.
  - rewrite !cut_total. apply I.
  - apply bnd_cut, bnd_cut. apply I.
  - apply bnd_cut, bnd_cut. apply I.
  - intros o n P. destruct (SUB o n P) as (o0 & n0 & P0 & A & B & ->).
    apply ole_trans with (lc o0 (width n0) init h); [|apply (i_low _ _ _ _ _ _ I o0 n0 P0)].
    apply lc_sub; [apply I|lia|lia].
  - intros o n P. destruct (SUB o n P) as (o0 & n0 & P0 & A & B & ->).
    apply (i_top _ _ _ _ _ _ I o0 n0 P0).
  - intros o n P LA LB. destruct (SUB o n P) as (o0 & n0 & P0 & A & B & E). rewrite E.
    assert (0 < width n)%nat by (apply (piece_pos _ _ _ PW P)).
    apply (i_up _ _ _ _ _ _ I o0 n0 P0).
    + destruct (bnd_piece _ _ _ _ (i_a _ _ _ _ _ _ I) P0); lia.
    + destruct (bnd_piece _ _ _ _ (i_b _ _ _ _ _ _ I) P0); lia.
  - intros n P X i L. destruct (SUB a n P) as (o0 & n0 & P0 & A & B & _).
    assert (0 < width n)%nat by (apply (piece_pos _ _ _ PW P)).
    assert (o0 = a) as ->.
    { destruct (bnd_piece _ _ _ _ (i_a _ _ _ _ _ _ I) P0); lia. }
    apply (i_last _ _ _ _ _ _ I n0 P0); [|exact L].
    destruct (bnd_piece _ _ _ _ (i_b _ _ _ _ _ _ I) P0); lia.
Qed.
Lemma split_synced : forall w a b init h s x y, inv w a b init h s -> synced s ->
  synced (split_nexus s x y).
Proof.
  intros w a b init h s x y I SY C o n P. cbn [split_nexus with_chain cache flag] in *.
  pose proof (split_inv _ _ _ _ _ _ x y I) as I2.
  unfold split_nexus in P. cbn [with_chain chain] in P.
  apply cut_piece in P. destruct P as (o1 & n1 & P1 & _ & _ & A1 & B1).
  apply cut_piece in P1. destruct P1 as (o2 & n2 & P2 & _ & _ & A2 & B2).
  rewrite (SY C o2 n2 P2). unfold nexus_event. cbn [with_chain now iteration].
  rewrite A1, B1, A2, B2. reflexivity.
Qed.

(** ** Queries *)

Lemma is_event_lc : forall a n init h, downward h ->
  (is_event a n init h = true <-> h <> [] /\ lc a n init h = Some (moment_of h)).
Proof.
  intros a n init [|[m v] h] D.
  - cbn. split; [discriminate|]. intros [N _]. contradiction.
  - cbn [is_event moment_of]. rewrite (lc_head_eq a n init m v h D), negb_true_iff.
    split; [intros H; split; [discriminate|exact H]|intros [_ H]; exact H].
Qed.

(* The pieces of a slice after the split *)
Lemma slice_pieces : forall w a b init h s x y, inv w a b init h s -> (x + y <= w)%nat ->
  exists l1, chain (split_nexus s x y) = l1 ++ from x (chain (split_nexus s x y)) /\
    total l1 = x /\ posw (from x (chain (split_nexus s x y))) /\
    bnd y (from x (chain (split_nexus s x y))).
Proof.
  intros w a b init h s x y I L. pose proof (split_inv _ _ _ _ _ _ x y I) as I2.
  set (c := chain (split_nexus s x y)) in *.
  assert (bnd x c /\ bnd (x + y) c) as [BX BY].
  { unfold c, split_nexus. cbn [with_chain chain]. pose proof (i_tot _ _ _ _ _ _ I).
    split; [apply bnd_cut, cut_bnd; lia|]. apply cut_bnd. rewrite cut_total. lia. }
  destruct (from_split c x (i_pos _ _ _ _ _ _ I2) BX) as (l1 & E & T).
  exists l1. split; [exact E|]. split; [exact T|].
  pose proof (i_pos _ _ _ _ _ _ I2) as P. fold c in P. split.
  - rewrite E in P. unfold posw in *. rewrite Forall_app in P. apply P.
  - rewrite E in P. rewrite E in BY. rewrite <- T in BY at 1. apply (bnd_app l1); assumption.
Qed.

Lemma test_ok : forall w a b init h s x y, inv w a b init h s -> synced s ->
  (0 < y)%nat -> (x + y <= w)%nat ->
  exists s' r, op_event s x y = Ok (s', r) /\ inv w a b init h s' /\ synced s' /\
    (is_event x y init h = true -> r = true) /\
    (x = a -> (x + y)%nat = b -> r = is_event x y init h).
Proof.
  intros w a b init h s x y I SY Y L. unfold op_event.
  pose proof (i_now _ _ _ _ _ _ I) as NW. pose proof (i_clk _ _ _ _ _ _ I) as CK.
  pose proof (i_down _ _ _ _ _ _ I) as DW.
  destruct (cache s) eqn:C.
  - exists s, (flag s). split; [reflexivity|]. split; [exact I|]. split; [exact SY|].
    pose proof (i_cache _ _ _ _ _ _ I C) as W1.
    destruct (one_piece (chain s) (i_pos _ _ _ _ _ _ I)) as (n & E & WN);
      [rewrite (i_tot _ _ _ _ _ _ I); exact W1|].
    assert (piece (chain s) 0 n) as PN by (rewrite E; apply piece_cons; left; split; reflexivity).
    assert (x = 0 /\ y = 1)%nat as [-> ->] by lia.
    pose proof (SY C 0%nat n PN) as FL.
    assert (is_event 0 1 init h = true -> flag s = true) as CMP.
    { intros EV. apply is_event_lc in EV; [|exact DW]. destruct EV as [_ EV].
      rewrite FL. apply event_ev; [lia|]. apply ole_antisym; [apply (i_top _ _ _ _ _ _ I 0%nat n PN)|].
      pose proof (i_low _ _ _ _ _ _ I 0%nat n PN) as LO. rewrite WN, EV, CK in LO. exact LO. }
    split; [exact CMP|]. intros EA EB.
    destruct (is_event 0 1 init h) eqn:EV; [apply CMP; reflexivity|].
    destruct (flag s) eqn:FS; [|reflexivity]. symmetry in FL.
    apply event_ev in FL; [|lia].
    pose proof (i_up _ _ _ _ _ _ I 0%nat n PN ltac:(lia) ltac:(lia)) as UP. rewrite FL in UP.
    assert (lc 0 1 init h = Some (moment_of h)) as LC.
    { subst a b. cbn [Nat.sub Nat.add] in UP. destruct h as [|[m v] h]; [contradiction|].
      apply ole_antisym; [apply lc_head; exact DW|]. rewrite CK. exact UP. }
    assert (is_event 0 1 init h = true) as X; [|congruence].
    apply is_event_lc; [exact DW|]. split; [|exact LC]. intros ->. discriminate.
  - unfold x_test_net_event.
    destruct (slice_pieces _ _ _ _ _ _ x y I L) as (l1 & E & T & PF & BF).
    pose proof (split_inv _ _ _ _ _ _ x y I) as I2.
    pose proof (split_synced _ _ _ _ _ _ x y I SY) as SY2.
    assert (cache (split_nexus s x y) = false) as C2 by exact C.
    assert (now (split_nexus s x y) = now s /\ clk (split_nexus s x y) = clk s) as [N2 K2]
      by (split; reflexivity).
    set (s2 := split_nexus s x y) in *.
    destruct (any_ok s2 (from x (chain s2)) y PF BF) as (r & -> & RT & RF). cbn [bind].
    assert (forall o n, piece (from x (chain s2)) o n -> piece (chain s2) (x + o)%nat n) as PIN.
    { intros o n P. rewrite E, <- T. apply piece_app_r. rewrite T. exact P. }
    assert (is_event x y init h = true -> r = true) as CMP.
    { intros EV. destruct r; [reflexivity|]. specialize (RF eq_refl).
      destruct h as [|[m v] h]; [discriminate|]. cbn [is_event] in EV.
      apply negb_true_iff in EV. unfold same in EV. apply forallb_false in EV.
      destruct EV as (i & IN & NQ). apply in_seq in IN. apply Z.eqb_neq in NQ.
      destruct (piece_cover (chain s2) i) as (o & n & P & B);
        [rewrite (i_tot _ _ _ _ _ _ I2); lia|].
      assert (lc o (width n) init ((m, v) :: h) = Some m) as LC.
      { apply lc_head_eq; [exact DW|].
        destruct (same o (width n) v (current init h)) eqn:S; [|reflexivity].
        rewrite same_spec in S. rewrite (S i B) in NQ. contradiction. }
      pose proof (i_low _ _ _ _ _ _ I2 o n P) as LO. rewrite LC in LO.
      cbn [moment_of] in CK. rewrite CK, <- K2 in LO.
      pose proof (ole_antisym _ _ (i_top _ _ _ _ _ _ I2 o n P) LO) as EN.
      apply event_ev in EN; [|rewrite N2; lia].
      assert (bnd x (chain s2)) as BX.
      { unfold s2, split_nexus. cbn [with_chain chain]. apply bnd_cut, cut_bnd.
        rewrite (i_tot _ _ _ _ _ _ I). lia. }
      assert (x <= o)%nat as GE by (destruct (bnd_piece _ _ _ _ BX P); lia).
      assert (nexus_event s2 n = false) as NF; [|congruence].
      apply (RF (o - x)%nat n); [|lia].
      pose proof (i_pos _ _ _ _ _ _ I2) as PW. rewrite E in PW, P.
      replace (o - x)%nat with (o - total l1)%nat by lia.
    apply (piece_app_inv l1); [exact PW|exact P|lia]. }
    assert (x = a -> (x + y)%nat = b -> r = is_event x y init h) as EXA.
    { intros -> <-. destruct (is_event a y init h) eqn:EV; [apply CMP; reflexivity|].
      destruct r; [|reflexivity]. destruct (RT eq_refl) as (o & n & P & B & EN).
      apply event_ev in EN; [|rewrite N2; lia]. apply PIN in P.
      pose proof (i_up _ _ _ _ _ _ I2 _ _ P ltac:(lia) ltac:(lia)) as UP. rewrite EN, K2 in UP.
      replace (a + y - a)%nat with y in UP by lia.
      assert (is_event a y init h = true) as X; [|congruence].
      apply is_event_lc; [exact DW|]. destruct h as [|[m v] h]; [contradiction|].
      split; [discriminate|]. apply ole_antisym; [apply lc_head; exact DW|].
      rewrite CK. exact UP. }
    destruct (Nat.eqb_spec (total (chain s2)) 1) as [T1|T1].
    + rewrite C2. eexists _, r. split; [reflexivity|]. split; [|split; [|split; assumption]].
      * constructor; cbn [with_flag chain eff lastv cache flag now iteration]; try apply I2.
        -- intros _. rewrite <- (i_tot _ _ _ _ _ _ I2). exact T1.
        -- reflexivity.
      * intros _ o n P. cbn [with_flag chain flag] in *.
        assert (flag s2 = false) as ->.
        { destruct (flag s2) eqn:F2; [|reflexivity]. apply (i_flag _ _ _ _ _ _ I2) in F2. congruence. }
        cbn [orb]. change (nexus_event (with_flag s2 true r) n) with (nexus_event s2 n).
        pose proof (piece_end _ _ _ P) as PE.
        pose proof (piece_pos _ _ _ (i_pos _ _ _ _ _ _ I2) P) as PP.
        pose proof (i_tot _ _ _ _ _ _ I2) as TT.
        assert (x = 0 /\ y = 1 /\ o = 0)%nat as (-> & -> & ->) by lia.
        assert (from 0 (chain s2) = chain s2) as F0 by (destruct (chain s2); reflexivity).
        rewrite F0 in *.
        destruct r; [|symmetry; apply (RF eq_refl 0%nat n P); lia].
        destruct (RT eq_refl) as (o' & n' & P' & _ & EN).
        destruct (one_piece (chain s2) (i_pos _ _ _ _ _ _ I2) T1) as (k & EK & _).
        rewrite EK in P, P'. apply piece_cons in P. apply piece_cons in P'.
        destruct P as [(_ & ->)|(_ & P)]; [|apply piece_nil in P; contradiction].
        destruct P' as [(_ & ->)|(_ & P')]; [|apply piece_nil in P'; contradiction].
        symmetry. exact EN.
    + exists s2, r. split; [reflexivity|]. split; [exact I2|]. split; [exact SY2|].
      split; assumption.
Qed.

Lemma ev_time : forall n m, ev n = Some m -> last_event n = m_time m.
Proof.
  intros n m E. unfold ev in E. destruct (last_event n =? TIME_HIGH); [discriminate|].
  injection E as <-. reflexivity.
Qed.

Lemma since_lc : forall a n init h t, since_event a n init h t =
  match lc a n init h with Some m => t - m_time m | None => time_high end.
Proof.
  intros a n init h t. unfold since_event, lc. destruct (last_change a n init h) as [[m v]|]; reflexivity.
Qed.

Lemma lc_split : forall init h x y m, downward h -> lc x y init h = Some m ->
  exists i, (x <= i < x + y)%nat /\ lc i 1 init h = Some m.
Proof.
  intros init. induction h as [|[m v] h IH]; intros x y m' D E; [discriminate|].
  unfold lc in E. cbn [last_change] in E. destruct (same x y v (current init h)) eqn:S.
  - destruct D as [D0 D]. destruct (IH x y m' D E) as (i & I & EI). exists i. split; [exact I|].
    unfold lc. cbn [last_change]. rewrite (same_sub i 1 x y) by (lia || exact S). exact EI.
  - cbn in E. injection E as <-. unfold same in S. apply forallb_false in S.
    destruct S as (i & IN & NQ). apply in_seq in IN. exists i. split; [lia|].
    apply lc_head_eq; [exact D|]. destruct (same i 1 v (current init h)) eqn:S1; [|reflexivity].
    rewrite same_spec in S1. apply Z.eqb_neq in NQ. rewrite (S1 i) in NQ by lia. contradiction.
Qed.

Lemma last_ok : forall w a b init h s x y, inv w a b init h s -> synced s ->
  (x + y <= w)%nat ->
  exists s' r, x_last_event s x y = Ok (s', r) /\ inv w a b init h s' /\ synced s' /\
    r <= since_event x y init h (now s) /\
    (x = a -> (x + y)%nat = b -> r = since_event x y init h (now s)).
Proof.
  intros w a b init h s x y I SY L. unfold x_last_event.
  pose proof (i_now _ _ _ _ _ _ I) as NW. pose proof (i_down _ _ _ _ _ _ I) as DW.
  destruct (slice_pieces _ _ _ _ _ _ x y I L) as (l1 & E & T & PF & BF).
  pose proof (split_inv _ _ _ _ _ _ x y I) as I2.
  pose proof (split_synced _ _ _ _ _ _ x y I SY) as SY2.
  assert (now (split_nexus s x y) = now s /\ clk (split_nexus s x y) = clk s) as [N2 K2]
    by (split; reflexivity).
  set (s2 := split_nexus s x y) in *.
  destruct (min_ok s2 (from x (chain s2)) y TIME_HIGH PF BF) as (r & -> & R1 & R2 & R3).
  cbn [bind]. exists s2, r. split; [reflexivity|]. split; [exact I2|]. split; [exact SY2|].
  rewrite N2 in *. rewrite since_lc.
  assert (forall o n, piece (from x (chain s2)) o n -> piece (chain s2) (x + o)%nat n) as PIN.
  { intros o n P. rewrite E, <- T. apply piece_app_r. rewrite T. exact P. }
  assert (r <= match lc x y init h with Some m => now s - m_time m | None => time_high end) as LE.
  { destruct (lc x y init h) as [m|] eqn:LC; [|exact R1].
    destruct (lc_split _ _ _ _ _ DW LC) as (i & IL & LI).
    destruct (piece_cover (chain s2) i) as (o & n & P & B);
      [rewrite (i_tot _ _ _ _ _ _ I2); lia|].
    pose proof (i_low _ _ _ _ _ _ I2 o n P) as LO.
    pose proof (lc_sub init h i 1 o (width n) DW ltac:(lia) ltac:(lia)) as LS.
    rewrite LI in LS. pose proof (ole_trans _ _ _ LS LO) as LM.
    pose proof (i_top _ _ _ _ _ _ I2 o n P) as TP. rewrite K2 in TP.
    destruct (ev n) as [me|] eqn:EN; [|contradiction].
    assert (bnd x (chain s2)) as BX.
    { unfold s2, split_nexus. cbn [with_chain chain]. apply bnd_cut, cut_bnd.
      rewrite (i_tot _ _ _ _ _ _ I). lia. }
    assert (x <= o)%nat as GE by (destruct (bnd_piece _ _ _ _ BX P); lia).
    pose proof (ev_time _ _ EN) as ET.
    unfold ole, mle, clk in LM, TP. cbn [m_time m_delta] in TP.
    assert (r <= now s - last_event n) as RL; [|lia].
    apply (R2 (o - x)%nat n); [|lia|lia].
    pose proof (i_pos _ _ _ _ _ _ I2) as PW. rewrite E in PW, P.
    replace (o - x)%nat with (o - total l1)%nat by lia.
    apply (piece_app_inv l1); [exact PW|exact P|lia]. }
  split; [exact LE|]. intros -> <-. apply Z.le_antisymm; [exact LE|].
  destruct R3 as [->|(o & n & P & B & W & ->)].
  - destruct (lc a y init h) as [m|] eqn:LC; [|reflexivity].
    destruct (lc_in _ _ _ _ _ LC) as [u IN].
    pose proof (i_old _ _ _ _ _ _ I m u IN).
    change TIME_HIGH with time_high. lia.
  - apply PIN in P. pose proof (i_up _ _ _ _ _ _ I2 _ _ P ltac:(lia) ltac:(lia)) as UP.
    replace (a + y - a)%nat with y in UP by lia.
    assert (exists me, ev n = Some me) as [me EN].
    { unfold ev. change TIME_HIGH with time_high.
      rewrite (proj2 (Z.eqb_neq (last_event n) time_high)) by lia. eauto. }
    rewrite EN in UP. pose proof (ev_time _ _ EN) as ET.
    destruct (lc a y init h) as [m|] eqn:LC; [|contradiction].
    unfold ole, mle in UP. lia.
Qed.

(** ** Runs *)

Definition query_ok (w : nat) (q : query) : Prop :=
  match q with
  | QEvent off count | QLast off count => (0 < count)%nat /\ (off + count <= w)%nat
  | QSplit _ _ => True
  end.
Definition what (c : cycle) : next * list (nat * list Z) := (nxt (c_step c), c_updates c).

Lemma asks_inv : forall qs w a b init h s, inv w a b init h s -> synced s ->
  Forall (query_ok w) qs ->
  exists s', asks s qs = Ok s' /\ inv w a b init h s' /\ synced s'.
Proof.
  induction qs as [|q qs IH]; intros w a b init h s I SY V.
  - exists s. split; [reflexivity|]. split; assumption.
  - inversion_clear V as [|? ? Q V']. cbn [asks].
    assert (exists s1, ask s q = Ok s1 /\ inv w a b init h s1 /\ synced s1) as (s1 & -> & I1 & S1).
    { destruct q as [x y|x y|x y]; cbn [ask query_ok] in *.
      - destruct (test_ok _ _ _ _ _ _ x y I SY (proj1 Q) (proj2 Q)) as (s1 & r & -> & A & B & _).
        exists s1. split; [reflexivity|]. split; assumption.
      - destruct (last_ok _ _ _ _ _ _ x y I SY (proj2 Q)) as (s1 & r & -> & A & B & _).
        exists s1. split; [reflexivity|]. split; assumption.
      - exists (split_nexus s x y). split; [reflexivity|].
        split; [apply split_inv; exact I|apply (split_synced _ _ _ _ _ _ x y I SY)]. }
    cbn [bind]. apply IH; assumption.
Qed.

Lemma run_inv : forall cs w a b init h s s', inv w a b init h s -> synced s ->
  Forall (fun c => Forall (query_ok w) (c_queries c)) cs ->
  in_time (moment_of h) (map (fun c => nxt (c_step c)) cs) ->
  run s cs = Ok s' ->
  inv w a b init (history_of init (map what cs) h) s' /\ synced s'.
Proof.
  induction cs as [|c cs IH]; intros w a b init h s s' I SY V IT R.
  - injection R as <-. split; assumption.
  - inversion_clear V as [|? ? Q V']. cbn [map in_time] in IT. destruct IT as (F & TL & DL & IT).
    cbn [run] in R. unfold run_cycle in R.
    destruct (begin_inv _ _ _ _ _ _ _ I F TL DL) as [I1 P1].
    destruct (updates (begin_cycle s (c_step c)) (c_updates c)) as [s2|] eqn:U; [|discriminate].
    cbn [bind] in R. destruct (updates_inv _ _ _ _ _ _ _ _ _ _ I1 P1 U) as [I2 P2].
    destruct (sync_inv _ _ _ _ _ _ I2 P2) as (s3 & E3 & I3 & S3). rewrite E3 in R.
    cbn [bind] in R. destruct (asks_inv _ _ _ _ _ _ _ I3 S3 Q) as (s4 & E4 & I4 & S4).
    rewrite E4 in R. cbn [bind] in R. cbn [map history_of what].
    apply (IH _ _ _ _ _ _ _ I4 S4 V' IT R).
Qed.

Definition boundary (widths : list nat) (x : nat) : Prop :=
  exists l1 l2, widths = l1 ++ l2 /\ list_sum l1 = x.
Lemma boundary_bnd : forall widths x, Forall (fun k => (0 < k)%nat) widths -> boundary widths x ->
  bnd x (map (fun k => Nexus k TIME_HIGH DELTA_CYCLE_MAX) widths).
Proof.
  intros widths x P (l1 & l2 & -> & <-). induction l1 as [|k l1 IH]; cbn [app map bnd list_sum].
  - destruct l2; left; reflexivity.
  - inversion_clear P as [|? ? Pk Pl]. right. cbn [width].
    change (list_sum (k :: l1)) with (k + list_sum l1)%nat. split; [lia|].
    replace (k + list_sum l1 - k)%nat with (list_sum l1) by lia. apply IH. exact Pl.
Qed.

Lemma initial_inv : forall widths init a b, Forall (fun k => (0 < k)%nat) widths ->
  boundary widths a -> boundary widths b -> (a <= b)%nat ->
  inv (list_sum widths) a b init [] (initial widths init) /\ synced (initial widths init).
Proof.
  intros widths init a b P A B L.
  assert (forall o n, piece (map (fun k => Nexus k TIME_HIGH DELTA_CYCLE_MAX) widths) o n ->
            ev n = None) as EN.
  { intros o n (l1 & l2 & E & _).
    assert (In n (map (fun k => Nexus k TIME_HIGH DELTA_CYCLE_MAX) widths)) as IN
      by (rewrite E; apply in_or_app; right; left; reflexivity).
    apply in_map_iff in IN. destruct IN as (k & <- & _). reflexivity. }
  split; [|intros C; discriminate].
  constructor; cbn [initial chain eff lastv cache flag now iteration].
  - unfold posw. apply Forall_map. exact P.
  - unfold total. rewrite map_map. cbn [width]. rewrite map_id. reflexivity.
  - exact L.
  - apply boundary_bnd; assumption.
  - apply boundary_bnd; assumption.
  - reflexivity.
  - reflexivity.
  - exact Logic.I.
  - intros m v [].
  - unfold time_high. lia.
  - split; [lia|]. intros N. contradiction.
  - intros o n X. exact Logic.I.
  - intros o n X. rewrite (EN o n X). exact Logic.I.
  - intros o n X _ _. rewrite (EN o n X). exact Logic.I.
  - intros n X E i J. reflexivity.
  - discriminate.
  - discriminate.
Qed.
