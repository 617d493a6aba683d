(* Proofs about the check of the choices of a case statement on a scalar. *)

From Coq Require Import ZArith List Bool Lia.
From Verif Require Import Base CaseModel CaseSpec.
Import ListNotations.
Local Open Scope Z_scope.

Definition inb (lo hi : Z) (p : Z * Z) : Prop := lo <= fst p /\ fst p <= snd p /\ snd p <= hi.
Definition inside (v : Z) (p : Z * Z) : Prop := fst p <= v <= snd p.
Definition incov (l : list (Z * Z)) (v : Z) : Prop := exists p, In p l /\ inside v p.
Definition size (p : Z * Z) : Z := snd p - fst p + 1.
Fixpoint weight (l : list (Z * Z)) : Z := match l with [] => 0 | p :: r => size p + weight r end.

Lemma int64_ok z : - 2 ^ 63 <= z < 2 ^ 63 -> int64 z = Ok z.
Proof.
  intros H. unfold int64, INT64_MIN, INT64_MAX.
  destruct (Z.leb_spec (- 2 ^ 63) z); [|lia]. destruct (Z.leb_spec z (2 ^ 63 - 1)); [reflexivity|lia].
Qed.

Lemma incov_cons p l v : incov (p :: l) v <-> inside v p \/ incov l v.
Proof.
  split.
  - intros (q & [<-|Hq] & I); [left|right; exists q]; auto.
  - intros [I|(q & Hq & I)]; [exists p|exists q]; split; auto; [left|right]; auto.
Qed.

Lemma incov_nil v : ~ incov [] v.
Proof. intros (q & [] & _). Qed.

(* What a step of bounds_cover_choice does to the set of covered values. *)
Lemma cover_ok lo hi l low high :
  - 2 ^ 62 <= lo -> hi <= 2 ^ 62 -> Forall (inb lo hi) l -> inb lo hi (low, high) ->
  exists l' e, cover_choice l low high = Ok (l', e) /\ Forall (inb lo hi) l' /\
    (forall v, incov l' v <-> incov l v \/ low <= v <= high) /\ l' <> [] /\
    (e = [] /\ weight l' = weight l + (high - low + 1) \/
     exists a b, e = [Covered a b] /\ a <= b /\
       forall v, a <= v <= b -> incov l v /\ low <= v <= high).
Proof.
  intros Hlo Hhi. induction l as [|[a b] l IH]; intros F I.
  - exists [(low, high)], []. cbn [cover_choice]. split; [reflexivity|].
    split; [constructor; auto|]. split.
    { intros v. rewrite incov_cons. unfold inside. cbn. split; intros [X|X]; auto; destruct (incov_nil v X). }
    split; [discriminate|]. left. split; auto. cbn. unfold size. cbn. lia.
  - inversion F as [|? ? Fa Fl]; subst. cbn [cover_choice].
    unfold inb in Fa, I; cbn in Fa, I.
    destruct (Z.leb_spec a high) as [A|A].
    + destruct (Z.leb_spec low b) as [B|B]; cbn [andb].
      * eexists _, _. split; [reflexivity|]. split.
        { constructor; auto. unfold inb; cbn. lia. }
        split. { intros v. rewrite !incov_cons. unfold inside; cbn [fst snd].
                 assert (Q : Z.min low a <= v <= Z.max high b <-> a <= v <= b \/ low <= v <= high) by lia. tauto. }
        split; [discriminate|]. right. eexists _, _. split; [reflexivity|]. split; [lia|].
        intros v V. split; [|lia]. apply incov_cons. left. unfold inside; cbn. lia.
      * rewrite int64_ok by lia. cbn [bind]. destruct (Z.eqb_spec high (a - 1)); [lia|].
        rewrite int64_ok by lia. cbn [bind]. destruct (Z.eqb_spec low (b + 1)) as [C|C].
        -- eexists _, _. split; [reflexivity|]. split. { constructor; auto. unfold inb; cbn. lia. }
           split. { intros v. rewrite !incov_cons. unfold inside; cbn [fst snd].
                    assert (Q : a <= v <= high <-> a <= v <= b \/ low <= v <= high) by lia. tauto. }
           split; [discriminate|]. left. split; auto. cbn. unfold size; cbn. lia.
        -- destruct (IH Fl I) as (l' & e & E & F' & Cv & N & W). rewrite E. cbn [bind].
           exists ((a, b) :: l'), e. split; [reflexivity|]. split; [constructor; auto|].
           split. { intros v. rewrite !incov_cons, Cv. unfold inside; cbn. tauto. }
           split; [discriminate|]. destruct W as [(-> & W)|(x & y & -> & L & W)].
           ++ left. split; auto. cbn. unfold size; cbn. lia.
           ++ right. exists x, y. split; auto. split; auto. intros v V. split; [apply incov_cons; right; now apply W|now apply W].
    + eexists _, _. split; [reflexivity|]. split. { constructor; auto. }
      split. { intros v. rewrite incov_cons. unfold inside; cbn. tauto. }
      split; [discriminate|]. left. split; auto. cbn [weight]. unfold size; cbn. lia.
Qed.

(* Sorted and disjoint. *)
Fixpoint sep (l : list (Z * Z)) : Prop :=
  match l with
  | [] => True
  | p :: r => match r with [] => True | q :: _ => snd p < fst q end /\ sep r
  end.

Lemma sep_above lo hi p l v : Forall (inb lo hi) l -> sep (p :: l) -> incov l v -> snd p < v.
Proof.
  revert p. induction l as [|q l IH]; intros p F S I; [destruct (incov_nil v I)|].
  destruct S as (A & S). inversion F as [|? ? Fq Fl]; subst. apply incov_cons in I. destruct I as [I|I].
  - unfold inside in I. lia.
  - specialize (IH q Fl S I). unfold inb in Fq. lia.
Qed.

Lemma cover_disjoint lo hi l low high :
  - 2 ^ 62 <= lo -> hi <= 2 ^ 62 -> Forall (inb lo hi) l -> inb lo hi (low, high) -> sep l ->
  (forall v, incov l v -> ~ (low <= v <= high)) ->
  exists l', cover_choice l low high = Ok (l', []) /\ sep l' /\
    (forall p, sep (p :: l) -> snd p < low -> sep (p :: l')).
Proof.
  intros Hlo Hhi. induction l as [|[a b] l IH]; intros F I S D.
  - exists [(low, high)]. cbn. auto.
  - inversion F as [|? ? Fa Fl]; subst. cbn [cover_choice]. unfold inb in Fa, I; cbn in Fa, I.
    assert (Da : high < a \/ b < low).
    { destruct (Z_lt_dec high a); auto. destruct (Z_lt_dec b low); auto. exfalso.
      apply (D (Z.max low a)); [apply incov_cons; left; unfold inside; cbn|]; lia. }
    destruct (Z.leb_spec a high) as [A|A].
    + destruct (Z.leb_spec low b) as [B|B]; [lia|]. cbn [andb].
      rewrite int64_ok by lia. cbn [bind]. destruct (Z.eqb_spec high (a - 1)); [lia|].
      rewrite int64_ok by lia. cbn [bind]. destruct (Z.eqb_spec low (b + 1)) as [C|C].
      * eexists. split; [reflexivity|].
        assert (S' : sep ((a, high) :: l)).
        { destruct l as [|[c d] l]; [cbn; auto|]. cbn in S |- *. split; [|tauto].
          destruct (Z_lt_dec high c); auto. exfalso. inversion Fl as [|? ? Fc _]; subst. unfold inb in Fc; cbn in Fc.
          apply (D c); [apply incov_cons; right; apply incov_cons; left; unfold inside; cbn|]; lia. }
        split; auto. intros p Sp L. split; [|exact S']. destruct Sp as (Sp & _). exact Sp.
      * assert (Sl : sep l) by (destruct S; auto).
        destruct (IH Fl I Sl) as (l' & E & S' & P). { intros v V. apply D. apply incov_cons; auto. }
        rewrite E. cbn [bind]. eexists. split; [reflexivity|].
        assert (Q : sep ((a, b) :: l')) by (apply (P (a, b) S B)).
        split; [exact Q|]. intros p Sp L. split; [destruct Sp as (Sp & _); exact Sp|exact Q].
    + eexists. split; [reflexivity|].
      assert (Q : sep ((low, high) :: (a, b) :: l)) by (split; [cbn; lia|exact S]).
      split; [exact Q|]. intros p Sp L. split; [cbn; lia|exact Q].
Qed.

(* ---- missing choices ---- *)

Lemma to_int_range z : - 2 ^ 31 <= to_int z < 2 ^ 31.
Proof. unfold to_int. pose proof (Z.mod_pos_bound (z + 2 ^ 31) (2 ^ 32)). lia. Qed.

Lemma to_int_eq z : exists k, to_int z = z + k * 2 ^ 32.
Proof.
  unfold to_int. exists (- ((z + 2 ^ 31) / 2 ^ 32)).
  pose proof (Z.div_mod (z + 2 ^ 31) (2 ^ 32)). lia.
Qed.

Lemma walk_ok lo hi l : forall walk m,
  - 2 ^ 62 <= lo -> hi <= 2 ^ 62 -> hi - lo < 2 ^ 32 -> Forall (inb lo hi) l -> lo <= walk <= hi + 1 -> - 2 ^ 31 <= m < 2 ^ 31 ->
  exists walk' m' gaps k, walk_covered l walk m = Ok (walk', m', gaps) /\ lo <= walk' <= hi + 1 /\
    - 2 ^ 31 <= m' < 2 ^ 31 /\ m' = m + (walk' - walk - weight l) + k * 2 ^ 32.
Proof.
  induction l as [|[a b] l IH]; intros walk m Hlo Hhi Hs F W M; cbn [walk_covered].
  - exists walk, m, [], 0. cbn. repeat split; try lia.
  - inversion F as [|? ? Fa Fl]; subst. unfold inb in Fa; cbn in Fa.
    destruct (Z.eqb_spec a walk) as [->|N].
    + cbn [bind]. rewrite int64_ok by lia. cbn [bind].
      destruct (IH (b + 1) m Hlo Hhi Hs Fl) as (w' & m' & g & k & E & W' & M' & Q); [lia|lia|].
      rewrite E. cbn [bind]. exists w', m', g, k. cbn [weight]. unfold size; cbn. repeat split; lia.
    + rewrite int64_ok by lia. cbn [bind]. rewrite int64_ok by lia. cbn [bind].
      rewrite int64_ok by lia. cbn [bind]. rewrite int64_ok by lia. cbn [bind].
      destruct (IH (b + 1) (to_int (m + (a - walk))) Hlo Hhi Hs Fl) as (w' & m' & g & k & E & W' & M' & Q);
        [lia|apply to_int_range|].
      rewrite E. cbn [bind]. destruct (to_int_eq (m + (a - walk))) as (k2 & K).
      exists w', m', ((walk, a - 1) :: g), (k + k2). cbn [weight]. unfold size; cbn [fst snd]. repeat split; lia.
Qed.

Lemma missing_count lo hi l :
  - 2 ^ 62 <= lo -> hi <= 2 ^ 62 -> hi - lo < 2 ^ 32 -> lo <= hi -> Forall (inb lo hi) l ->
  exists r, missing_choices lo hi l = Ok r /\
    (r = [] -> exists k, hi + 1 - lo - weight l = k * 2 ^ 32) /\
    (hi + 1 - lo - weight l = 0 -> r = []).
Proof.
  intros Hlo Hhi Hs Hn F. unfold missing_choices.
  destruct (walk_ok lo hi l lo 0 Hlo Hhi Hs F) as (w & m & g & k & E & W & M & Q); [lia|lia|].
  rewrite E. cbn [bind]. rewrite int64_ok by lia. cbn [bind].
  destruct (Z.eqb_spec w (hi + 1)) as [->|N].
  - cbn [bind]. destruct (Z.eqb_spec m 0).
    + exists []. split; auto. split; auto. intros _. exists (- k). lia.
    + eexists. split; [reflexivity|]. split; [discriminate|]. intros. exfalso. lia.
  - rewrite int64_ok by lia. cbn [bind]. rewrite int64_ok by lia. cbn [bind].
    destruct (to_int_eq (m + (hi + 1 - w))) as (k2 & K). pose proof (to_int_range (m + (hi + 1 - w))) as R.
    destruct (Z.eqb_spec (to_int (m + (hi + 1 - w))) 0) as [Z0|Z0].
    + exists []. split; auto. split; auto. intros _. exists (- k - k2). lia.
    + eexists. split; [reflexivity|]. split; [discriminate|]. intros. exfalso. lia.
Qed.

(* The intervals that are printed, for a sorted list. *)
Lemma walk_gaps lo hi l : forall walk m walk' m' gaps,
  - 2 ^ 62 <= lo -> hi <= 2 ^ 62 -> Forall (inb lo hi) l -> sep l -> lo <= walk ->
  (forall v, incov l v -> walk <= v) ->
  walk_covered l walk m = Ok (walk', m', gaps) ->
  walk <= walk' /\ (forall v, incov l v -> v < walk') /\ weight l <= walk' - walk /\
  (forall v, incov gaps v <-> walk <= v < walk' /\ ~ incov l v) /\
  (weight l = walk' - walk /\ gaps = [] \/ weight l < walk' - walk /\ exists v, incov gaps v).
Proof.
  induction l as [|[a b] l IH]; intros walk m walk' m' gaps Hlo Hhi F S W A E.
  - cbn in E. injection E as <- <- <-. cbn. split; [lia|]. split; [intros v V; destruct (incov_nil v V)|].
    split; [lia|]. split; [|left; split; auto; lia]. intros v. split; [intros V; destruct (incov_nil v V)|lia].
  - cbn [walk_covered] in E. inversion F as [|? ? Fa Fl]; subst. unfold inb in Fa; cbn in Fa.
    assert (Wa : walk <= a) by (apply A; apply incov_cons; left; unfold inside; cbn; lia).
    assert (Sl : sep l) by (destruct S; auto).
    assert (E' : exists m2 g2 gap, walk_covered l (b + 1) m2 = Ok (walk', m', g2) /\ gaps = gap ++ g2 /\
                  (forall v, incov gap v <-> walk <= v < a) /\ (a = walk -> gap = [])).
    { destruct (Z.eqb_spec a walk) as [->|N].
      - cbn [bind] in E. rewrite int64_ok in E by lia. cbn [bind] in E.
        destruct (walk_covered l (b + 1) m) as [[[w2 m2] g2]|] eqn:X; cbn [bind] in E; [|discriminate].
        injection E as <- <- <-. exists m, g2, []. split; auto. split; auto. split; auto.
        intros v. split; [intros V; destruct (incov_nil v V)|lia].
      - destruct (int64 (a - walk)) as [d|]; cbn [bind] in E; [|discriminate].
        destruct (int64 (m + d)) as [s|]; cbn [bind] in E; [|discriminate].
        rewrite int64_ok in E by lia. cbn [bind] in E. rewrite int64_ok in E by lia. cbn [bind] in E.
        destruct (walk_covered l (b + 1) (to_int s)) as [[[w2 m2] g2]|] eqn:X; cbn [bind] in E; [|discriminate].
        injection E as <- <- <-. exists (to_int s), g2, [(walk, a - 1)]. split; auto. split; auto. split; [|lia].
        intros v. rewrite incov_cons. unfold inside; cbn. split; [intros [V|V]; [lia|destruct (incov_nil v V)]|left; lia]. }
    destruct E' as (m2 & g2 & gap & E2 & -> & G & G0).
    destruct (IH (b + 1) m2 walk' m' g2 Hlo Hhi Fl Sl) as (I1 & I2 & I3 & I4 & I5); auto; [lia| |].
    { intros v V. pose proof (sep_above lo hi (a, b) l v Fl S V) as Q. cbn in Q. lia. }
    cbn [weight]. unfold size; cbn [fst snd]. split; [lia|]. split.
    { intros v V. apply incov_cons in V. destruct V as [V|V]; [unfold inside in V; cbn in V; lia|auto]. }
    split; [lia|]. split.
    + intros v. rewrite incov_cons. unfold inside; cbn [fst snd]. split.
      * intros (p & P & I). apply in_app_or in P. destruct P as [P|P].
        -- assert (Q : incov gap v) by (exists p; auto). apply G in Q. split; [lia|].
           intros [X|X]; [lia|]. pose proof (sep_above lo hi (a, b) l v Fl S X) as Q2. cbn in Q2. lia.
        -- assert (Q : incov g2 v) by (exists p; auto). apply I4 in Q. split; [lia|]. intros [X|X]; [lia|tauto].
      * intros (V & N). destruct (Z_lt_dec v a).
        -- assert (Q : incov gap v) by (apply G; lia). destruct Q as (p & P & I). exists p. split; auto. apply in_or_app; auto.
        -- assert (Q : incov g2 v). { apply I4. split; [|tauto]. destruct (Z_lt_dec b v); [lia|]. exfalso. apply N. left. lia. }
           destruct Q as (p & P & I). exists p. split; auto. apply in_or_app; auto.
    + destruct (Z.eq_dec a walk) as [->|N].
      * rewrite G0 by auto. destruct I5 as [(Q & ->)|(Q & v & V)]; [left|right]; split; auto; try lia. exists v. auto.
      * right. split; [lia|]. assert (V : incov gap walk) by (apply G; lia). destruct V as (p & P & I).
        exists walk, p. split; auto. apply in_or_app; auto.
Qed.

(* All of a type is covered exactly when the weights add up. *)
Lemma missing_exact lo hi l r :
  - 2 ^ 62 <= lo -> hi <= 2 ^ 62 -> hi - lo < 2 ^ 32 -> lo <= hi -> Forall (inb lo hi) l -> sep l -> l <> [] ->
  missing_choices lo hi l = Ok r ->
  (r = [] /\ (forall v, lo <= v <= hi -> incov l v)) \/
  (exists gaps, r = [Missing gaps] /\
     (forall v, incov gaps v <-> lo <= v <= hi /\ ~ incov l v) /\ exists v, incov gaps v).
Proof.
  intros Hlo Hhi Hs Hn F S Ne E. unfold missing_choices in E.
  destruct (walk_ok lo hi l lo 0 Hlo Hhi Hs F) as (w & m & g & k & Ew & W & M & Q); [lia|lia|].
  rewrite Ew in E. cbn [bind] in E. rewrite int64_ok in E by lia. cbn [bind] in E.
  assert (Lo : forall v, incov l v -> lo <= v).
  { intros v (p & P & I). rewrite Forall_forall in F. specialize (F p P). unfold inb, inside in *. lia. }
  destruct (walk_gaps lo hi l lo 0 w m g Hlo Hhi F S ltac:(lia) Lo Ew) as (G1 & G2 & G3 & G4 & G5).
  assert (W1 : 1 <= weight l).
  { destruct l as [|p l]; [congruence|]. inversion F as [|? ? Fp Fl]; subst. unfold inb in Fp. cbn. unfold size.
    assert (0 <= weight l); [|lia]. clear - Fl. induction Fl as [|q l Fq Fl IH]; cbn; [lia|]. unfold inb in Fq. unfold size. lia. }
  assert (T : forall gap, (forall v, incov gap v <-> w <= v <= hi) ->
     forall v, incov (g ++ gap) v <-> lo <= v <= hi /\ ~ incov l v).
  { intros gap Hg v. split.
    - intros (p & P & I). apply in_app_or in P. destruct P as [P|P].
      + assert (X : incov g v) by (exists p; auto). apply G4 in X. split; [lia|tauto].
      + assert (X : incov gap v) by (exists p; auto). apply Hg in X. split; [lia|]. intros Y. apply G2 in Y. lia.
    - intros (V & N). destruct (Z_lt_dec v w).
      + assert (X : incov g v) by (apply G4; split; [lia|auto]). destruct X as (p & P & I). exists p. split; auto. apply in_or_app; auto.
      + assert (X : incov gap v) by (apply Hg; lia). destruct X as (p & P & I). exists p. split; auto. apply in_or_app; auto. }
  assert (Dec : forall v, incov l v \/ ~ incov l v).
  { intros v. clear. induction l as [|p l IH]; [right; apply incov_nil|]. rewrite incov_cons. unfold inside.
    destruct (Z_le_dec (fst p) v), (Z_le_dec v (snd p)); tauto. }
  destruct (Z.eqb_spec w (hi + 1)) as [->|N].
  - cbn [bind] in E. assert (T' := T [] ltac:(intros v; split; [intros V; destruct (incov_nil v V)|lia])).
    rewrite app_nil_r in *. destruct G5 as [(X & ->)|(X & V)].
    + assert (Hm : m = 0) by lia. rewrite Hm in E. cbn in E. injection E as <-. left. split; auto.
      intros v V. destruct (Dec v) as [D|D]; auto. exfalso. apply (incov_nil v). apply T'. auto.
    + destruct (Z.eqb_spec m 0); [exfalso; lia|]. injection E as <-. right. exists g. auto.
  - rewrite int64_ok in E by lia. cbn [bind] in E. rewrite int64_ok in E by lia. cbn [bind] in E.
    destruct (to_int_eq (m + (hi + 1 - w))) as (k2 & K).
    destruct (Z.eqb_spec (to_int (m + (hi + 1 - w))) 0) as [Z0|Z0]; [exfalso; lia|].
    injection E as <-. right. exists (g ++ [(w, hi)]). split; auto.
    assert (Hg : forall v, incov [(w, hi)] v <-> w <= v <= hi).
    { intros v. rewrite incov_cons. unfold inside; cbn. split; [intros [V|V]; [lia|destruct (incov_nil v V)]|left; lia]. }
    split; [apply T; exact Hg|]. exists w. exists (w, hi). split; [apply in_or_app; right; now left|].
    unfold inside; cbn. lia.
Qed.

(* ---- all the choices ---- *)

Definition ends (c : choice) : Z * Z :=
  match c with
  | Others => (0, -1)
  | Named v => (v, v)
  | Range up l r => (low_of up l r, high_of up l r)
  end.

Lemma stands_ends c v : stands_for c v <-> inside v (ends c).
Proof. unfold inside. destruct c as [|x|[] l r]; cbn; lia. Qed.

Lemma not_null_ends c : not_null c -> fst (ends c) <= snd (ends c).
Proof. intros (v & V). apply stands_ends in V. unfold inside in V. lia. Qed.

Fixpoint cover_all (l : list (Z * Z)) (cov : list (Z * Z)) : res (list (Z * Z) * list report) :=
  match l with
  | [] => Ok (cov, [])
  | p :: r =>
      do! (cov, e1) <- cover_choice cov (fst p) (snd p);
      do! (cov, e2) <- cover_all r cov;
      Ok (cov, e1 ++ e2)
  end.

Lemma check_index_in tlow thigh v : tlow <= v <= thigh -> check_index tlow thigh v = [].
Proof.
  intros H. unfold check_index. destruct (Z.leb_spec tlow v); [|lia].
  destruct (Z.leb_spec v thigh); [reflexivity|lia].
Qed.

Lemma check_index_out tlow thigh v : tlow <= thigh -> check_index tlow thigh v = [] -> tlow <= v <= thigh.
Proof.
  intros Hn. unfold check_index. destruct (Z.leb_spec tlow v), (Z.leb_spec v thigh), (Z.leb_spec tlow thigh); cbn; try lia; discriminate.
Qed.

Lemma ends_range up l r : ends (Range up l r) = (l, r) \/ ends (Range up l r) = (r, l).
Proof. destruct up; cbn; auto. Qed.

Lemma check_choices_cover tlow thigh l : forall cov,
  ~ In Others l -> Forall (fun c => inb tlow thigh (ends c)) l ->
  check_choices tlow thigh l false cov = (do! (cov, e) <- cover_all (map ends l) cov; Ok (false, cov, e)).
Proof.
  induction l as [|c l IH]; intros cov N F; [reflexivity|].
  inversion F as [|? ? Fc Fl]; subst. cbn [check_choices map cover_all].
  assert (X : check_choice tlow thigh c false cov =
    (do! (cov, e) <- cover_choice cov (fst (ends c)) (snd (ends c)); Ok (false, cov, e))).
  { destruct c as [|v|up lf rt]; [exfalso; apply N; now left| |]; cbn [check_choice ends fst snd].
    - unfold inb in Fc; cbn in Fc. rewrite check_index_in by lia. reflexivity.
    - assert (B : tlow <= lf <= thigh /\ tlow <= rt <= thigh).
      { unfold inb in Fc. destruct up; cbn in Fc; lia. }
      rewrite !check_index_in by lia. reflexivity. }
  rewrite X. destruct (cover_choice cov (fst (ends c)) (snd (ends c))) as [[cov1 e1]|]; cbn [bind]; [|reflexivity].
  rewrite IH by (auto; intros Y; apply N; now right).
  destruct (cover_all (map ends l) cov1) as [[cov2 e2]|]; reflexivity.
Qed.

Lemma check_choices_accepted tlow thigh l : tlow <= thigh -> forall cov ho cov',
  ~ In Others l -> Forall not_null l ->
  check_choices tlow thigh l false cov = Ok (ho, cov', []) ->
  ho = false /\ Forall (fun c => inb tlow thigh (ends c)) l /\ cover_all (map ends l) cov = Ok (cov', []).
Proof.
  intros Hn. induction l as [|c l IH]; intros cov ho cov' N Nn E.
  - cbn in E. injection E as <- <-. repeat split; auto.
  - inversion Nn as [|? ? Nc Nl]; subst. cbn [check_choices] in E.
    destruct (check_choice tlow thigh c false cov) as [[[ho1 cov1] e1]|] eqn:C; cbn [bind] in E; [|discriminate].
    destruct (check_choices tlow thigh l ho1 cov1) as [[[ho2 cov2] e2]|] eqn:C2; cbn [bind] in E; [|discriminate].
    injection E as -> -> E. apply app_eq_nil in E as (-> & ->).
    assert (X : ho1 = false /\ inb tlow thigh (ends c) /\ cover_choice cov (fst (ends c)) (snd (ends c)) = Ok (cov1, [])).
    { pose proof (not_null_ends c Nc) as Ne.
      destruct c as [|v|up lf rt]; [exfalso; apply N; now left| |]; cbn [check_choice ends fst snd] in C |- *.
      - destruct (check_index tlow thigh v) eqn:I; [|discriminate]. apply check_index_out in I; auto.
        destruct (cover_choice cov v v) as [[cv e]|]; cbn [bind] in C; [|discriminate].
        injection C as <- <- ->. split; auto. split; auto. unfold inb; cbn. lia.
      - destruct (check_index tlow thigh lf) eqn:I; cbn [app] in C; [|discriminate].
        destruct (check_index tlow thigh rt) eqn:J; cbn [orb] in C; [|discriminate].
        apply check_index_out in I; auto. apply check_index_out in J; auto.
        destruct (cover_choice cov (low_of up lf rt) (high_of up lf rt)) as [[cv e]|]; cbn [bind app] in C; [|discriminate].
        injection C as <- <- ->. split; auto. split; auto. unfold inb. cbn [ends] in Ne. cbn [fst snd] in *.
        destruct up; cbn in *; lia. }
    destruct X as (-> & I & E1).
    destruct (IH cov1 ho cov' ltac:(intros Y; apply N; now right) Nl C2) as (-> & F & E2).
    split; auto. split; [constructor; auto|]. cbn [map cover_all]. rewrite E1. cbn [bind]. rewrite E2. reflexivity.
Qed.

(* Positions and lists. *)
Fixpoint disjoint (l : list (Z * Z)) : Prop :=
  match l with
  | [] => True
  | p :: r => (forall v, inside v p -> ~ incov r v) /\ disjoint r
  end.

Lemma incov_map l v : incov (map ends l) v <-> exists c, In c l /\ stands_for c v.
Proof.
  split.
  - intros (p & P & I). apply in_map_iff in P as (c & <- & P). exists c. split; auto. now apply stands_ends.
  - intros (c & P & I). exists (ends c). split; [now apply in_map|now apply stands_ends].
Qed.

Lemma disjoint_pos l :
  disjoint (map ends l) <->
  (forall i j c d v, nth_error l i = Some c -> nth_error l j = Some d -> stands_for c v -> stands_for d v -> i = j).
Proof.
  induction l as [|c l IH]; cbn [map disjoint].
  - split; auto. intros _ [|i] j c d v H; discriminate.
  - split.
    + intros (A & D) i j x y v Hi Hj X Y. destruct i as [|i], j as [|j]; auto; cbn in Hi, Hj.
      * injection Hi as <-. exfalso. apply (A v); [now apply stands_ends|]. apply incov_map. exists y. split; auto. eapply nth_error_In; eauto.
      * injection Hj as <-. exfalso. apply (A v); [now apply stands_ends|]. apply incov_map. exists x. split; auto. eapply nth_error_In; eauto.
      * f_equal. rewrite IH in D. eauto.
    + intros H. split.
      * intros v V I. apply incov_map in I as (d & D & Sd). apply In_nth_error in D as (j & J).
        assert (0%nat = S j) by (eapply (H 0%nat (S j) c d v); eauto; now apply stands_ends). discriminate.
      * apply IH. intros i j x y v Hi Hj X Y. assert (S i = S j) by (eapply (H (S i) (S j)); eauto). lia.
Qed.

(* Disjoint choices: no complaint, and exactly their values are covered. *)
Lemma cover_all_disjoint lo hi l : forall cov,
  - 2 ^ 62 <= lo -> hi <= 2 ^ 62 -> Forall (inb lo hi) l -> Forall (inb lo hi) cov -> sep cov ->
  disjoint l -> (forall v, incov l v -> ~ incov cov v) ->
  exists cov', cover_all l cov = Ok (cov', []) /\ Forall (inb lo hi) cov' /\ sep cov' /\
    (forall v, incov cov' v <-> incov cov v \/ incov l v) /\ (l <> [] -> cov' <> []).
Proof.
  induction l as [|p l IH]; intros cov Hlo Hhi F Fc Sc D A; cbn [cover_all].
  - exists cov. repeat split; auto; try congruence. intros [X|X]; auto. destruct (incov_nil v X).
  - inversion F as [|? ? Fp Fl]; subst. destruct D as (Dp & D). destruct p as [low high]. cbn [fst snd].
    destruct (cover_ok lo hi cov low high Hlo Hhi Fc Fp) as (c1 & e & E & F1 & V1 & N1 & _).
    destruct (cover_disjoint lo hi cov low high Hlo Hhi Fc Fp Sc) as (c2 & E2 & S1 & _).
    { intros v V W. apply (A v); auto. apply incov_cons. left. exact W. }
    rewrite E in E2. injection E2 as -> ->. rewrite E. cbn [bind].
    destruct (IH c2 Hlo Hhi Fl F1 S1 D) as (c3 & E3 & F3 & S3 & V3 & N3).
    { intros v V W. apply V1 in W as [W|W]; [apply (A v); auto; apply incov_cons; auto|]. now apply (Dp v). }
    rewrite E3. cbn [bind]. exists c3. split; auto. split; auto. split; auto. split.
    + intros v. rewrite V3, V1, incov_cons. unfold inside; cbn. tauto.
    + intros _. destruct l as [|q l]; [|apply N3; discriminate]. cbn in E3. injection E3 as <-. auto.
Qed.

(* Choices in ascending order: a choice that meets an earlier one is reported. *)
Fixpoint strict (l : list (Z * Z)) : Prop :=
  match l with
  | [] => True
  | p :: r => match r with [] => True | q :: _ => snd p + 1 < fst q end /\ strict r
  end.

Lemma cover_up lo hi l low high l' :
  - 2 ^ 62 <= lo -> hi <= 2 ^ 62 -> Forall (inb lo hi) l -> inb lo hi (low, high) -> strict l ->
  (forall p, In p l -> fst p <= low) -> cover_choice l low high = Ok (l', []) ->
  (forall v, incov l v -> v < low) /\ strict l' /\ (forall p, In p l' -> fst p <= low) /\
  (match l with [] => True | p :: _ => match l' with [] => False | q :: _ => fst q = fst p end end).
Proof.
  intros Hlo Hhi. revert l'. induction l as [|[a b] l IH]; intros l' F I S A E.
  - cbn in E. injection E as <-. split; [intros v V; destruct (incov_nil v V)|]. split; [cbn; auto|].
    split; auto. intros p [<-|[]]. cbn. lia.
  - inversion F as [|? ? Fa Fl]; subst. cbn [cover_choice] in E. unfold inb in Fa, I; cbn in Fa, I.
    assert (Aa : a <= low) by (apply (A (a, b)); now left).
    destruct (Z.leb_spec a high); [|lia]. destruct (Z.leb_spec low b); cbn [andb] in E; [discriminate|].
    rewrite int64_ok in E by lia. cbn [bind] in E. destruct (Z.eqb_spec high (a - 1)); [lia|].
    rewrite int64_ok in E by lia. cbn [bind] in E. destruct (Z.eqb_spec low (b + 1)) as [C|C].
    + injection E as <-.
      assert (L : l = []).
      { destruct l as [|[c d] l]; auto. exfalso. destruct S as (S & _). cbn in S.
        assert (c <= low) by (apply (A (c, d)); right; now left). lia. }
      subst l. split.
      { intros v V. apply incov_cons in V as [V|V]; [unfold inside in V; cbn in V; lia|destruct (incov_nil v V)]. }
      split; [cbn; auto|]. split; [intros p [<-|[]]; cbn; lia|reflexivity].
    + destruct (cover_choice l low high) as [[r e]|] eqn:R; cbn [bind] in E; [|discriminate].
      injection E as <- ->.
      assert (Sl : strict l) by (destruct S; auto).
      destruct (IH r Fl I Sl ltac:(intros p P; apply A; now right) eq_refl) as (Q1 & Q2 & Q3 & Q4).
      split. { intros v V. apply incov_cons in V as [V|V]; [unfold inside in V; cbn in V; lia|auto]. }
      split. { split; [|exact Q2]. destruct r as [|[c d] r]; auto. destruct l as [|[x y] l].
               - cbn in R. injection R as <- <- <-. cbn. lia.
               - destruct S as (S & _). cbn in S, Q4 |- *. lia. }
      split; [|reflexivity]. intros p [<-|P]; [cbn; lia|auto].
Qed.

Lemma cover_all_up lo hi l : forall cov cov',
  - 2 ^ 62 <= lo -> hi <= 2 ^ 62 -> Forall (inb lo hi) l -> Forall (inb lo hi) cov -> strict cov ->
  (forall i j p q, (i < j)%nat -> nth_error l i = Some p -> nth_error l j = Some q -> fst p <= fst q) ->
  (forall p q, In p cov -> In q l -> fst p <= fst q) ->
  cover_all l cov = Ok (cov', []) -> disjoint l /\ (forall v, incov l v -> ~ incov cov v).
Proof.
  induction l as [|p l IH]; intros cov cov' Hlo Hhi F Fc S O A E.
  - split; [exact I|]. intros v V. destruct (incov_nil v V).
  - inversion F as [|? ? Fp Fl]; subst. destruct p as [low high]. cbn [cover_all fst snd] in E.
    destruct (cover_choice cov low high) as [[c1 e1]|] eqn:C; cbn [bind] in E; [|discriminate].
    destruct (cover_all l c1) as [[c2 e2]|] eqn:C2; cbn [bind] in E; [|discriminate].
    injection E as <- E. apply app_eq_nil in E as (-> & ->).
    destruct (cover_ok lo hi cov low high Hlo Hhi Fc Fp) as (c1' & e & E & F1 & V1 & _). rewrite C in E. injection E as <- <-.
    destruct (cover_up lo hi cov low high c1 Hlo Hhi Fc Fp S) as (Q1 & Q2 & Q3 & _); auto.
    { intros p P. apply (A p (low, high) P). now left. }
    destruct (IH c1 c2 Hlo Hhi Fl F1 Q2) as (D & N).
    { intros i j x y L X Y. apply (O (Datatypes.S i) (Datatypes.S j)); auto. lia. }
    { intros x y X Y. apply In_nth_error in Y as (j & Y).
      assert (low <= fst y) by (apply (O 0%nat (Datatypes.S j) (low, high) y); auto; lia). specialize (Q3 x X). lia. }
    { exact C2. }
    split.
    + split; auto. intros v V W. apply (N v W). apply V1. right. exact V.
    + intros v V W. apply incov_cons in V as [V|V].
      * unfold inside in V; cbn in V. specialize (Q1 v W). lia.
      * apply (N v V). apply V1. auto.
Qed.

(* ... and in descending order. *)
Lemma cover_down lo hi l low high l' :
  Forall (inb lo hi) l -> inb lo hi (low, high) -> sep l ->
  (forall p, In p l -> low <= fst p) -> cover_choice l low high = Ok (l', []) ->
  (forall v, incov l v -> high < v) /\ sep l' /\ l' = (low, high) :: l.
Proof.
  intros F I S A E. destruct l as [|[a b] l].
  - cbn in E. injection E as <-. split; [intros v V; destruct (incov_nil v V)|]. split; auto. cbn. auto.
  - inversion F as [|? ? Fa Fl]; subst. cbn [cover_choice] in E. unfold inb in Fa, I; cbn in Fa, I.
    assert (Aa : low <= a) by (apply (A (a, b)); now left).
    destruct (Z.leb_spec a high).
    + destruct (Z.leb_spec low b); [discriminate|lia].
    + injection E as <-. split.
      { intros v V. apply incov_cons in V as [V|V]; [unfold inside in V; cbn in V; lia|].
        pose proof (sep_above lo hi (a, b) l v Fl S V) as Q. cbn in Q. lia. }
      split; auto. split; [cbn; lia|exact S].
Qed.

Lemma cover_all_down lo hi l : forall cov cov',
  - 2 ^ 62 <= lo -> hi <= 2 ^ 62 -> Forall (inb lo hi) l -> Forall (inb lo hi) cov -> sep cov ->
  (forall i j p q, (i < j)%nat -> nth_error l i = Some p -> nth_error l j = Some q -> fst q <= fst p) ->
  (forall p q, In p cov -> In q l -> fst q <= fst p) ->
  cover_all l cov = Ok (cov', []) -> disjoint l /\ (forall v, incov l v -> ~ incov cov v).
Proof.
  induction l as [|p l IH]; intros cov cov' Hlo Hhi F Fc S O A E.
  - split; [exact I|]. intros v V. destruct (incov_nil v V).
  - inversion F as [|? ? Fp Fl]; subst. destruct p as [low high]. cbn [cover_all fst snd] in E.
    destruct (cover_choice cov low high) as [[c1 e1]|] eqn:C; cbn [bind] in E; [|discriminate].
    destruct (cover_all l c1) as [[c2 e2]|] eqn:C2; cbn [bind] in E; [|discriminate].
    injection E as <- E. apply app_eq_nil in E as (-> & ->).
    destruct (cover_down lo hi cov low high c1 Fc Fp S) as (Q1 & Q2 & ->); auto.
    { intros p P. apply (A p (low, high) P). now left. }
    destruct (IH ((low, high) :: cov) c2 Hlo Hhi Fl ltac:(constructor; auto) Q2) as (D & N).
    { intros i j x y L X Y. apply (O (Datatypes.S i) (Datatypes.S j)); auto. lia. }
    { intros x y [<-|X] Y; [|apply A; auto; now right]. apply In_nth_error in Y as (j & Y).
      apply (O 0%nat (Datatypes.S j) (low, high) y); auto; lia. }
    { exact C2. }
    split.
    + split; auto. intros v V W. apply (N v W). apply incov_cons. left. exact V.
    + intros v V W. apply incov_cons in V as [V|V].
      * unfold inside in V; cbn in V. specialize (Q1 v W). lia.
      * apply (N v V). apply incov_cons. auto.
Qed.

(* ---- reports of values covered twice ---- *)

Definition twice (l : list choice) (v : Z) : Prop :=
  exists i j c d, (i < j)%nat /\ nth_error l i = Some c /\ nth_error l j = Some d /\ stands_for c v /\ stands_for d v.

Lemma check_genuine tlow thigh l : - 2 ^ 62 <= tlow -> thigh <= 2 ^ 62 -> tlow <= thigh -> forall pre ho cov ho' cov' e,
  Forall (fun c => c = Others \/ not_null c) l -> Forall (inb tlow thigh) cov ->
  (forall v, incov cov v -> exists c, In c pre /\ stands_for c v) ->
  check_choices tlow thigh l ho cov = Ok (ho', cov', e) ->
  forall a b, In (Covered a b) e -> a <= b /\ forall v, a <= v <= b -> twice (pre ++ l) v.
Proof.
  intros Hlo Hhi Hn. induction l as [|c l IH]; intros pre ho cov ho' cov' e N F A E a b Q.
  - cbn in E. injection E as <- <- <-. destruct Q.
  - inversion N as [|? ? Nc Nl]; subst. cbn [check_choices] in E.
    destruct (check_choice tlow thigh c ho cov) as [[[ho1 cov1] e1]|] eqn:C; cbn [bind] in E; [|discriminate].
    destruct (check_choices tlow thigh l ho1 cov1) as [[[ho2 cov2] e2]|] eqn:C2; cbn [bind] in E; [|discriminate].
    injection E as <- <- <-.
    assert (X : Forall (inb tlow thigh) cov1 /\
       (forall v, incov cov1 v -> exists x, In x (pre ++ [c]) /\ stands_for x v) /\
       (forall a b, In (Covered a b) e1 -> a <= b /\ forall v, a <= v <= b -> incov cov v /\ stands_for c v)).
    { assert (Keep : forall v, incov cov v -> exists x, In x (pre ++ [c]) /\ stands_for x v).
      { intros v V. destruct (A v V) as (x & X & Y). exists x. split; auto. apply in_or_app; auto. }
      assert (Go : inb tlow thigh (ends c) -> forall r, cover_choice cov (fst (ends c)) (snd (ends c)) = Ok r ->
         Forall (inb tlow thigh) (fst r) /\
         (forall v, incov (fst r) v -> exists x, In x (pre ++ [c]) /\ stands_for x v) /\
         (forall a b, In (Covered a b) (snd r) -> a <= b /\ forall v, a <= v <= b -> incov cov v /\ stands_for c v)).
      { intros I r R. destruct (ends c) as [low high] eqn:Ec. cbn [fst snd] in R.
        destruct (cover_ok tlow thigh cov low high Hlo Hhi F I) as (l' & e & E & F' & V & _ & W).
        rewrite R in E. injection E as ->. cbn [fst snd]. split; auto. split.
        - intros v Hv. apply V in Hv as [Hv|Hv]; [auto|]. exists c. split; [apply in_or_app; right; now left|].
          apply stands_ends. rewrite Ec. exact Hv.
        - intros x y Hx. destruct W as [(-> & _)|(p & q & -> & L & W)]; [destruct Hx|].
          destruct Hx as [Hx|[]]. injection Hx as <- <-. split; auto. intros v Hv. destruct (W v Hv). split; auto.
          apply stands_ends. rewrite Ec. auto. }
      assert (O : forall v, In (Outside v) [Outside v] -> forall a b, ~ In (Covered a b) [Outside v]).
      { intros v _ x y [H|[]]. discriminate. }
      destruct c as [|v|up lf rt]; cbn [check_choice] in C.
      - injection C as <- <- <-. split; auto. split; auto. intros x y [].
      - destruct (check_index tlow thigh v) as [|x xs] eqn:I.
        + destruct ho.
          * injection C as <- <- <-. split; auto. split; auto. intros x y [].
          * destruct (cover_choice cov v v) as [[cv ev]|] eqn:K; cbn [bind] in C; [|discriminate].
            injection C as <- <- <-. apply check_index_out in I; auto.
            apply (Go ltac:(unfold inb; cbn; lia) (cv, ev)). exact K.
        + injection C as <- <- <-. split; auto. split; auto. intros p q H. exfalso.
          unfold check_index in I. destruct (_ && _); [|discriminate]. injection I as <- <-. destruct H as [H|[]]; discriminate.
      - assert (NC : forall p q, ~ In (Covered p q) (check_index tlow thigh lf ++ check_index tlow thigh rt)).
        { intros p q H. apply in_app_or in H. unfold check_index in H.
          destruct H as [H|H]; destruct (_ && _) in H; cbn in H; intuition discriminate. }
        destruct (check_index tlow thigh lf ++ check_index tlow thigh rt) as [|x xs] eqn:I.
        + destruct ho; cbn [orb] in C.
          * injection C as <- <- <-. split; auto. split; auto. intros x y [].
          * destruct (cover_choice cov (low_of up lf rt) (high_of up lf rt)) as [[cv ev]|] eqn:K; cbn [bind app] in C; [|discriminate].
            injection C as <- <- <-. apply app_eq_nil in I as (I & J).
            apply check_index_out in I; auto. apply check_index_out in J; auto.
            destruct Nc as [Nc|Nc]; [discriminate|]. apply not_null_ends in Nc.
            apply (Go ltac:(unfold inb; cbn [ends] in *; destruct up; cbn in *; lia) (cv, ev)). exact K.
        + rewrite orb_true_r in C. injection C as <- <- <-. split; auto. split; auto.
          intros p q H. exfalso. exact (NC p q H). }
    destruct X as (F1 & A1 & W). apply in_app_or in Q as [Q|Q].
    + destruct (W a b Q) as (L & V). split; auto. intros v Hv. destruct (V v Hv) as (I & S).
      destruct (A v I) as (x & Hx & Sx). apply In_nth_error in Hx as (i & Hi).
      exists i, (length pre), x, c.
      assert (i < length pre)%nat by (apply nth_error_Some; congruence).
      split; auto. split; [rewrite nth_error_app1; auto|]. split; [|auto].
      rewrite nth_error_app2, Nat.sub_diag by lia. reflexivity.
    + destruct (IH (pre ++ [c]) ho1 cov1 ho2 cov2 e2 Nl F1 A1 C2 a b Q) as (L & V).
      split; auto. intros v Hv. specialize (V v Hv). rewrite <- app_assoc in V. exact V.
Qed.

(* ---- which alternative runs ---- *)

Lemma alt_ranges_in k l lo hi k' : In (lo, hi, k') (alt_ranges k l) <->
  k' = k /\ exists up lf rt, In (Range up lf rt) l /\ lo = low_of up lf rt /\ hi = high_of up lf rt.
Proof.
  induction l as [|c l IH]; cbn.
  - split; [intros []|intros (_ & up & lf & rt & [] & _)].
  - destruct c as [|v|up lf rt]; cbn [In]; rewrite ?IH.
    + split; intros (-> & up & lf & rt & H & E); split; auto; exists up, lf, rt; intuition discriminate.
    + split; intros (-> & up & lf & rt & H & E); split; auto; exists up, lf, rt; intuition discriminate.
    + split.
      * intros [H|(-> & u & a & b & H & E)]; [injection H as <- <- <-; split; auto; exists up, lf, rt; auto|].
        split; auto. exists u, a, b. auto.
      * intros (-> & u & a & b & [H|H] & -> & ->); [injection H as <- <- <-; auto|]. right. split; auto. exists u, a, b. auto.
Qed.

Lemma ranges_from_in s : forall k lo hi k', In (lo, hi, k') (ranges_from k s) <->
  exists j l up lf rt, k' = (k + j)%nat /\ nth_error s j = Some l /\ In (Range up lf rt) l /\ lo = low_of up lf rt /\ hi = high_of up lf rt.
Proof.
  induction s as [|l s IH]; intros k lo hi k'; cbn.
  - split; [intros []|intros ([|j] & l & up & lf & rt & _ & H & _); discriminate].
  - rewrite in_app_iff, alt_ranges_in, IH. split.
    + intros [(-> & up & lf & rt & H & E)|(j & l' & up & lf & rt & -> & H & E)].
      * exists 0%nat, l, up, lf, rt. split; [lia|]. auto.
      * exists (S j), l', up, lf, rt. split; [lia|]. auto.
    + intros ([|j] & l' & up & lf & rt & -> & H & E).
      * left. injection H as ->. split; [lia|]. exists up, lf, rt. auto.
      * right. exists j, l', up, lf, rt. split; [lia|]. auto.
Qed.

Lemma stands_range up lf rt v : stands_for (Range up lf rt) v <-> low_of up lf rt <= v <= high_of up lf rt.
Proof. destruct up; cbn; lia. Qed.

(* `others` occurs at most once. *)
Definition count_others (l : list choice) : nat :=
  length (filter (fun c => match c with Others => true | _ => false end) l).

Lemma count_zero l : ~ In Others l -> count_others l = 0%nat.
Proof.
  induction l as [|c l IH]; intros H; [reflexivity|]. unfold count_others in *. destruct c; cbn in *; try (apply IH; tauto). exfalso; auto.
Qed.

Lemma count_app a b : count_others (a ++ b) = (count_others a + count_others b)%nat.
Proof. unfold count_others. now rewrite filter_app, app_length. Qed.

Lemma others_last_count s : others_last s -> (count_others (concat s) <= 1)%nat.
Proof.
  intros H. destruct (in_dec (fun a b : choice => ltac:(decide equality; try apply Z.eq_dec; decide equality)) Others (concat s)) as [I|I].
  - apply in_split in I as (a & b & E). pose proof (H a b E) as ->. rewrite E, count_app.
    assert (~ In Others a).
    { intros J. apply in_split in J as (x & y & ->). rewrite <- app_assoc in E. cbn in E.
      pose proof (H x (y ++ [Others]) E) as Z. destruct y; discriminate. }
    rewrite count_zero by auto. cbn. lia.
  - rewrite count_zero by auto. lia.
Qed.

Lemma alt_cases_ok k l : forall def, (count_others l + match def with None => 0 | Some _ => 1 end <= 1)%nat ->
  exists cs def', alt_cases k l def = Ok (cs, def') /\
    (forall v k', In (v, k') cs <-> k' = k /\ In (Named v) l) /\
    (def' = if existsb (fun c => match c with Others => true | _ => false end) l then Some k else def).
Proof.
  induction l as [|c l IH]; intros def C; cbn [alt_cases].
  - exists [], def. split; auto. split; auto. intros v k'. cbn. tauto.
  - destruct c as [|x|up lf rt].
    + destruct def; [cbn in C; lia|]. destruct (IH (Some k)) as (cs & d & E & H & D).
      { cbn in C |- *. unfold count_others in *. cbn in C. lia. }
      exists cs, d. split; auto. split.
      * intros v k'. rewrite H. cbn. intuition discriminate.
      * cbn. rewrite D. destruct (existsb _ l); reflexivity.
    + destruct (IH def) as (cs & d & E & H & D). { exact C. }
      rewrite E. cbn [bind]. exists ((x, k) :: cs), d. split; auto. split; [|exact D].
      intros v k'. cbn. rewrite H. split.
      * intros [X|(-> & X)]; [injection X as -> ->; auto|auto].
      * intros (-> & [X|X]); [injection X as ->; auto|auto].
    + destruct (IH def) as (cs & d & E & H & D). { exact C. }
      exists cs, d. split; auto. split; [|exact D]. intros v k'. rewrite H. cbn. intuition discriminate.
Qed.

Lemma existsb_others l : existsb (fun c => match c with Others => true | _ => false end) l = true <-> In Others l.
Proof.
  rewrite existsb_exists. split; [intros ([] & H & E); congruence|]. intros H. exists Others. auto.
Qed.

Lemma cases_from_ok s : forall k def,
  (count_others (concat s) + match def with None => 0 | Some _ => 1 end <= 1)%nat ->
  exists cs def', cases_from k s def = Ok (cs, def') /\
    (forall v k', In (v, k') cs <-> exists j l, k' = (k + j)%nat /\ nth_error s j = Some l /\ In (Named v) l) /\
    (match def' with
     | Some k' => def = Some k' \/ (exists j l, k' = (k + j)%nat /\ nth_error s j = Some l /\ In Others l)
     | None => def = None /\ ~ In Others (concat s)
     end).
Proof.
  induction s as [|l s IH]; intros k def C; cbn [cases_from].
  - exists [], def. split; auto. split.
    + intros v k'. split; [intros []|intros ([|j] & l & _ & H & _); discriminate].
    + destruct def; auto.
  - cbn [concat] in C. rewrite count_app in C.
    destruct (alt_cases_ok k l def) as (c1 & d1 & E1 & H1 & D1); [lia|]. rewrite E1. cbn [bind].
    destruct (IH (S k) d1) as (c2 & d2 & E2 & H2 & D2).
    { rewrite D1. destruct (existsb _ l) eqn:X; [|lia]. apply existsb_others in X. apply in_split in X as (a & b & ->).
      rewrite count_app in C. unfold count_others in C at 2. cbn in C. lia. }
    rewrite E2. cbn [bind]. exists (c1 ++ c2), d2. split; auto. split.
    + intros v k'. rewrite in_app_iff, H1, H2. split.
      * intros [(-> & X)|(j & l' & -> & X)]; [exists 0%nat, l; split; [lia|auto]|exists (S j), l'; split; [lia|auto]].
      * intros ([|j] & l' & -> & X & Y); [left; injection X as ->; split; [lia|auto]|right; exists j, l'; split; [lia|auto]].
    + destruct d2 as [k'|].
      * destruct D2 as [D2|(j & l' & -> & X)]; [|right; exists (S j), l'; split; [lia|auto]].
        rewrite D2 in D1. destruct (existsb _ l) eqn:X; [|auto]. right. injection D1 as ->. apply existsb_others in X.
        exists 0%nat, l. split; [lia|auto].
      * destruct D2 as (-> & N). destruct (existsb _ l) eqn:X; [discriminate|]. split; auto.
        cbn [concat]. intros I. apply in_app_or in I as [I|I]; [|auto]. apply existsb_others in I. congruence.
Qed.

Lemma in_concat_nth {A} (s : list (list A)) c : In c (concat s) <-> exists j l, nth_error s j = Some l /\ In c l.
Proof.
  rewrite in_concat. split.
  - intros (l & L & I). apply In_nth_error in L as (j & J). eauto.
  - intros (j & l & J & I). exists l. split; auto. eapply nth_error_In; eauto.
Qed.

Lemma lower_scalar_selects s : others_last s ->
  exists code, lower_case_scalar s = Ok code /\ forall v, selects s v (run_scalar code v).
Proof.
  intros H. unfold lower_case_scalar.
  destruct (cases_from_ok s 0 None) as (cs & d & E & C & D). { pose proof (others_last_count s H). lia. }
  rewrite E. cbn [bind]. eexists. split; [reflexivity|]. intros v. unfold run_scalar. cbn [sc_ranges sc_cases sc_def].
  destruct (find _ (ranges_from 0 s)) as [[[lo hi] k]|] eqn:F.
  - apply find_some in F as (F & B). cbn [fst snd] in *. apply andb_true_iff in B as (B1 & B2).
    apply Z.leb_le in B1. apply Z.leb_le in B2.
    apply ranges_from_in in F as (j & l & up & lf & rt & -> & J & I & -> & ->).
    eapply sel_choice; eauto. apply stands_range. lia.
  - destruct (find (fun p => fst p =? v) cs) as [[x k]|] eqn:G.
    + apply find_some in G as (G & B). cbn [fst snd] in *. apply Z.eqb_eq in B. subst x.
      apply C in G as (j & l & -> & J & I). eapply sel_choice; eauto. reflexivity.
    + assert (N : forall c, In c (concat s) -> ~ stands_for c v).
      { intros c I S. apply in_concat_nth in I as (j & l & J & I). destruct c as [|x|up lf rt].
        - exact S.
        - cbn in S. subst x. assert (Q : In (v, j) cs) by (apply C; exists j, l; auto).
          apply (find_none _ _ G) in Q. cbn in Q. rewrite Z.eqb_refl in Q. discriminate.
        - assert (Q : In (low_of up lf rt, high_of up lf rt, j) (ranges_from 0 s)).
          { apply ranges_from_in. exists j, l, up, lf, rt. auto. }
          apply (find_none _ _ F) in Q. cbn [fst snd] in Q. apply stands_range in S.
          rewrite andb_false_iff, !Z.leb_gt in Q. lia. }
      destruct d as [k|].
      * destruct D as [D|(j & l & -> & J & I)]; [discriminate|]. eapply sel_others; eauto.
      * destruct D as (_ & D). apply sel_none; auto.
Qed.

Lemma match_choices_sound l v :
  (forall c, In c l -> forall up lf rt, c = Range up lf rt -> stands_for c v) ->
  if match_choices l v then
    (exists c, In c l /\ stands_for c v) \/ (exists a b, l = a ++ Others :: b /\ forall c, In c a -> ~ stands_for c v)
  else forall c, In c l -> c <> Others /\ ~ stands_for c v.
Proof.
  induction l as [|c l IH]; intros R; cbn [match_choices]; [intros c []|].
  destruct c as [|x|up lf rt].
  - right. exists [], l. split; [reflexivity|intros c []].
  - destruct (Z.eqb_spec v x) as [->|N]; [left; exists (Named x); cbn; auto|].
    specialize (IH ltac:(intros c I; apply R; now right)). destruct (match_choices l v).
    + destruct IH as [(c & I & S)|(a & b & -> & A)]; [left; exists c; split; auto; now right|].
      right. exists (Named x :: a), b. split; auto. intros c [<-|I]; [cbn; lia|auto].
    + intros c [<-|I]; [split; [discriminate|cbn; lia]|auto].
  - assert (S : stands_for (Range up lf rt) v) by (eapply R; [now left|reflexivity]).
    destruct (_ && _); left; exists (Range up lf rt); split; auto; now left.
Qed.

Lemma simp_selects s v : others_last s ->
  (forall c, In c (concat s) -> forall up lf rt, c = Range up lf rt -> stands_for c v) ->
  selects s v (simp_case s v).
Proof.
  intros O R. unfold simp_case.
  assert (G : forall done rest, s = done ++ rest ->
    (forall c, In c (concat done) -> c <> Others /\ ~ stands_for c v) ->
    selects s v (simp_from (length done) rest v)).
  { intros done rest. revert done. induction rest as [|l rest IH]; intros done E D; cbn [simp_from].
    - rewrite app_nil_r in E. subst done. apply sel_none; [intros c I; now apply D|]. intros I. now apply D in I as (I & _).
    - assert (Rl : forall c, In c l -> forall up lf rt, c = Range up lf rt -> stands_for c v).
      { intros c I. apply R. rewrite E, concat_app. apply in_or_app. right. cbn. apply in_or_app; auto. }
      pose proof (match_choices_sound l v Rl) as M.
      assert (J : nth_error s (length done) = Some l) by (rewrite E, nth_error_app2, Nat.sub_diag by lia; reflexivity).
      destruct (match_choices l v).
      + destruct M as [(c & I & S)|(a & b & L & A)]; [eapply sel_choice; eauto|].
        eapply sel_others; eauto; [subst l; apply in_or_app; right; now left|].
        assert (T : concat s = (concat done ++ a) ++ Others :: (b ++ concat rest)).
        { rewrite E, concat_app. cbn [concat]. rewrite L, <- !app_assoc. reflexivity. }
        pose proof (O _ _ T) as Z. rewrite T, Z. intros c I. apply in_app_or in I as [I|[<-|[]]]; [|auto].
        apply in_app_or in I as [I|I]; [now apply D|auto].
      + replace (S (length done)) with (length (done ++ [l])) by (rewrite app_length; cbn; lia).
        apply IH; [rewrite <- app_assoc; exact E|]. rewrite concat_app. cbn. rewrite app_nil_r.
        intros c I. apply in_app_or in I as [I|I]; auto. }
  apply (G [] s eq_refl). intros c [].
Qed.
