(* Lemmas on the model of T'IMAGE and T'VALUE *)
From Coq Require Import List ZArith Arith Bool Lia.
From Verif Require Import Base JitModel TextSpec TextModel.
Import ListNotations.
Local Open Scope Z_scope.

(** ** Characters *)

Lemma isspace_iff : forall c, isspace c = true <-> space c.
Proof.
  intros c. unfold isspace, space. rewrite !orb_true_iff, !Z.eqb_eq. tauto.
Qed.
Lemma isspace_false : forall c, isspace c = false <-> ~ space c.
Proof.
  intros c. rewrite <- isspace_iff. destruct (isspace c); split; intros; try congruence.
Qed.
Lemma isdigit_iff : forall c, isdigit c = true <-> digit c.
Proof. intros c. unfold isdigit, digit. rewrite andb_true_iff, !Z.leb_le. tauto. Qed.
Lemma isdigit_false : forall c, isdigit c = false <-> ~ digit c.
Proof.
  intros c. rewrite <- isdigit_iff. destruct (isdigit c); split; intros; try congruence.
Qed.
Lemma spaces_forallb : forall s, forallb isspace s = true <-> Forall space s.
Proof.
  intros s. rewrite forallb_forall, Forall_forall.
  split; intros H c I; apply isspace_iff; auto.
Qed.

Lemma skip_space_app : forall pre s,
  Forall space pre -> (forall c t, s = c :: t -> ~ space c) -> skip_space (pre ++ s) = s.
Proof.
  induction pre as [|c pre IH]; intros s F H; cbn [app].
  - destruct s as [|c s]; [reflexivity|]. cbn [skip_space].
    rewrite (proj2 (isspace_false c) (H c s eq_refl)). reflexivity.
  - inversion F; subst. cbn [skip_space]. rewrite (proj2 (isspace_iff c)) by assumption.
    apply IH; assumption.
Qed.

Lemma skip_space_split : forall s,
  exists pre, s = pre ++ skip_space s /\ Forall space pre /\
    (forall c t, skip_space s = c :: t -> ~ space c).
Proof.
  induction s as [|c s IH]; cbn [skip_space].
  - exists []. repeat split; auto. discriminate.
  - destruct (isspace c) eqn:E.
    + destruct IH as (pre & P & F & H). exists (c :: pre).
      split; [cbn; f_equal; exact P|]. split; [|exact H].
      constructor; [apply isspace_iff; exact E|exact F].
    + exists []. split; [reflexivity|]. split; [constructor|].
      intros d t X. inversion X; subst. apply isspace_false. exact E.
Qed.

(** ** Integers *)

Definition digit_ (c : Z) : Prop := digit c \/ underline c.
Lemma digit__iff : forall c, isdigit c || (c =? 95) = true <-> digit_ c.
Proof.
  intros c. unfold digit_, underline. rewrite orb_true_iff, isdigit_iff, Z.eqb_eq. tauto.
Qed.

Lemma decimal_ge : forall ds a, Forall digit_ ds -> 0 <= a -> a <= decimal a ds.
Proof.
  induction ds as [|c ds IH]; intros a F A; cbn [decimal]; [lia|].
  inversion F; subst. destruct (Z.eqb_spec c 95) as [->|N]; [apply IH; assumption|].
  assert (digit c) as D by (destruct H1 as [D|U]; [exact D|unfold underline in U; lia]).
  unfold digit in D. specialize (IH (10 * a + (c - 48)) H2 ltac:(lia)). lia.
Qed.

Definition count_digits (ds : list Z) : nat :=
  length (filter (fun c => negb (c =? 95)) ds).

Lemma t64_some : forall x, in_int64 x -> t64 x = Some x.
Proof.
  intros x [L H]. unfold t64.
  rewrite (proj2 (Z.leb_le _ _) L), (proj2 (Z.ltb_lt _ _) H). reflexivity.
Qed.
Lemma t64_none : forall x, ~ in_int64 x -> t64 x = None.
Proof.
  intros x N. unfold t64. destruct ((- 2 ^ 63 <=? x) && (x <? 2 ^ 63)) eqn:E; [|reflexivity].
  exfalso. apply N. apply andb_true_iff in E. unfold in_int64.
  rewrite Z.leb_le, Z.ltb_lt in E. exact E.
Qed.
Lemma t64_eq : forall x v, t64 x = Some v -> v = x /\ in_int64 x.
Proof.
  intros x v. unfold t64. destruct ((- 2 ^ 63 <=? x) && (x <? 2 ^ 63)) eqn:E; [|discriminate].
  intros H. inversion H; subst v. apply andb_true_iff in E.
  rewrite Z.leb_le, Z.ltb_lt in E. split; [reflexivity|exact E].
Qed.
Lemma in_int64_dec : forall x, {in_int64 x} + {~ in_int64 x}.
Proof.
  intros x. unfold in_int64.
  destruct (Z_le_dec (- 2 ^ 63) x), (Z_lt_dec x (2 ^ 63)); [left|right|right|right]; lia.
Qed.

(* The state of the loop after the magnitude [m] with the sign [minus]. *)
Definition pending (minus : bool) (m : Z) : bool := minus && (m =? 0).

Definition in_dec (x : Z) : bool := (- 2 ^ 63 <=? x) && (x <? 2 ^ 63).
Lemma in_dec_iff : forall x, in_dec x = true <-> in_int64 x.
Proof.
  intros x. unfold in_dec, in_int64. rewrite andb_true_iff, Z.leb_le, Z.ltb_lt. tauto.
Qed.

Lemma signed_mono : forall minus a b,
  0 <= a <= b -> in_int64 (signed minus b) -> in_int64 (signed minus a).
Proof. intros minus a b H. unfold in_int64, signed. destruct minus; lia. Qed.

(* One digit *)
Lemma step_ok : forall minus m d t n,
  0 <= m -> 0 <= d <= 9 -> in_int64 (signed minus m) ->
  (let? ten := t64 (signed minus m * 10) in
   let? r := (if 0 <=? signed minus m then t64 (ten + d) else t64 (ten - d)) in
   if pending minus m && (0 <? r) then
     let? r := t64 (- r) in digit_loop t false r (S n)
   else digit_loop t (pending minus m) r (S n))
  = if in_dec (signed minus (10 * m + d))
    then digit_loop t (pending minus (10 * m + d)) (signed minus (10 * m + d)) (S n)
    else None.
Proof.
  intros minus m d t n M D I.
  destruct (in_int64_dec (signed minus (10 * m + d))) as [Y|N].
  - rewrite (proj2 (in_dec_iff _) Y).
    assert (in_int64 (signed minus m * 10)) as T
      by (unfold in_int64, signed in *; destruct minus; lia).
    rewrite (t64_some _ T). unfold signed, pending in *.
    destruct minus; cbn [andb].
    + destruct (Z.eqb_spec m 0) as [->|NZ].
      * change (- 0) with 0. change (0 * 10) with 0. change (0 <=? 0) with true. cbn [andb].
        change (10 * 0) with 0 in *. rewrite !Z.add_0_l in *.
        rewrite t64_some by (unfold in_int64; lia).
        destruct (Z.ltb_spec 0 d).
        -- rewrite (t64_some _ Y). rewrite (proj2 (Z.eqb_neq d 0)) by lia. reflexivity.
        -- assert (d = 0) by lia. subst d. reflexivity.
      * rewrite (proj2 (Z.leb_gt 0 (- m))) by lia.
        replace (- m * 10 - d) with (- (10 * m + d)) by lia. rewrite (t64_some _ Y).
        cbn [andb]. rewrite (proj2 (Z.eqb_neq (10 * m + d) 0)) by lia. reflexivity.
    + rewrite (proj2 (Z.leb_le 0 m)) by lia.
      replace (m * 10 + d) with (10 * m + d) by lia. rewrite (t64_some _ Y). reflexivity.
  - destruct (in_dec (signed minus (10 * m + d))) eqn:E;
      [apply in_dec_iff in E; contradiction|].
    destruct (t64 (signed minus m * 10)) as [ten|] eqn:T; [|reflexivity].
    apply t64_eq in T. destruct T as [-> T]. unfold signed, pending in *.
    destruct minus.
    + destruct (Z.eqb_spec m 0) as [->|NZ].
      * exfalso. apply N. unfold in_int64. lia.
      * rewrite (proj2 (Z.leb_gt 0 (- m))) by lia.
        replace (- m * 10 - d) with (- (10 * m + d)) by lia. rewrite (t64_none _ N). reflexivity.
    + rewrite (proj2 (Z.leb_le 0 m)) by lia.
      replace (m * 10 + d) with (10 * m + d) by lia. rewrite (t64_none _ N). reflexivity.
Qed.

Lemma digit_loop_ok : forall body rest minus m n,
  Forall digit_ body -> (forall c t, rest = c :: t -> ~ digit_ c) ->
  0 <= m -> in_int64 (signed minus m) ->
  digit_loop (body ++ rest) (pending minus m) (signed minus m) n =
  if in_dec (signed minus (decimal m body))
  then Some (signed minus (decimal m body), (n + count_digits body)%nat, rest)
  else None.
Proof.
  induction body as [|c body IH]; intros rest minus m n F R M I; cbn [app decimal].
  - rewrite (proj2 (in_dec_iff _) I). replace (n + count_digits [])%nat with n
      by (unfold count_digits; cbn; lia).
    destruct rest as [|c t]; [reflexivity|]. cbn [digit_loop].
    destruct (isdigit c || (c =? 95)) eqn:E; [|reflexivity].
    apply digit__iff in E. exfalso. exact (R c t eq_refl E).
  - inversion F; subst. cbn [digit_loop]. rewrite (proj2 (digit__iff c)) by assumption.
    destruct (Z.eqb_spec c 95) as [->|N]; cbn [negb].
    + rewrite (IH rest minus m n H2 R M I). reflexivity.
    + assert (digit c) as D
        by (destruct H1 as [D|U]; [exact D|unfold underline in U; lia]).
      unfold digit in D. cbv zeta.
      rewrite (step_ok minus m (c - 48) (body ++ rest) n M ltac:(lia) I).
      destruct (in_dec (signed minus (10 * m + (c - 48)))) eqn:E.
      * rewrite (IH rest minus _ _ H2 R) by (try lia; apply in_dec_iff; exact E).
        replace (S n + count_digits body)%nat with (n + count_digits (c :: body))%nat;
          [reflexivity|].
        unfold count_digits. cbn [filter].
        rewrite (proj2 (Z.eqb_neq c 95)) by exact N. cbn. lia.
      * destruct (in_dec (signed minus (decimal (10 * m + (c - 48)) body))) eqn:E2;
          [|reflexivity].
        exfalso. apply in_dec_iff in E2.
        assert (in_dec (signed minus (10 * m + (c - 48))) = true) as X; [|congruence].
        apply in_dec_iff. eapply signed_mono; [|exact E2].
        split; [lia|]. apply decimal_ge; [exact H2|lia].
Qed.

Lemma digits_split : forall s,
  exists body rest, s = body ++ rest /\ Forall digit_ body /\
    (forall c t, rest = c :: t -> ~ digit_ c).
Proof.
  induction s as [|c s IH].
  - exists [], []. repeat split; auto. discriminate.
  - destruct (isdigit c || (c =? 95)) eqn:E.
    + destruct IH as (b & r & P & F & H). exists (c :: b), r.
      split; [cbn; f_equal; exact P|]. split; [|exact H].
      constructor; [apply digit__iff; exact E|exact F].
    + exists [], (c :: s). split; [reflexivity|]. split; [constructor|].
      intros d t X. inversion X; subst. intros D. apply digit__iff in D. congruence.
Qed.

Lemma count_zero : forall body, Forall digit_ body ->
  (count_digits body = 0%nat <-> ~ Exists digit body).
Proof.
  induction body as [|c b IH]; intros F.
  - split; [intros _ H; inversion H|reflexivity].
  - inversion F; subst. unfold count_digits in *. cbn [filter].
    destruct (Z.eqb_spec c 95) as [->|N]; cbn [negb].
    + rewrite (IH H2). split; intros X Y; apply X; [|apply Exists_cons_tl; exact Y].
      inversion Y; subst; [|assumption]. unfold digit in *. lia.
    + cbn [length]. split; [lia|]. intros X. exfalso. apply X. apply Exists_cons_hd.
      destruct H1 as [D|U]; [exact D|unfold underline in U; lia].
Qed.

Definition strip_minus (s : list Z) : bool * list Z :=
  match s with c :: t => if c =? 45 then (true, t) else (false, s) | [] => (false, s) end.
Lemma strip_minus_split : forall s, let '(m, t) := strip_minus s in
  s = minus_sign m ++ t /\ (m = false -> forall c r, t = c :: r -> c <> 45).
Proof.
  intros [|c t]; cbn.
  - split; [reflexivity|]. discriminate.
  - destruct (Z.eqb_spec c 45) as [->|N]; cbn.
    + split; [reflexivity|discriminate].
    + split; [reflexivity|]. intros _ d r X. inversion X; subst. exact N.
Qed.

(* The scan of a string that begins with a literal. *)
Lemma scan_int_literal : forall pre minus body rest,
  Forall space pre -> Forall digit_ body -> Exists digit body ->
  (forall c t, rest = c :: t -> ~ digit_ c) ->
  scan_int (pre ++ minus_sign minus ++ body ++ rest) =
  if in_dec (signed minus (decimal 0 body))
  then Some (signed minus (decimal 0 body), rest) else None.
Proof.
  intros pre minus body rest P F X R.
  assert (exists c b, body = c :: b) as (c & b & EB)
    by (inversion X; subst; eauto).
  assert (digit_ c) as DC by (subst body; inversion F; assumption).
  assert (~ space c) as NS by (unfold digit_, digit, underline, space in *; lia).
  assert (c <> 45) as NM by (unfold digit_, digit, underline in *; lia).
  unfold scan_int.
  rewrite skip_space_app; [|exact P|].
  2:{ intros d t E. destruct minus; cbn in E.
      - inversion E; subst. unfold space. lia.
      - rewrite EB in E. cbn in E. inversion E; subst. exact NS. }
  assert (match minus_sign minus ++ body ++ rest with
          | c0 :: t => if c0 =? 45 then (true, t) else (false, minus_sign minus ++ body ++ rest)
          | [] => (false, minus_sign minus ++ body ++ rest) end = (minus, body ++ rest)) as ->.
  { destruct minus; cbn; [reflexivity|]. rewrite EB. cbn.
    rewrite (proj2 (Z.eqb_neq c 45)) by exact NM. reflexivity. }
  assert (digit_loop (body ++ rest) minus 0 0 =
          digit_loop (body ++ rest) (pending minus 0) (signed minus 0) 0) as ->
    by (destruct minus; reflexivity).
  rewrite (digit_loop_ok body rest minus 0 0 F R) by
    (try lia; unfold in_int64, signed; destruct minus; lia).
  destruct (in_dec (signed minus (decimal 0 body))); [|reflexivity].
  destruct (0 + count_digits body)%nat eqn:C; [|reflexivity].
  exfalso. cbn in C. apply (proj1 (count_zero body F)) in C. contradiction.
Qed.

(* A string that is scanned begins with a literal. *)
Lemma scan_int_inv : forall s v rest,
  scan_int s = Some (v, rest) -> literal_then s v rest /\ in_int64 v.
Proof.
  intros s v rest E.
  destruct (skip_space_split s) as (pre & P & FP & HS).
  pose proof (strip_minus_split (skip_space s)) as SM.
  destruct (strip_minus (skip_space s)) as [minus t] eqn:ES. destruct SM as [ET HM].
  destruct (digits_split t) as (body & r & EB & FB & HR).
  unfold scan_int in E.
  change (match skip_space s with
          | c :: t0 => if c =? 45 then (true, t0) else (false, skip_space s)
          | [] => (false, skip_space s) end) with (strip_minus (skip_space s)) in E.
  rewrite ES in E.
  replace (digit_loop t minus 0 0) with
    (digit_loop t (pending minus 0) (signed minus 0) 0) in E by (destruct minus; reflexivity).
  rewrite EB in E.
  rewrite (digit_loop_ok body r minus 0 0 FB HR) in E by
    (try lia; unfold in_int64, signed; destruct minus; lia).
  destruct (in_dec (signed minus (decimal 0 body))) eqn:I; [|discriminate].
  destruct (0 + count_digits body)%nat eqn:C; [discriminate|].
  inversion E; subst v rest. split; [|apply in_dec_iff; exact I].
  exists pre, minus, body. split; [rewrite P, ET, EB; reflexivity|].
  split; [exact FP|]. split; [exact FB|].
  split.
  - destruct (Exists_dec digit body) as [Y|N]; [| exact Y |].
    + intros x. destruct (isdigit x) eqn:Z; [left; apply isdigit_iff|right; apply isdigit_false];
        exact Z.
    + exfalso. apply (proj2 (count_zero body FB)) in N. cbn in C. lia.
  - split; [|reflexivity]. intros c u X. specialize (HR c u X). unfold digit_ in HR. tauto.
Qed.

Lemma scan_int_exact : forall s v rest,
  scan_int s = Some (v, rest) <-> literal_then s v rest /\ in_int64 v.
Proof.
  intros s v rest. split; [apply scan_int_inv|].
  intros [(pre & minus & body & -> & P & F & X & R & ->) I].
  rewrite (scan_int_literal pre minus body rest P F X).
  - rewrite (proj2 (in_dec_iff _) I). reflexivity.
  - intros c t E. specialize (R c t E). unfold digit_. tauto.
Qed.

Lemma string_to_int_exact : forall s v,
  string_to_int s = Some v <-> integer_literal s v /\ in_int64 v.
Proof.
  intros s v. unfold string_to_int, integer_literal. split.
  - destruct (scan_int s) as [[w rest]|] eqn:E; [|discriminate].
    destruct (forallb isspace rest) eqn:S; [|discriminate].
    intros H. inversion H; subst w. apply scan_int_exact in E. destruct E as [L I].
    split; [|exact I]. exists rest. split; [exact L|]. apply spaces_forallb. exact S.
  - intros [(post & L & F) I].
    rewrite (proj2 (scan_int_exact s v post)) by (split; assumption).
    rewrite (proj2 (spaces_forallb post)) by exact F. reflexivity.
Qed.

(** ** The image of an integer *)

Lemma decimal_app : forall a b n, decimal n (a ++ b) = decimal (decimal n a) b.
Proof.
  induction a as [|c a IH]; intros b n; cbn [app decimal]; [reflexivity|].
  destruct (c =? 95); apply IH.
Qed.

Lemma quot_abs : forall x, Z.abs (Z.quot x 10) = Z.abs x / 10.
Proof.
  intros x. rewrite Z.quot_div by lia. change (Z.sgn 10) with 1. change (Z.abs 10) with 10.
  pose proof (Z.div_pos (Z.abs x) 10 ltac:(lia) ltac:(lia)).
  destruct (Z.sgn_spec x) as [[? ->]|[[? ->]|[? ->]]]; try lia.
  subst x. reflexivity.
Qed.
Lemma rem_abs : forall x, Z.abs (Z.rem x 10) = Z.abs x mod 10.
Proof.
  intros x. rewrite Z.rem_mod by lia. change (Z.abs 10) with 10.
  pose proof (Z.mod_pos_bound (Z.abs x) 10 ltac:(lia)).
  destruct (Z.sgn_spec x) as [[? ->]|[[? ->]|[? ->]]]; try lia.
  subst x. reflexivity.
Qed.

Lemma image_loop_ok : forall n pos x buf,
  Z.abs x < 10 ^ Z.of_nat (S n) -> (n + 2 <= pos)%nat ->
  exists ds pos',
    image_loop pos x buf = Some (pos', ds ++ buf) /\ (pos' + n + 1 >= pos)%nat /\
    Forall digit ds /\
    (ds = [48] \/ exists c t, ds = c :: t /\ c <> 48) /\
    decimal 0 ds = Z.abs x.
Proof.
  induction n as [|n IH]; intros pos x buf B P.
  - destruct pos as [|[|pos]]; [lia|lia|].
    change (10 ^ Z.of_nat 1) with 10 in B.
    assert (Z.quot x 10 = 0) as Q.
    { apply Z.abs_0_iff. rewrite quot_abs. apply Z.div_small. lia. }
    exists [48 + Z.abs (Z.rem x 10)], (S pos). cbn [image_loop]. cbv zeta. rewrite Q.
    change (0 =? 0) with true. cbv iota. split; [reflexivity|]. split; [lia|].
    rewrite rem_abs, Z.mod_small by lia.
    split; [constructor; [unfold digit; lia|constructor]|]. split.
    + destruct (Z.eq_dec (Z.abs x) 0) as [->|N]; [left; reflexivity|].
      right. exists (48 + Z.abs x), []. split; [reflexivity|lia].
    + cbn [decimal]. rewrite (proj2 (Z.eqb_neq _ 95)) by lia. lia.
  - destruct pos as [|[|pos]]; [lia|lia|].
    cbn [image_loop]. cbv zeta.
    pose proof (Z.mod_pos_bound (Z.abs x) 10 ltac:(lia)) as MB.
    pose proof (Z.div_mod (Z.abs x) 10 ltac:(lia)) as DM.
    destruct (Z.eqb_spec (Z.quot x 10) 0) as [Q|Q].
    + assert (Z.abs x / 10 = 0) as QA by (rewrite <- quot_abs, Q; reflexivity).
      exists [48 + Z.abs (Z.rem x 10)], (S pos). split; [reflexivity|]. split; [lia|].
      rewrite rem_abs. assert (Z.abs x mod 10 = Z.abs x) as -> by lia.
      split; [constructor; [unfold digit; lia|constructor]|]. split.
      * destruct (Z.eq_dec (Z.abs x) 0) as [->|N]; [left; reflexivity|].
        right. exists (48 + Z.abs x), []. split; [reflexivity|lia].
      * cbn [decimal]. rewrite (proj2 (Z.eqb_neq _ 95)) by lia. lia.
    + destruct (IH (S pos) (Z.quot x 10) ((48 + Z.abs (Z.rem x 10)) :: buf))
        as (ds & pos' & E & PP & F & L & V).
      * rewrite quot_abs. apply Z.div_lt_upper_bound; [lia|].
        replace (Z.of_nat (S (S n))) with (Z.of_nat (S n) + 1) in B by lia.
        rewrite Z.pow_add_r in B by lia. change (10 ^ 1) with 10 in B. lia.
      * lia.
      * exists (ds ++ [48 + Z.abs (Z.rem x 10)]), pos'.
        split; [rewrite <- app_assoc; exact E|]. split; [lia|].
        split; [apply Forall_app; split; [exact F|]; constructor; [|constructor];
                rewrite rem_abs; unfold digit; lia|].
        split.
        -- right. destruct L as [->|(c & t & -> & N)].
           ++ exfalso. apply Q. apply Z.abs_0_iff. rewrite <- V. reflexivity.
           ++ exists c, (t ++ [48 + Z.abs (Z.rem x 10)]). split; [reflexivity|exact N].
        -- rewrite decimal_app, V, rem_abs, quot_abs. cbn [decimal].
           rewrite (proj2 (Z.eqb_neq _ 95)) by lia. lia.
Qed.

Lemma int_to_string_ok : forall x, in_int64 x ->
  exists s, int_to_string x = Some s /\ integer_image x s.
Proof.
  intros x I.
  assert (Z.abs x < 10 ^ Z.of_nat 19) as B.
  { unfold in_int64 in I. assert (2 ^ 63 < 10 ^ Z.of_nat 19) by (vm_compute; reflexivity). lia. }
  destruct (image_loop_ok 18 32 x [] B ltac:(lia)) as (ds & pos & E & PP & F & L & V).
  rewrite app_nil_r in E. unfold int_to_string. rewrite E.
  destruct (x <? 0) eqn:N.
  - destruct pos as [|[|pos]]; [lia|lia|].
    exists (45 :: ds). split; [reflexivity|]. exists ds. rewrite N. cbn.
    split; [reflexivity|]. split; [exact F|]. split; [exact L|exact V].
  - exists ds. split; [reflexivity|]. exists ds. rewrite N. cbn.
    split; [reflexivity|]. split; [exact F|]. split; [exact L|exact V].
Qed.

Lemma image_body : forall x body,
  Forall digit body -> (body = [48] \/ exists c t, body = c :: t /\ c <> 48) ->
  decimal 0 body = Z.abs x ->
  Forall (fun c => digit c \/ underline c) body /\ Exists digit body /\
  signed (x <? 0) (decimal 0 body) = x.
Proof.
  intros x body F L V. split; [|split].
  - eapply Forall_impl; [|exact F]. intros c D. left. exact D.
  - destruct L as [->|(c & t & -> & _)]; apply Exists_cons_hd; inversion F; assumption.
  - rewrite V. unfold signed. destruct (Z.ltb_spec x 0); lia.
Qed.

Lemma image_then : forall x s rest,
  integer_image x s -> (forall c t, rest = c :: t -> ~ digit c /\ ~ underline c) ->
  literal_then (s ++ rest) x rest.
Proof.
  intros x s rest (body & -> & F & L & V) R.
  destruct (image_body x body F L V) as (F' & X & S).
  exists [], (x <? 0), body. cbn [app].
  split; [rewrite app_assoc; reflexivity|]. split; [constructor|].
  split; [exact F'|]. split; [exact X|]. split; [exact R|]. symmetry. exact S.
Qed.

(** ** Names *)

Lemma toupper_upper : forall c, toupper c = upper c.
Proof. reflexivity. Qed.

Lemma same_string_iff : forall s t, same_string s t = true <-> s = t.
Proof.
  induction s as [|c s IH]; intros [|d t]; cbn [same_string]; split; intros H;
    try discriminate; try reflexivity.
  - apply andb_true_iff in H. destruct H as [E H]. apply Z.eqb_eq in E. apply IH in H.
    subst. reflexivity.
  - inversion H; subst. rewrite Z.eqb_refl. apply IH. reflexivity.
Qed.

Lemma stride_ge : forall (names : list (list Z)) acc (n : list Z), In n names \/ (length n <= acc)%nat ->
  (length n <= fold_left (fun m n => Nat.max m (length n)) names acc)%nat.
Proof.
  induction names as [|a names IH]; intros acc n H; cbn [fold_left].
  - destruct H as [[]|H]; exact H.
  - apply IH. destruct H as [[->|H]|H]; [right; lia|left; exact H|right; lia].
Qed.

Lemma slice_ok : forall k (names : list (list Z)) i n,
  (forall m, In m names -> (length m <= k)%nat) ->
  nth_error names i = Some n ->
  firstn (length n) (skipn (i * k)
    (flat_map (fun n => n ++ repeat 0 (k - length n)) names)) = n.
Proof.
  intros k. induction names as [|a names IH]; intros i n H E.
  - destruct i; discriminate.
  - destruct i as [|i]; cbn [nth_error] in E.
    + inversion E; subst a. cbn [Nat.mul skipn flat_map].
      rewrite <- app_assoc, firstn_app, Nat.sub_diag, firstn_all. cbn [firstn].
      rewrite app_nil_r. reflexivity.
    + cbn [flat_map]. replace (S i * k)%nat with (k + i * k)%nat by lia.
      assert (length (a ++ repeat 0 (k - length a)) = k) as LA.
      { rewrite app_length, repeat_length. specialize (H a (or_introl eq_refl)). lia. }
      rewrite skipn_app, LA. replace (k + i * k - k)%nat with (i * k)%nat by lia.
      rewrite skipn_all2 by lia. cbn [app].
      apply IH; [|exact E]. intros m M. apply H. right. exact M.
Qed.

(* What the search finds: the first name equal to the canonical text. *)
Lemma search_ok : forall names canon n i,
  (i + n = length names)%nat ->
  match search names canon n i with
  | Some j => (i <= j)%nat /\ nth_error names j = Some canon
  | None => forall j, (i <= j)%nat -> nth_error names j <> Some canon
  end.
Proof.
  intros names canon. induction n as [|n IH]; intros i L; cbn [search].
  - intros j J E.
    assert (j < length names)%nat by (apply nth_error_Some; congruence). lia.
  - unfold len_array. rewrite nth_error_map.
    destruct (nth_error names i) as [m|] eqn:E; cbn [option_map].
    2:{ apply nth_error_None in E. lia. }
    assert (firstn (length m) (skipn (i * stride names) (char_array names)) = m) as S.
    { apply (slice_ok (stride names)); [|exact E].
      intros a A. apply stride_ge. left. exact A. }
    rewrite S.
    destruct (Nat.eqb (length m) (length canon) && same_string m canon) eqn:C.
    + apply andb_true_iff in C. destruct C as [_ C]. apply same_string_iff in C. subst m.
      split; [lia|exact E].
    + specialize (IH (i + 1)%nat ltac:(lia)).
      destruct (search names canon n (i + 1)) as [j|].
      * destruct IH as [J K]. split; [lia|exact K].
      * intros j J. destruct (Nat.eq_dec j i) as [->|NE]; [|apply IH; lia].
        rewrite E. intros X. inversion X; subst m.
        rewrite Nat.eqb_refl in C. cbn in C.
        assert (same_string canon canon = true) by (apply same_string_iff; reflexivity).
        congruence.
Qed.

Lemma search_unique : forall names canon i,
  NoDup names -> nth_error names i = Some canon ->
  search names canon (length names) 0 = Some i.
Proof.
  intros names canon i ND E. pose proof (search_ok names canon (length names) 0 eq_refl) as H.
  destruct (search names canon (length names) 0) as [j|].
  - destruct H as [_ H]. f_equal.
    apply (proj1 (NoDup_nth_error names) ND).
    + apply nth_error_Some. congruence.
    + congruence.
  - exfalso. apply (H i); [lia|exact E].
Qed.

Lemma canon_spaces : forall pre s up, Forall space pre ->
  canon_loop (pre ++ s) up = canon_loop s up.
Proof.
  induction pre as [|c pre IH]; intros s up F; [reflexivity|].
  inversion F; subst. cbn [app canon_loop].
  rewrite (proj2 (isspace_iff c)) by assumption. apply IH. assumption.
Qed.
Lemma canon_only_spaces : forall post up, Forall space post -> canon_loop post up = [].
Proof.
  intros post up F. rewrite <- (app_nil_r post). rewrite canon_spaces by exact F. reflexivity.
Qed.

(* Text without spaces or quotes *)
Lemma canon_plain : forall w post,
  Forall (fun c => ~ space c /\ c <> quote) w ->
  canon_loop (w ++ post) true = map upper w ++ canon_loop post true.
Proof.
  induction w as [|c w IH]; intros post F; [reflexivity|].
  inversion F as [|? ? [NS NQ] F']; subst. cbn [app canon_loop map].
  rewrite (proj2 (isspace_false c)) by exact NS.
  rewrite (proj2 (Z.eqb_neq c 39)) by exact NQ. cbv zeta iota.
  rewrite IH by exact F'. reflexivity.
Qed.

Lemma upper_plain : forall c, basic_char (upper c) -> ~ space c /\ c <> quote.
Proof.
  intros c. unfold basic_char, digit, underline, space, quote, upper.
  destruct (Z.leb_spec 97 c), (Z.leb_spec c 122); cbn [andb]; lia.
Qed.
Lemma upper_basic : forall c, basic_char c -> upper c = c.
Proof.
  intros c. unfold basic_char, digit, underline, upper.
  destruct (Z.leb_spec 97 c), (Z.leb_spec c 122); cbn [andb]; lia.
Qed.
Lemma upper_basic_name : forall n, Forall basic_char n -> map upper n = n.
Proof.
  induction n as [|c n IH]; intros F; [reflexivity|]. inversion F; subst. cbn [map].
  rewrite upper_basic by assumption. rewrite IH by assumption. reflexivity.
Qed.
Lemma same_case_plain : forall w n, Forall basic_char n -> same_but_case w n ->
  Forall (fun c => ~ space c /\ c <> quote) w /\ map upper w = n.
Proof.
  intros w n F S. unfold same_but_case in S. rewrite (upper_basic_name n F) in S.
  split; [|exact S]. apply Forall_forall. intros c I. apply upper_plain.
  apply (proj1 (Forall_forall basic_char n) F). rewrite <- S. apply in_map. exact I.
Qed.

Lemma canon_char : forall c post, ~ space c ->
  Forall space post -> canon_loop ([quote; c; quote] ++ post) true = [quote; c; quote].
Proof.
  intros c post NS F. cbn [app canon_loop].
  change (isspace quote) with false. change (quote =? 39) with true. cbv zeta iota.
  cbn [negb]. rewrite (proj2 (isspace_false c)) by exact NS.
  destruct (Z.eqb_spec c 39) as [->|N]; cbn [negb].
  - rewrite canon_only_spaces by exact F. reflexivity.
  - change (toupper quote) with quote. rewrite canon_only_spaces by exact F. reflexivity.
Qed.

Lemma canon_spelling : forall n s, spelling n s -> canon_value s = n.
Proof.
  intros n s (pre & w & post & -> & P & Q & [[[B _] S]|[(c & -> & NS) ->]]); unfold canon_value.
  - rewrite canon_spaces by exact P.
    destruct (same_case_plain w n B S) as [F M].
    rewrite canon_plain by exact F. rewrite M, canon_only_spaces by exact Q.
    apply app_nil_r.
  - rewrite canon_spaces by exact P. apply canon_char; assumption.
Qed.

Lemma upper_upper : forall c, upper (toupper c) = upper c.
Proof.
  intros c. unfold toupper, upper.
  destruct ((97 <=? c) && (c <=? 122)) eqn:E; [|rewrite E; reflexivity].
  apply andb_true_iff in E. rewrite !Z.leb_le in E.
  rewrite (proj2 (Z.leb_gt 97 (c - 32))) by lia. reflexivity.
Qed.

Lemma canon_squeezed : forall s up, exists w, squeezed s w /\ same_but_case w (canon_loop s up).
Proof.
  unfold same_but_case. induction s as [|c s IH]; intros up; cbn [canon_loop].
  - exists []. split; [constructor|reflexivity].
  - destruct (isspace c) eqn:E.
    + destruct (IH up) as (w & S & M). exists w.
      split; [apply sq_space; [apply isspace_iff; exact E|exact S]|exact M].
    + cbv zeta.
      destruct (IH (if c =? 39 then negb up else up)) as (w & S & M). exists (c :: w).
      split; [apply sq_keep; [apply isspace_false; exact E|exact S]|].
      cbn [map]. rewrite M. f_equal.
      destruct (if c =? 39 then negb up else up); [|reflexivity].
      symmetry. apply upper_upper.
Qed.

Lemma upper_lower : forall c, basic_char c -> upper (tolower c) = c.
Proof.
  intros c B. unfold tolower.
  destruct ((65 <=? c) && (c <=? 90)) eqn:E.
  - cbn [orb]. apply andb_true_iff in E. rewrite !Z.leb_le in E. unfold upper.
    rewrite (proj2 (Z.leb_le 97 (c + 32))) by lia.
    rewrite (proj2 (Z.leb_le (c + 32) 122)) by lia. cbn [andb]. lia.
  - rewrite (proj2 (Z.leb_gt 192 c)) by
      (unfold basic_char, digit, underline in B; lia).
    cbn [orb andb]. apply upper_basic. exact B.
Qed.
Lemma downcase_same : forall n, Forall basic_char n -> same_but_case (downcase n) n.
Proof.
  unfold same_but_case, downcase.
  induction n as [|c n IH]; intros F; [reflexivity|]. inversion F; subst. cbn [map].
  rewrite IH by assumption. rewrite upper_lower by assumption.
  rewrite upper_basic by assumption. reflexivity.
Qed.

Lemma enum_value_spelling : forall names i n s,
  NoDup names -> nth_error names i = Some n -> spelling n s ->
  enum_value names s = Some i.
Proof.
  intros names i n s ND E S. unfold enum_value.
  rewrite (canon_spelling n s S). rewrite (search_unique names n i ND E).
  rewrite (proj2 (Nat.ltb_lt i (length names))); [reflexivity|].
  apply nth_error_Some. congruence.
Qed.

Lemma enum_image_spelling : forall names i n,
  nth_error names i = Some n -> plain_name n ->
  exists s, enum_image names i = Some s /\ spelling n s.
Proof.
  intros names i n E P. unfold enum_image. rewrite E. destruct P as [[F (c & t & -> & L)]|(c & -> & NS)].
  - rewrite (proj2 (Z.eqb_neq c 39)) by lia. exists (downcase (c :: t)).
    split; [reflexivity|]. exists [], (downcase (c :: t)), [].
    rewrite app_nil_r. split; [reflexivity|]. split; [constructor|]. split; [constructor|].
    left. split; [split; [exact F|exists c, t; split; [reflexivity|exact L]]|].
    apply downcase_same. exact F.
  - change (quote =? 39) with true. cbv iota. exists [quote; c; quote].
    split; [reflexivity|]. exists [], [quote; c; quote], [].
    split; [reflexivity|]. split; [constructor|]. split; [constructor|].
    right. split; [exists c; split; [reflexivity|exact NS]|reflexivity].
Qed.

Lemma downcase_low : forall n, Forall basic_char n ->
  Forall (fun c => ~ (65 <= c <= 90)) (downcase n).
Proof.
  unfold downcase. induction n as [|c n IH]; intros F; cbn [map]; constructor;
    inversion F as [|? ? B F']; subst; [|apply IH; exact F'].
  unfold tolower. destruct ((65 <=? c) && (c <=? 90)) eqn:E.
  - cbn [orb]. apply andb_true_iff in E. rewrite !Z.leb_le in E. lia.
  - rewrite (proj2 (Z.leb_gt 192 c)) by (unfold basic_char, digit, underline in B; lia).
    cbn [orb andb]. intros [X Y].
    rewrite (proj2 (Z.leb_le _ _) X), (proj2 (Z.leb_le _ _) Y) in E. discriminate.
Qed.

Lemma enum_image_form : forall names i n,
  nth_error names i = Some n -> plain_name n ->
  exists s, enum_image names i = Some s /\
    (basic_name n -> same_but_case s n /\ Forall (fun c => ~ (65 <= c <= 90)) s) /\
    (char_name n -> s = n).
Proof.
  intros names i n E P. unfold enum_image. rewrite E.
  destruct P as [[F (c & t & -> & L)]|(c & -> & NS)].
  - rewrite (proj2 (Z.eqb_neq c 39)) by lia. exists (downcase (c :: t)).
    split; [reflexivity|]. split.
    + intros _. split; [apply downcase_same|apply downcase_low]; exact F.
    + intros (d & X & _). injection X as X _. unfold quote in X. lia.
  - change (quote =? 39) with true. cbv iota. exists [quote; c; quote].
    split; [reflexivity|]. split; [|reflexivity].
    intros [B _]. inversion B as [|? ? D _]; subst.
    unfold basic_char, digit, underline, quote in D. lia.
Qed.

Lemma enum_value_sound : forall names s i,
  enum_value names s = Some i ->
  exists n w, nth_error names i = Some n /\ squeezed s w /\ same_but_case w n.
Proof.
  intros names s i H. unfold enum_value in H.
  pose proof (search_ok names (canon_value s) (length names) 0 eq_refl) as S.
  destruct (search names (canon_value s) (length names) 0) as [j|]; [|discriminate].
  destruct (Nat.ltb j (length names)); [|discriminate]. inversion H; subst j.
  destruct S as [_ S]. destruct (canon_squeezed s true) as (w & Q & M).
  exists (canon_value s), w. split; [exact S|]. split; [exact Q|exact M].
Qed.

(** ** Physical types *)

Lemma wrap_in : forall x, in_int64 x -> wrap x = x.
Proof.
  intros x [L H]. unfold wrap, M63, M64. rewrite Z.mod_small; lia.
Qed.

Lemma physical_value_ok : forall units low high s v tail i n m,
  NoDup (map fst units) -> literal_then s v tail -> in_int64 v ->
  nth_error units i = Some (n, m) -> spelling n tail -> in_int64 (v * m) ->
  physical_value units low high s = check_bounds low high (v * m).
Proof.
  intros units low high s v tail i n m ND L I E S IM. unfold physical_value.
  rewrite (proj2 (scan_int_exact s v tail)) by (split; assumption).
  rewrite (canon_spelling n tail S).
  assert (nth_error (map fst units) i = Some n) as EN by (rewrite nth_error_map, E; reflexivity).
  pose proof (search_unique (map fst units) n i ND EN) as Q. rewrite map_length in Q. rewrite Q.
  rewrite nth_error_map, E. cbn [option_map snd]. rewrite wrap_in by exact IM. reflexivity.
Qed.

Lemma check_bounds_iff : forall low high x v,
  check_bounds low high x = Some v <-> v = x /\ low <= x <= high.
Proof.
  intros low high x v. unfold check_bounds.
  destruct ((low <=? x) && (x <=? high)) eqn:E.
  - apply andb_true_iff in E. rewrite !Z.leb_le in E. split.
    + intros H. injection H as <-. split; [reflexivity|exact E].
    + intros [-> _]. reflexivity.
  - split; [discriminate|]. intros [_ [A B]].
    rewrite (proj2 (Z.leb_le _ _) A), (proj2 (Z.leb_le _ _) B) in E. discriminate.
Qed.

Lemma spelling_space : forall n s, spelling n s -> spelling n (32 :: s).
Proof.
  intros n s (pre & w & post & -> & P & Q & H). exists (32 :: pre), w, post.
  split; [reflexivity|]. split; [constructor; [unfold space; lia|exact P]|]. split; [exact Q|exact H].
Qed.

(* Accepted strings *)
Lemma physical_value_sound : forall units low high s r,
  physical_value units low high s = Some r ->
  exists v tail i n m w,
    literal_then s v tail /\ in_int64 v /\ nth_error units i = Some (n, m) /\
    squeezed tail w /\ same_but_case w n /\ r = wrap (v * m) /\ low <= r <= high.
Proof.
  intros units low high s r H. unfold physical_value in H.
  destruct (scan_int s) as [[v tail]|] eqn:E; [|discriminate].
  apply scan_int_exact in E. destruct E as [L I].
  pose proof (search_ok (map fst units) (canon_value tail) (length units) 0) as S.
  rewrite map_length in S. specialize (S eq_refl).
  destruct (search (map fst units) (canon_value tail) (length units) 0) as [i|]; [|discriminate].
  destruct S as [_ S]. rewrite nth_error_map in S, H.
  destruct (nth_error units i) as [[n m]|] eqn:EU; [|discriminate]. cbn [option_map fst snd] in *.
  inversion S; subst n. apply check_bounds_iff in H. destruct H as [-> B].
  destruct (canon_squeezed tail true) as (w & Q & M).
  exists v, tail, i, (canon_value tail), m, w.
  repeat (split; [first [exact L | exact I | exact EU | exact Q | exact M | reflexivity]|]).
  exact B.
Qed.

(** ** Reals *)

Definition body (a : list Z) (p : bool) (b rest : list Z) : list Z :=
  a ++ (if p then 46 :: b else []) ++ rest.

Lemma mant_digits : forall ds rest m d, Forall digit ds ->
  mant_loop (ds ++ rest) m d = mant_loop rest (m + Z.of_nat (length ds)) d.
Proof.
  induction ds as [|c ds IH]; intros rest m d F.
  - cbn [app length]. f_equal. lia.
  - inversion F; subst. cbn [app mant_loop length].
    rewrite (proj2 (isdigit_iff c)) by assumption. rewrite IH by assumption. f_equal. lia.
Qed.

Lemma mant_stop : forall rest m d,
  (forall c t, rest = c :: t -> ~ digit c /\ c <> 46) -> mant_loop rest m d = (m, d, rest).
Proof.
  intros [|c t] m d H; [reflexivity|]. cbn [mant_loop].
  destruct (H c t eq_refl) as [D P].
  rewrite (proj2 (isdigit_false c)) by exact D.
  rewrite (proj2 (Z.eqb_neq c 46)) by exact P. reflexivity.
Qed.

Lemma mant_stop_point : forall rest m d, 0 <= d ->
  (forall c t, rest = c :: t -> ~ digit c) -> mant_loop rest m d = (m, d, rest).
Proof.
  intros [|c t] m d D H; [reflexivity|]. cbn [mant_loop].
  rewrite (proj2 (isdigit_false c)) by exact (H c t eq_refl).
  rewrite (proj2 (Z.leb_le 0 d)) by exact D. rewrite orb_true_r. reflexivity.
Qed.

Lemma mant_ok : forall a p b rest,
  Forall digit a -> Forall digit b ->
  (forall c t, rest = c :: t -> ~ digit c /\ (p = false -> c <> 46)) ->
  mant_loop (body a p b rest) 0 (-1) =
  if p then (Z.of_nat (length a) + 1 + Z.of_nat (length b), Z.of_nat (length a), rest)
  else (Z.of_nat (length a), -1, rest).
Proof.
  intros a p b rest A B R. unfold body. rewrite mant_digits by exact A.
  rewrite Z.add_0_l. destruct p; cbn [app].
  - cbn [mant_loop]. change (isdigit 46) with false. change (46 =? 46) with true.
    cbn [negb orb]. change (0 <=? -1) with false. cbv iota.
    rewrite mant_digits by exact B. apply mant_stop_point; [lia|].
    intros c t E. exact (proj1 (R c t E)).
  - apply mant_stop. intros c t E. destruct (R c t E) as [D N]. split; [exact D|].
    apply N. reflexivity.
Qed.

Lemma collect_ok : forall n a p b rest acc,
  Forall digit a -> Forall digit b -> (p = false -> b = []) ->
  (n <= length (a ++ b))%nat ->
  exists a' p' b',
    collect n (body a p b rest) acc =
      Some (decimal acc (firstn n (a ++ b)), body a' p' b' rest) /\
    a' ++ b' = skipn n (a ++ b) /\ Forall digit a' /\ Forall digit b' /\
    (p' = false -> b' = []).
Proof.
  induction n as [|n IH]; intros a p b rest acc A B P L.
  - exists a, p, b. cbn [collect firstn decimal skipn].
    split; [reflexivity|]. split; [reflexivity|]. split; [exact A|]. split; [exact B|exact P].
  - destruct a as [|c a].
    + destruct p; [|rewrite (P eq_refl) in L; cbn in L; lia].
      destruct b as [|c b]; [cbn in L; lia|].
      unfold body. cbn [app collect]. change (46 =? 46) with true. cbv iota.
      inversion B as [|? ? D B']; subst.
      destruct (IH b false [] rest (10 * acc + (c - 48)) B' (Forall_nil _)
                  (fun _ => eq_refl)) as (a' & p' & b' & E & S & X);
        [rewrite app_nil_r; cbn in L; lia|].
      exists a', p', b'. rewrite app_nil_r in E, S.
      change (b ++ rest) with (body b false [] rest).
      rewrite E. cbn [firstn skipn decimal].
      rewrite (proj2 (Z.eqb_neq c 95)) by (unfold digit in D; lia).
      split; [reflexivity|]. split; [exact S|exact X].
    + inversion A as [|? ? D A']; subst. unfold body. cbn [app collect].
      rewrite (proj2 (Z.eqb_neq c 46)) by (unfold digit in D; lia).
      destruct (IH a p b rest (10 * acc + (c - 48)) A' B P) as (a' & p' & b' & E & S & X);
        [cbn in L; lia|].
      exists a', p', b'. fold (body a p b rest). rewrite E. cbn [firstn skipn decimal].
      rewrite (proj2 (Z.eqb_neq c 95)) by (unfold digit in D; lia).
      split; [reflexivity|]. split; [exact S|exact X].
Qed.

Lemma decimal_shift : forall ds n, Forall digit ds ->
  decimal n ds = n * 10 ^ Z.of_nat (length ds) + decimal 0 ds.
Proof.
  induction ds as [|c ds IH]; intros n F.
  - cbn [decimal length]. change (10 ^ Z.of_nat 0) with 1. lia.
  - inversion F as [|? ? D F']; subst. cbn [decimal length].
    rewrite (proj2 (Z.eqb_neq c 95)) by (unfold digit in D; lia).
    rewrite (IH (10 * n + (c - 48)) F'), (IH (10 * 0 + (c - 48)) F').
    replace (Z.of_nat (S (length ds))) with (Z.of_nat (length ds) + 1) by lia.
    rewrite Z.pow_add_r by lia. change (10 ^ 1) with 10. ring.
Qed.

Lemma Forall_firstn : forall (P : Z -> Prop) n l, Forall P l -> Forall P (firstn n l).
Proof.
  intros P n l F. rewrite <- (firstn_skipn n l) in F. apply Forall_app in F. exact (proj1 F).
Qed.
Lemma Forall_skipn : forall (P : Z -> Prop) n l, Forall P l -> Forall P (skipn n l).
Proof.
  intros P n l F. rewrite <- (firstn_skipn n l) in F. apply Forall_app in F. exact (proj2 F).
Qed.

Lemma firstn_split : forall (k m : nat) (l : list Z),
  firstn k l ++ firstn m (skipn k l) = firstn (k + m) l.
Proof.
  induction k as [|k IH]; intros m l; [reflexivity|].
  destruct l as [|x l]; cbn; [rewrite firstn_nil; reflexivity|]. f_equal. apply IH.
Qed.

(* Both loops together *)
Lemma mantissa_ok : forall a p b rest (k : nat),
  Forall digit a -> Forall digit b -> (p = false -> b = []) ->
  (k <= length (a ++ b))%nat -> (k <= 18)%nat ->
  exists f1 s1 f2 s2,
    collect (Z.to_nat (Z.of_nat k - 9)) (body a p b rest) 0 = Some (f1, s1) /\
    collect (Z.to_nat (Z.min (Z.of_nat k) 9)) s1 0 = Some (f2, s2) /\
    10 ^ 9 * f1 + f2 = decimal 0 (firstn k (a ++ b)).
Proof.
  intros a p b rest k A B P L K.
  assert (Forall digit (a ++ b)) as AB by (apply Forall_app; split; assumption).
  destruct (collect_ok (Z.to_nat (Z.of_nat k - 9)) a p b rest 0 A B P ltac:(lia))
    as (a' & p' & b' & E & S & A' & B' & P').
  assert (length (a' ++ b') = length (a ++ b) - Z.to_nat (Z.of_nat k - 9))%nat as LS
    by (rewrite S, skipn_length; reflexivity).
  destruct (collect_ok (Z.to_nat (Z.min (Z.of_nat k) 9)) a' p' b' rest 0 A' B' P' ltac:(lia))
    as (a2 & p2 & b2 & E2 & _).
  eexists _, _, _, _. split; [exact E|]. split; [exact E2|].
  rewrite S.
  destruct (le_lt_dec k 9) as [LE|GT].
  - replace (Z.to_nat (Z.of_nat k - 9)) with 0%nat by lia.
    replace (Z.to_nat (Z.min (Z.of_nat k) 9)) with k by lia.
    cbn [firstn skipn decimal]. lia.
  - replace (Z.to_nat (Z.min (Z.of_nat k) 9)) with 9%nat by lia.
    replace k with (Z.to_nat (Z.of_nat k - 9) + 9)%nat at 3 by lia.
    rewrite <- firstn_split, decimal_app.
    rewrite (decimal_shift (firstn 9 _) (decimal 0 _))
      by (apply Forall_firstn, Forall_skipn; exact AB).
    rewrite firstn_length, skipn_length.
    replace (Nat.min 9 (length (a ++ b) - Z.to_nat (Z.of_nat k - 9))) with 9%nat by lia.
    change (Z.of_nat 9) with 9. lia.
Qed.

Lemma scale_ok : forall e, 0 <= e <= 511 -> scale_loop powers_of_10 e 1 = 10 ^ e.
Proof.
  intros e E.
  assert (forallb (fun n => scale_loop powers_of_10 (Z.of_nat n) 1 =? 10 ^ Z.of_nat n)
            (seq 0 512) = true) as H by (vm_compute; reflexivity).
  rewrite forallb_forall in H. specialize (H (Z.to_nat e)).
  rewrite Z2Nat.id in H by lia. apply Z.eqb_eq. apply H. apply in_seq. lia.
Qed.

(* The exponents that are read right, and what follows them *)
Definition exp_simple (r : real_text) (post : list Z) : Prop :=
  match rt_exp r with
  | None => Forall space post
  | Some (_, _, ds) => (exists d, ds = [d]) /\ post = []
  end.

Lemma scan_exp_ok : forall r post, well_formed r -> exp_simple r post ->
  let rest := match rt_exp r with None => [] | Some (e, sg, ds) => e :: sg ++ ds end ++ post in
  (forall c t, rest = c :: t -> ~ digit c /\ c <> 46) /\
  exists sg v rest', scan_exp rest = Some (sg, v, rest') /\ forallb isspace rest' = true /\
    (if sg : bool then - v else v) = exponent r.
Proof.
  intros r post (_ & _ & _ & _ & _ & W) X. unfold exp_simple in X. unfold exponent. cbv zeta.
  destruct (rt_exp r) as [[[e sg] ds]|].
  - destruct W as (E & SG & F & _). destruct X as [(d & ->) ->]. rewrite app_nil_r.
    split.
    { intros c t H. cbn in H. injection H as H _; subst c. unfold digit. lia. }
    inversion F as [|? ? D _]; subst.
    assert ((e =? 69) || (e =? 101) = true) as EE
      by (apply orb_true_iff; rewrite !Z.eqb_eq; exact E).
    cbn [scan_exp app]. rewrite EE.
    assert (exp_loop [d] d 0 = (0 * 10 + (d - 48), [])) as XL.
    { cbn [exp_loop]. rewrite (proj2 (isdigit_iff d)) by exact D. reflexivity. }
    assert (decimal 0 [d] = d - 48) as DD.
    { cbn [decimal]. rewrite (proj2 (Z.eqb_neq d 95)) by (unfold digit in D; lia). lia. }
    unfold digit in D.
    destruct SG as [ -> | [ -> | -> ] ]; cbn [app].
    + rewrite (proj2 (Z.eqb_neq d 45)) by lia. rewrite (proj2 (Z.eqb_neq d 43)) by lia.
      rewrite XL. exists false, (0 * 10 + (d - 48)), []. split; [reflexivity|].
      split; [reflexivity|]. rewrite DD. lia.
    + change (45 =? 45) with true. cbv iota. rewrite XL.
      exists true, (0 * 10 + (d - 48)), []. split; [reflexivity|]. split; [reflexivity|].
      rewrite DD. lia.
    + change (43 =? 45) with false. change (43 =? 43) with true. cbv iota. rewrite XL.
      exists false, (0 * 10 + (d - 48)), []. split; [reflexivity|]. split; [reflexivity|].
      rewrite DD. lia.
  - cbn [app]. split.
    { intros c t ->. inversion X; subst. unfold space, digit in *. lia. }
    exists false, 0, post. split; [|split; [apply spaces_forallb; exact X|reflexivity]].
    destruct post as [|c t]; [reflexivity|]. inversion X; subst. cbn [scan_exp].
    rewrite (proj2 (Z.eqb_neq c 69)), (proj2 (Z.eqb_neq c 101))
      by (unfold space in *; lia). reflexivity.
Qed.

Lemma string_to_real_ok : forall pre r post,
  Forall space pre -> well_formed r -> exp_simple r post ->
  let k := Nat.min 18 (length (real_digits r)) in
  let e := exponent r + Z.of_nat (length (rt_int r)) - Z.of_nat k in
  string_to_real (pre ++ real_string r ++ post) =
  if Z.abs e <=? 511
  then Some (RP (match rt_sign r with [45] => true | _ => false end)
               (decimal 0 (firstn k (real_digits r))) (e <? 0) (10 ^ Z.abs e))
  else None.
Proof.
  intros pre r post FP W X. cbv zeta.
  destruct (scan_exp_ok r post W X) as (R & sg & v & rest' & SE & SP & EX).
  destruct W as (SG & A & B & P & NE & _).
  unfold real_digits in *. set (a := rt_int r) in *. set (b := rt_frac r) in *.
  set (p := rt_point r) in *.
  set (rest := match rt_exp r with None => [] | Some (e, sg, ds) => e :: sg ++ ds end ++ post) in *.
  assert (real_string r ++ post = rt_sign r ++ body a p b rest) as ES.
  { unfold real_string, body, rest. rewrite <- !app_assoc. reflexivity. }
  rewrite ES.
  assert (exists c t, body a p b rest = c :: t /\ ~ space c /\ c <> 45 /\ c <> 43)
    as (c0 & t0 & EB & NS & N45 & N43).
  { unfold body. destruct a as [|c a'].
    - destruct p; [|rewrite (P eq_refl) in NE; contradiction].
      exists 46, (b ++ rest). split; [reflexivity|]. unfold space. lia.
    - inversion A as [|? ? D _]; subst. exists c, (a' ++ (if p then 46 :: b else []) ++ rest).
      split; [reflexivity|]. unfold digit, space in *. lia. }
  unfold string_to_real.
  rewrite skip_space_app; [|exact FP|].
  2:{ intros c t H. destruct SG as [SG|[SG|SG]]; rewrite SG in H; cbn [app] in H.
      - rewrite EB in H. injection H as H _; subst c. exact NS.
      - injection H as H _; subst c. unfold space. lia.
      - injection H as H _; subst c. unfold space. lia. }
  assert (exists c t, rt_sign r ++ body a p b rest = c :: t /\
    (if c =? 45 then (true, t) else if c =? 43 then (false, t) else (false, c :: t)) =
    (match rt_sign r with [45] => true | _ => false end, body a p b rest))
    as (c1 & t1 & -> & ->).
  { destruct SG as [ -> | [ -> | -> ] ]; cbn [app].
    - exists c0, t0. split; [exact EB|].
      rewrite (proj2 (Z.eqb_neq c0 45)), (proj2 (Z.eqb_neq c0 43)) by assumption.
      rewrite EB. reflexivity.
    - exists 45, (body a p b rest). split; reflexivity.
    - exists 43, (body a p b rest). split; reflexivity. }
  rewrite (mant_ok a p b rest A B)
    by (intros c t E; destruct (R c t E) as [D1 D2]; split; [exact D1|intros _; exact D2]).
  assert (length (a ++ b) <> 0)%nat as LN
    by (destruct (a ++ b); [contradiction|cbn; lia]).
  assert ((let '(mant_size, dec_pt, rest0) :=
             if p then (Z.of_nat (length a) + 1 + Z.of_nat (length b),
                        Z.of_nat (length a), rest)
             else (Z.of_nat (length a), -1, rest) in
           let '(dec_pt, mant_size) :=
             if dec_pt <? 0 then (mant_size, mant_size) else (dec_pt, mant_size - 1) in
           let '(frac_exp, mant_size) :=
             if 18 <? mant_size then (dec_pt - 18, 18) else (dec_pt - mant_size, mant_size) in
           (frac_exp, mant_size, rest0)) =
          (Z.of_nat (length a) - Z.of_nat (Nat.min 18 (length (a ++ b))),
           Z.of_nat (Nat.min 18 (length (a ++ b))), rest)) as M.
  { rewrite app_length. destruct p.
    - rewrite (proj2 (Z.ltb_ge (Z.of_nat (length a)) 0)) by lia.
      destruct (Z.ltb_spec 18 (Z.of_nat (length a) + 1 + Z.of_nat (length b) - 1));
        repeat f_equal; lia.
    - rewrite (P eq_refl). change (-1 <? 0) with true. cbv iota. cbn [length].
      destruct (Z.ltb_spec 18 (Z.of_nat (length a))); repeat f_equal; lia. }
  destruct (mantissa_ok a p b rest (Nat.min 18 (length (a ++ b))) A B P ltac:(lia) ltac:(lia))
    as (f1 & s1 & f2 & s2 & C1 & C2 & VV).
  set (k := Nat.min 18 (length (a ++ b))) in *.
  destruct (if p then (Z.of_nat (length a) + 1 + Z.of_nat (length b), Z.of_nat (length a), rest)
            else (Z.of_nat (length a), -1, rest)) as [[ms dp] r0].
  destruct (if dp <? 0 then (ms, ms) else (dp, ms - 1)) as [dp' ms'].
  destruct (if 18 <? ms' then (dp' - 18, 18) else (dp' - ms', ms')) as [fe ms2].
  injection M as -> -> ->.
  rewrite (proj2 (Z.ltb_lt 0 (Z.of_nat k))) by lia. cbn [negb].
  rewrite C1, C2, SE, VV, SP.
  set (e := exponent r + Z.of_nat (length a) - Z.of_nat k).
  assert ((if sg then Z.of_nat (length a) - Z.of_nat k - v
           else Z.of_nat (length a) - Z.of_nat k + v) = e) as EE.
  { unfold e. rewrite <- EX. destruct sg; lia. }
  rewrite EE.
  destruct (Z.ltb_spec e 0).
  - replace (Z.abs e) with (- e) by lia.
    destruct (Z.leb_spec (- e) 511); cbn [negb]; [|reflexivity].
    rewrite scale_ok by lia. reflexivity.
  - replace (Z.abs e) with e by lia.
    destruct (Z.leb_spec e 511); cbn [negb]; [|reflexivity].
    rewrite scale_ok by lia. reflexivity.
Qed.

(* Accepted strings *)
Lemma span_digits : forall s, exists a r, s = a ++ r /\ Forall digit a /\
  (forall c t, r = c :: t -> ~ digit c).
Proof.
  induction s as [|c s IH].
  - exists [], []. split; [reflexivity|]. split; [constructor|discriminate].
  - destruct (isdigit c) eqn:E.
    + destruct IH as (a & r & -> & F & H). exists (c :: a), r.
      split; [reflexivity|]. split; [|exact H]. constructor; [apply isdigit_iff; exact E|exact F].
    + exists [], (c :: s). split; [reflexivity|]. split; [constructor|].
      intros d t X. injection X as -> _. apply isdigit_false. exact E.
Qed.

Lemma span_body : forall s, exists a p b rest, s = body a p b rest /\
  Forall digit a /\ Forall digit b /\ (p = false -> b = []) /\
  (forall c t, rest = c :: t -> ~ digit c /\ (p = false -> c <> 46)).
Proof.
  intros s. destruct (span_digits s) as (a & r & -> & A & H).
  destruct r as [|c r].
  - exists a, false, [], []. unfold body. split; [reflexivity|]. split; [exact A|].
    split; [constructor|]. split; [reflexivity|discriminate].
  - destruct (Z.eq_dec c 46) as [->|N].
    + destruct (span_digits r) as (b & rest & -> & B & HB).
      exists a, true, b, rest. unfold body. split; [reflexivity|]. split; [exact A|].
      split; [exact B|]. split; [discriminate|].
      intros d t E. split; [exact (HB d t E)|discriminate].
    + exists a, false, [], (c :: r). unfold body. split; [reflexivity|]. split; [exact A|].
      split; [constructor|]. split; [reflexivity|].
      intros d t E. injection E as <- <-. split; [exact (H c r eq_refl)|intros _; exact N].
Qed.

Lemma string_to_real_sound : forall s v,
  string_to_real s = Some v ->
  exists pre r tail,
    s = pre ++ real_string r ++ tail /\ Forall space pre /\ well_formed r /\
    rt_exp r = None /\
    (Forall space tail \/
     exists e c t, tail = e :: c :: t /\ (e = 69 \/ e = 101)).
Proof.
  intros s v H. destruct (skip_space_split s) as (pre & ES & FP & _).
  unfold string_to_real in H. destruct (skip_space s) as [|c t] eqn:SK; [discriminate|].
  assert (exists sg s', c :: t = sg ++ s' /\ (sg = [] \/ sg = [45] \/ sg = [43]) /\
    snd (if c =? 45 then (true, t) else if c =? 43 then (false, t) else (false, c :: t)) = s')
    as (sg & s' & E1 & SG & E2).
  { destruct (Z.eqb_spec c 45) as [->|_]; [exists [45], t; auto|].
    destruct (Z.eqb_spec c 43) as [->|_]; [exists [43], t; auto|].
    exists [], (c :: t). auto. }
  destruct (if c =? 45 then (true, t) else if c =? 43 then (false, t) else (false, c :: t))
    as [sign s2]. cbn [snd] in E2. subst s2.
  destruct (span_body s') as (a & p & b & rest & EB & A & B & P & R).
  rewrite EB in H. rewrite (mant_ok a p b rest A B R) in H.
  exists pre, (RT sg a p b None), rest.
  split.
  { rewrite ES, E1, EB. unfold real_string, body. cbn [rt_sign rt_int rt_point rt_frac rt_exp].
    rewrite app_nil_r, <- !app_assoc. reflexivity. }
  split; [exact FP|].
  assert (a ++ b <> [] /\
          (Forall space rest \/ exists e c t, rest = e :: c :: t /\ (e = 69 \/ e = 101)))
    as [NE TL].
  { split.
    - intros N. apply app_eq_nil in N. destruct N as [-> ->].
      destruct p; cbn in H; discriminate.
    - assert (exists sg v r, scan_exp rest = Some (sg, v, r) /\ forallb isspace r = true)
        as (xs & xv & xr & SE & SP).
      { destruct (if p then (Z.of_nat (length a) + 1 + Z.of_nat (length b), Z.of_nat (length a), rest)
                  else (Z.of_nat (length a), -1, rest)) as [[ms dp] r0] eqn:EM.
        assert (r0 = rest) as -> by (destruct p; injection EM; auto).
        destruct (if dp <? 0 then (ms, ms) else (dp, ms - 1)) as [dp' ms'].
        destruct (if 18 <? ms' then (dp' - 18, 18) else (dp' - ms', ms')) as [fe ms2].
        destruct (negb (0 <? ms2)); [discriminate|].
        destruct (collect (Z.to_nat (ms2 - 9)) (body a p b rest) 0) as [[f1 s1]|]; [|discriminate].
        destruct (collect (Z.to_nat (Z.min ms2 9)) s1 0) as [[f2 s2]|]; [|discriminate].
        destruct (scan_exp rest) as [[[xs xv] xr]|]; [|discriminate].
        destruct (if (if xs then fe - xv else fe + xv) <? 0
                  then (true, - (if xs then fe - xv else fe + xv))
                  else (false, if xs then fe - xv else fe + xv)) as [es ex].
        destruct (negb (ex <=? 511)); [discriminate|].
        destruct (forallb isspace xr) eqn:FS; [|discriminate].
        exists xs, xv, xr. split; [reflexivity|exact FS]. }
      destruct rest as [|e rest]; [left; constructor|]. cbn [scan_exp] in SE.
      destruct ((e =? 69) || (e =? 101)) eqn:EE.
      + right. destruct rest as [|d rest]; [discriminate|]. exists e, d, rest.
        split; [reflexivity|]. apply orb_true_iff in EE. rewrite !Z.eqb_eq in EE. exact EE.
      + left. injection SE as <- <- <-. apply spaces_forallb. exact SP. }
  split; [|split; [reflexivity|exact TL]].
  unfold well_formed. cbn [rt_sign rt_int rt_point rt_frac rt_exp].
  split; [exact SG|]. split; [exact A|]. split; [exact B|]. split; [exact P|].
  split; [exact NE|exact Logic.I].
Qed.
