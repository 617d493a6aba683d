From Coq Require Import List NArith ZArith Bool Lia.
From Verif Require Import Base IdentModel PvalSpec PvalModel.
Import ListNotations.
Local Open Scope N_scope.

Lemma isspace_spec : forall c, isspace c = true <-> (c = 32 \/ 9 <= c <= 13 \/ c = 160).
Proof. intros. unfold isspace. rewrite !orb_true_iff, !N.eqb_eq. lia. Qed.
Lemma isdigit_spec : forall c, isdigit c = true <-> is_digit c.
Proof. intros. unfold isdigit, is_digit. rewrite andb_true_iff, !N.leb_le. tauto. Qed.
Lemma only_space_spec : forall s, only_space s = true <-> blank s.
Proof.
  intros. unfold only_space, blank. rewrite forallb_forall. split; intros H c C; apply isspace_spec; auto.
Qed.
Lemma blank_cons : forall c s, blank (c :: s) -> isspace c = true /\ blank s.
Proof. intros c s B. split; [apply isspace_spec, B; left; auto|]. intros d D. apply B. right; auto. Qed.
Lemma skip_blank : forall l s, blank l -> skip_space (l ++ s) = skip_space s.
Proof. induction l; intros s B; auto. apply blank_cons in B. cbn. destruct B as [-> B]. auto. Qed.
Lemma skip_solid : forall c s, isspace c = false -> skip_space (c :: s) = c :: s.
Proof. intros c s H. cbn. rewrite H. reflexivity. Qed.
Lemma skip_split : forall s, exists l, blank l /\ s = l ++ skip_space s.
Proof.
  induction s as [|c s (l & B & E)]; [exists []; split; auto; intros ? []|]. cbn. destruct (isspace c) eqn:S.
  - exists (c :: l). split; [|cbn; congruence]. intros d [<- |D]; [apply isspace_spec; auto|auto].
  - exists []. split; auto. intros ? [].
Qed.

(* ---- Integers ---- *)
Lemma numeral_value_mono : forall s a, (forall c, In c s -> is_digit c \/ c = 95) -> (0 <= a)%Z -> (a <= numeral_value s a)%Z.
Proof.
  induction s as [|c s IH]; intros a H A; cbn [numeral_value]; [lia|].
  assert (IH' := fun b => IH b (fun d D => H d (or_intror D))).
  destruct (N.eqb_spec c 95) as [->|N]; auto. destruct (H c (or_introl eq_refl)) as [D|D]; [|lia]. unfold is_digit in D.
  specialize (IH' (10 * a + (Z.of_N c - 48))%Z). lia.
Qed.
Lemma checked_ok : forall v, (- 2 ^ 63 <= v < 2 ^ 63)%Z -> checked v = Ok v.
Proof. intros. unfold checked. destruct (Z.leb_spec (- 2 ^ 63) v), (Z.ltb_spec v (2 ^ 63)); auto; lia. Qed.
Lemma checked_bad : forall v, (2 ^ 63 <= v)%Z -> checked v = Fault.
Proof. intros. unfold checked. destruct (Z.leb_spec (- 2 ^ 63) v), (Z.ltb_spec v (2 ^ 63)); auto; lia. Qed.
Definition stops (r : text) : Prop := match r with [] => True | c :: _ => isdigit c || (c =? 95) = false end.
Lemma scan_stop : forall r a n, stops r -> scan_digits r a n = Ok (a, n, r).
Proof. intros [|c r] a n H; cbn in *; [reflexivity|]. rewrite H. reflexivity. Qed.
Definition count_digits (s : text) : nat := length (filter isdigit s).
Lemma scan_is : forall ds r a n, (forall c, In c ds -> is_digit c \/ c = 95) -> stops r -> (0 <= a)%Z ->
  scan_digits (ds ++ r) a n =
  if (numeral_value ds a <? 2 ^ 63)%Z then (if (a <? 2 ^ 63)%Z then Ok (numeral_value ds a, (n + count_digits ds)%nat, r) else scan_digits (ds ++ r) a n)
  else if (a <? 2 ^ 63)%Z then Fault else scan_digits (ds ++ r) a n.
Proof.
  induction ds as [|c ds IH]; intros r a n H S A.
  - cbn [app numeral_value count_digits filter length]. rewrite scan_stop by auto. rewrite Nat.add_0_r. destruct (a <? 2 ^ 63)%Z; reflexivity.
  - assert (H' : forall d, In d ds -> is_digit d \/ d = 95) by (intros d D; apply H; right; auto).
    destruct (Z.ltb_spec a (2 ^ 63)) as [L|L]; [|destruct (_ <? _)%Z; reflexivity].
    cbn [app numeral_value scan_digits].
    destruct (N.eqb_spec c 95) as [->|N].
    + cbn [orb negb]. replace (isdigit 95 || true) with true by reflexivity. cbn [negb].
      rewrite IH by auto. apply Z.ltb_lt in L. rewrite L. reflexivity.
    + destruct (H c (or_introl eq_refl)) as [D|D]; [|congruence]. rewrite (proj2 (isdigit_spec c) D). cbn [orb negb]. unfold is_digit in D.
      pose proof (numeral_value_mono ds (10 * a + (Z.of_N c - 48)) H' ltac:(lia)) as M.
      destruct (Z.ltb_spec (numeral_value ds (10 * a + (Z.of_N c - 48))) (2 ^ 63)) as [V|V].
      * rewrite checked_ok by lia. cbn [bind]. rewrite checked_ok by lia. cbn [bind].
        replace (a * 10 + (Z.of_N c - 48))%Z with (10 * a + (Z.of_N c - 48))%Z by lia.
        rewrite IH by (auto; lia). apply Z.ltb_lt in V. rewrite V.
        destruct (Z.ltb_spec (10 * a + (Z.of_N c - 48)) (2 ^ 63)); [|apply Z.ltb_lt in V; lia].
        unfold count_digits. cbn [filter]. rewrite (proj2 (isdigit_spec c) D). cbn [length]. rewrite Nat.add_succ_comm. reflexivity.
      * destruct (Z.lt_ge_cases (a * 10) (2 ^ 63)) as [B1|B1]; [|rewrite checked_bad by lia; reflexivity].
        rewrite checked_ok by lia. cbn [bind].
        replace (a * 10 + (Z.of_N c - 48))%Z with (10 * a + (Z.of_N c - 48))%Z by lia.
        destruct (Z.lt_ge_cases (10 * a + (Z.of_N c - 48)) (2 ^ 63)) as [B2|B2]; [|rewrite checked_bad by lia; reflexivity].
        rewrite checked_ok by lia. cbn [bind]. rewrite IH by (auto; lia).
        destruct (Z.ltb_spec (numeral_value ds (10 * a + (Z.of_N c - 48))) (2 ^ 63)); [lia|].
        destruct (Z.ltb_spec (10 * a + (Z.of_N c - 48)) (2 ^ 63)); [reflexivity|lia].
Qed.
Lemma scan_split : forall s, exists ds r, s = ds ++ r /\ (forall c, In c ds -> is_digit c \/ c = 95) /\ stops r.
Proof.
  induction s as [|c s (ds & r & E & H & S)]; [exists [], []; repeat split; auto; intros ? []|].
  destruct (isdigit c || (c =? 95)) eqn:D.
  - exists (c :: ds), r. split; [cbn; congruence|]. split; auto. intros d [<- |X]; auto.
    apply orb_true_iff in D. rewrite isdigit_spec, N.eqb_eq in D. auto.
  - exists [], (c :: s). repeat split; auto. intros ? [].
Qed.
Lemma count_pos : forall s, count_digits s <> O <-> exists c, In c s /\ is_digit c.
Proof.
  intros s. unfold count_digits. split.
  - destruct (filter isdigit s) as [|c l] eqn:E; [cbn; congruence|]. intros _. exists c.
    assert (X : In c (filter isdigit s)) by (rewrite E; left; auto). apply filter_In in X. rewrite isdigit_spec in X. auto.
  - intros (c & C & D). assert (X : In c (filter isdigit s)) by (apply filter_In; rewrite isdigit_spec; auto).
    destruct (filter isdigit s); [destruct X|discriminate].
Qed.
Lemma blank_stops : forall r, blank r -> stops r.
Proof.
  intros [|c r] B; cbn; auto. apply blank_cons in B. destruct B as [B _]. apply isspace_spec in B.
  apply orb_false_iff. split; [|apply N.eqb_neq; lia]. destruct (isdigit c) eqn:D; auto. apply isdigit_spec in D. unfold is_digit in D. lia.
Qed.
(* What parse_integer does with any text that has no leading space *)
Definition signed (neg : bool) (v : Z) : Z := if neg then (- v)%Z else v.
Definition sign (neg : bool) : text := if neg then [45] else [].
Lemma parse_integer_is : forall l neg ds r, blank l -> (forall c, In c ds -> is_digit c \/ c = 95) -> stops r ->
  (ds = [] -> match r with [] => True | c :: _ => isspace c = false /\ (neg = false -> c <> 45) end \/ neg = true) ->
  parse_integer (l ++ sign neg ++ ds ++ r) =
  if (numeral_value ds 0 <? 2 ^ 63)%Z then
    match count_digits ds with O => Ok None | _ => if only_space r then Ok (Some (signed neg (numeral_value ds 0))) else Ok None end
  else Fault.
Proof.
  intros l neg ds r B D S H. unfold parse_integer. rewrite skip_blank by auto.
  assert (E : skip_space (sign neg ++ ds ++ r) = sign neg ++ ds ++ r /\
    match sign neg ++ ds ++ r with c :: _ => c =? 45 | [] => false end = neg).
  { destruct neg; cbn [sign app]; [split; reflexivity|]. destruct ds as [|c ds].
    - cbn [app]. destruct (H eq_refl) as [X|X]; [|discriminate]. destruct r as [|c r]; auto. destruct X as [X1 X2].
      rewrite skip_solid by auto. split; auto. apply N.eqb_neq. auto.
    - cbn [app]. assert (X : is_digit c \/ c = 95) by (apply D; left; auto). unfold is_digit in X. rewrite skip_solid.
      + split; auto. apply N.eqb_neq. lia.
      + destruct (isspace c) eqn:E; auto. apply isspace_spec in E. lia. }
  destruct E as [E1 E2]. rewrite E1, E2. cbv zeta.
  replace (if neg then tl (sign neg ++ ds ++ r) else sign neg ++ ds ++ r) with (ds ++ r) by (destruct neg; reflexivity).
  rewrite scan_is by (auto; lia). replace (0 <? 2 ^ 63)%Z with true by reflexivity.
  destruct (numeral_value ds 0 <? 2 ^ 63)%Z; reflexivity.
Qed.
Lemma parse_integer_split : forall s, exists l neg ds r, s = l ++ sign neg ++ ds ++ r /\ blank l /\
  (forall c, In c ds -> is_digit c \/ c = 95) /\ stops r /\
  (ds = [] -> match r with [] => True | c :: _ => isspace c = false /\ (neg = false -> c <> 45) end \/ neg = true).
Proof.
  intros s. destruct (skip_split s) as (l & B & E). set (t := skip_space s) in *.
  assert (ID : match t with [] => True | c :: _ => isspace c = false end).
  { unfold t. clear. induction s as [|c s IH]; cbn; auto. destruct (isspace c) eqn:S; auto. }
  set (neg := match t with c :: _ => c =? 45 | [] => false end).
  assert (T : t = sign neg ++ (if neg then tl t else t)).
  { unfold neg. destruct t as [|c t']; auto. destruct (N.eqb_spec c 45) as [->|]; reflexivity. }
  destruct (scan_split (if neg then tl t else t)) as (ds & r & E2 & D & S). exists l, neg, ds, r.
  split; [rewrite <- E2, <- T; auto|]. split; auto. split; auto. split; auto. intros ->. cbn in E2.
  destruct neg eqn:N; [right; auto|left]. rewrite <- E2. destruct t as [|c t']; auto. split; auto. intros _ ->.
  unfold neg in N. discriminate.
Qed.

(* ---- Words ---- *)
Lemma text_eqb_spec : forall a b, text_eqb a b = true <-> a = b.
Proof.
  induction a; destruct b; cbn; split; intros H; try discriminate; auto.
  - apply andb_true_iff in H. destruct H as [H1 H2]. apply N.eqb_eq in H1. apply IHa in H2. congruence.
  - inversion H; subst. rewrite N.eqb_refl. apply IHa. reflexivity.
Qed.
Lemma find_lit_some : forall w lits i j, find_lit w lits i = Some j -> exists k, j = (i + k)%nat /\ nth_error lits k = Some w.
Proof.
  induction lits as [|l r IH]; intros i j H; cbn in H; [discriminate|]. destruct (text_eqb l w) eqn:E.
  - injection H as <-. exists O. apply text_eqb_spec in E. subst. split; [lia|reflexivity].
  - apply IH in H. destruct H as (k & -> & N). exists (S k). split; [lia|auto].
Qed.
Lemma find_lit_at : forall w lits i k, NoDup lits -> nth_error lits k = Some w -> find_lit w lits i = Some (i + k)%nat.
Proof.
  induction lits as [|l r IH]; intros i k ND H; [destruct k; discriminate|]. inversion ND; subst. cbn.
  destruct k; cbn in H.
  - injection H as ->. rewrite (proj2 (text_eqb_spec w w) eq_refl). f_equal. lia.
  - destruct (text_eqb l w) eqn:E; [apply text_eqb_spec in E; subst; apply nth_error_In in H; contradiction|].
    rewrite (IH (S i) k) by auto. f_equal. lia.
Qed.
Definition ends (r : text) : Prop := match r with [] => True | c :: _ => isspace c = true end.
Lemma blank_ends : forall r, blank r -> ends r.
Proof. intros [|c r] B; cbn; auto. apply blank_cons in B. tauto. Qed.
Lemma up_word_app : forall w r b, (forall c, In c w -> isspace c = false) -> ends r ->
  up_word (w ++ r) b = (fst (up_word w b), r).
Proof.
  induction w as [|c w IH]; intros r b H E; cbn [app].
  - destruct r as [|c r]; cbn; auto. cbn in E. rewrite E. reflexivity.
  - cbn [up_word]. rewrite H by (left; auto). rewrite IH by (auto; intros d D; apply H; right; auto).
    destruct (up_word w (b && negb (c =? 39))). reflexivity.
Qed.
Lemma up_word_split : forall s b, exists w r, s = w ++ r /\ (forall c, In c w -> isspace c = false) /\ ends r /\
  up_word s b = (fst (up_word w b), r).
Proof.
  intros s b. assert (X : exists w r, s = w ++ r /\ (forall c, In c w -> isspace c = false) /\ ends r).
  { induction s as [|c s (w & r & E & H & N)]; [exists [], []; repeat split; auto; intros ? []|].
    destruct (isspace c) eqn:S.
    - exists [], (c :: s). repeat split; auto. intros ? [].
    - exists (c :: w), r. split; [cbn; congruence|]. split; auto. intros d [<- |D]; auto. }
  destruct X as (w & r & -> & H & N). exists w, r. repeat split; auto. apply up_word_app; auto.
Qed.
Lemma toupper_case : forall c, case_of c (toupper_iso88591 c).
Proof.
  intros c. unfold toupper_iso88591, case_of.
  destruct ((97 <=? c) && (c <=? 122)) eqn:A.
  - apply andb_true_iff in A. rewrite !N.leb_le in A. right. split; [left; lia|lia].
  - destruct (((224 <=? c) && (c <=? 246)) || ((248 <=? c) && (c <=? 254))) eqn:B; [|left; auto].
    apply orb_true_iff in B. rewrite !andb_true_iff, !N.leb_le in B. right. split; [right; lia|lia].
Qed.
Lemma up_word_case : forall w b, (forall c, In c w -> isspace c = false) -> Forall2 case_of w (fst (up_word w b)).
Proof.
  induction w as [|c w IH]; intros b H; cbn [up_word]; [constructor|]. rewrite H by (left; auto).
  specialize (IH (b && negb (c =? 39)) (fun d D => H d (or_intror D))). destruct (up_word w (b && negb (c =? 39))) as [x y].
  cbn [fst] in *. constructor; auto. destruct (b && negb (c =? 39)); [apply toupper_case|left; auto].
Qed.
Lemma spells_up : forall w id, spells w id -> (forall c, In c id -> (65 <= c <= 90) \/ is_digit c \/ c = 95) ->
  fst (up_word w true) = id /\ (forall c, In c w -> isspace c = false) /\ fst (up_unit w) = id.
Proof.
  assert (SP : forall c, (97 <= c <= 122) \/ (65 <= c <= 90) \/ is_digit c \/ c = 95 -> isspace c = false /\ (c =? 39) = false).
  { intros c H. unfold is_digit in H. split; [|apply N.eqb_neq; lia]. destruct (isspace c) eqn:E; auto. apply isspace_spec in E. lia. }
  induction 1 as [|c s t SS IH|c s t R SS IH]; intros H; cbn [up_word up_unit].
  - repeat split; auto. intros ? [].
  - destruct IH as (I1 & I2 & I3); [intros d D; apply H; right; auto|]. assert (R := H c (or_introl eq_refl)).
    destruct (SP c) as [S1 S2]; [tauto|]. rewrite S1, S2. cbn [negb andb].
    assert (U : toupper_iso88591 c = c).
    { unfold is_digit in R. unfold toupper_iso88591. destruct (N.leb_spec 97 c), (N.leb_spec c 122); cbn [andb]; try lia;
      destruct (N.leb_spec 224 c), (N.leb_spec 248 c); cbn [andb orb]; try lia; auto. }
    destruct (up_word s true), (up_unit s). cbn [fst] in *. rewrite U. split; [congruence|]. split; [intros d [<- |D]; auto|congruence].
  - destruct IH as (I1 & I2 & I3); [intros d D; apply H; right; auto|].
    destruct (SP (c + 32)) as [S1 S2]; [lia|]. rewrite S1, S2. cbn [negb andb].
    assert (U : toupper_iso88591 (c + 32) = c).
    { unfold toupper_iso88591. destruct (N.leb_spec 97 (c + 32)), (N.leb_spec (c + 32) 122); cbn [andb]; lia. }
    destruct (up_word s true), (up_unit s). cbn [fst] in *. rewrite U. split; [congruence|]. split; [intros d [<- |D]; auto|congruence].
Qed.

(* ---- Characters ---- *)
Lemma char_map_some : forall lits i c j, proper lits -> char_map lits i c = Some j ->
  exists k, j = (i + k)%nat /\ nth_error lits k = Some (quote c).
Proof.
  induction lits as [|l r IH]; intros i c j [ND P] H; cbn in H; [discriminate|].
  assert (PR : proper r) by (split; [inversion ND; auto|intros x X; apply P; right; auto]).
  destruct (char_map r (S i) c) as [j'|] eqn:E.
  - injection H as <-. apply IH in E; auto. destruct E as (k & -> & N). exists (S k). split; [lia|auto].
  - destruct l as [|q [|d t]]; try discriminate. destruct ((q =? 39) && (d =? c)) eqn:Q; [|discriminate]. injection H as <-.
    apply andb_true_iff in Q. rewrite !N.eqb_eq in Q. destruct Q as [-> ->]. exists O. split; [lia|]. cbn.
    destruct (P (39 :: c :: t) (or_introl eq_refl)) as [(e & E2)|X]; [|cbn in X; congruence]. unfold quote in E2. inversion E2; subst. reflexivity.
Qed.
Lemma char_map_at : forall lits i c k, proper lits -> nth_error lits k = Some (quote c) -> char_map lits i c = Some (i + k)%nat.
Proof.
  induction lits as [|l r IH]; intros i c k [ND P] H; [destruct k; discriminate|].
  assert (PR : proper r) by (split; [inversion ND; auto|intros x X; apply P; right; auto]).
  destruct k; cbn in H |- *.
  - injection H as ->. destruct (char_map r (S i) c) as [j|] eqn:E.
    + apply char_map_some in E; auto. destruct E as (k & _ & N). apply nth_error_In in N. inversion ND; contradiction.
    + cbn. rewrite !N.eqb_refl. cbn. f_equal. lia.
  - rewrite (IH (S i) c k) by auto. f_equal. lia.
Qed.
Lemma take_is : forall lits vs t r, proper lits -> (length lits <= 256)%nat -> spelled_by lits vs t ->
  match r with [] => True | c :: _ => char_map lits 0 c = None end ->
  take_mapped (char_map lits 0) (t ++ r) = (vs, r).
Proof.
  intros lits vs t r P L S R. induction S as [|i is c s I S IH]; cbn [app].
  - destruct r as [|c r]; cbn; auto. rewrite R. reflexivity.
  - cbn [take_mapped]. unfold literal_at in I. rewrite (char_map_at lits 0 c i) by auto. rewrite IH. cbn [Nat.add].
    assert (i < length lits)%nat by (apply nth_error_Some; congruence). rewrite Nat.mod_small by lia. reflexivity.
Qed.
Lemma take_split : forall lits s vs rest, proper lits -> (length lits <= 256)%nat ->
  take_mapped (char_map lits 0) s = (vs, rest) -> exists t, s = t ++ rest /\ spelled_by lits vs t.
Proof.
  intros lits. induction s as [|c s IH]; intros vs rest P L H; cbn in H.
  - injection H as <- <-. exists []. split; auto. constructor.
  - destruct (char_map lits 0 c) as [i|] eqn:E.
    + destruct (take_mapped (char_map lits 0) s) as [vs' rest'] eqn:T. injection H as <- <-.
      destruct (IH vs' rest') as (t & -> & S); auto. exists (c :: t). split; auto.
      apply char_map_some in E; auto. destruct E as (k & -> & N). cbn [Nat.add].
      assert (k < length lits)%nat by (apply nth_error_Some; congruence). rewrite Nat.mod_small by lia. constructor; auto.
    + injection H as <- <-. exists []. split; auto. constructor.
Qed.
Lemma unmapped_split : forall map s, exists l, blank l /\ s = l ++ skip_unmapped map s.
Proof.
  intros map. induction s as [|c s (l & B & E)]; [exists []; split; auto; intros ? []|]. cbn.
  destruct (map c); [exists []; split; auto; intros ? []|]. destruct (isspace c) eqn:S.
  - exists (c :: l). split; [|cbn; congruence]. intros d [<- |D]; [apply isspace_spec; auto|auto].
  - exists []. split; auto. intros ? [].
Qed.
Lemma skip_unmapped_app : forall map l s, blank l -> (forall c, In c l -> map c = None) -> skip_unmapped map (l ++ s) = skip_unmapped map s.
Proof.
  induction l as [|c l IH]; intros s B H; auto. apply blank_cons in B. destruct B as [B1 B2]. cbn.
  rewrite (H c (or_introl eq_refl)), B1. apply IH; auto. intros d D; apply H; right; auto.
Qed.
