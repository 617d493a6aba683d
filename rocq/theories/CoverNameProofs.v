From Coq Require Import ZArith NArith List Bool Arith Lia.
From Verif Require Import Base CoverNameModel.
Import ListNotations.

Lemma str_eqb_true a b : str_eqb a b = true <-> a = b.
Proof. unfold str_eqb. destruct (list_eq_dec N.eq_dec a b); split; congruence. Qed.
Lemma str_eqb_false a b : str_eqb a b = false <-> a <> b.
Proof. unfold str_eqb. destruct (list_eq_dec N.eq_dec a b); split; congruence. Qed.

(* Decimal numbers. *)
Definition dval (l : str) : N := fold_left (fun v c => (10 * v + (c - 48))%N) l 0%N.
Definition is_digit (c : N) : Prop := (48 <= c <= 57)%N.

Lemma dval_app l m : dval (l ++ m) = fold_left (fun v c => (10 * v + (c - 48))%N) m (dval l).
Proof. unfold dval. apply fold_left_app. Qed.

Lemma digits_app : forall fuel n acc, digits fuel n acc = digits fuel n [] ++ acc.
Proof.
  induction fuel as [|f IH]; intros n acc; cbn [digits]; [reflexivity|].
  destruct (n <? 10)%N; [reflexivity|]. rewrite IH, (IH _ [_]), <- app_assoc. reflexivity.
Qed.

Lemma digits_val : forall fuel n, (n < 2 ^ N.of_nat fuel)%N -> dval (digits fuel n []) = n.
Proof.
  induction fuel as [|f IH]; intros n H.
  - cbn in H. assert (n = 0)%N by lia. subst. reflexivity.
  - cbn [digits]. assert (D := N.div_mod n 10 ltac:(lia)).
    assert (M := N.mod_upper_bound n 10 ltac:(lia)).
    destruct (N.ltb_spec n 10) as [L|L].
    + unfold dval. cbn [fold_left]. rewrite N.mod_small by exact L. lia.
    + rewrite digits_app, dval_app. cbn [fold_left]. rewrite IH.
      { clear IH H M L. set (q := (n / 10)%N) in *. set (r := (n mod 10)%N) in *. clearbody q r. lia. }
      replace (N.of_nat (S f)) with (N.succ (N.of_nat f)) in H by lia.
      rewrite N.pow_succ_r' in H. apply N.div_lt_upper_bound; lia.
Qed.

Lemma log_bound n : (n < 2 ^ N.of_nat (S (N.to_nat (N.log2 n))))%N.
Proof.
  replace (N.of_nat (S (N.to_nat (N.log2 n)))) with (N.succ (N.log2 n)) by lia.
  destruct (N.eq_dec n 0) as [->|NZ]; [reflexivity|].
  apply N.log2_spec. lia.
Qed.

Lemma decimal_val n : dval (decimal n) = n.
Proof. unfold decimal. apply digits_val. apply log_bound. Qed.

Lemma decimal_inj a b : decimal a = decimal b -> a = b.
Proof. intros E. rewrite <- (decimal_val a), <- (decimal_val b), E. reflexivity. Qed.

Lemma digits_digits : forall fuel n acc, Forall is_digit acc -> Forall is_digit (digits fuel n acc).
Proof.
  induction fuel as [|f IH]; intros n acc F; cbn [digits]; [exact F|].
  assert (M := N.mod_upper_bound n 10 ltac:(lia)).
  assert (G : Forall is_digit ((48 + n mod 10)%N :: acc)).
  { constructor; [|exact F]. unfold is_digit. clear IH. set (r := (n mod 10)%N) in *. clearbody r. lia. }
  destruct (n <? 10)%N; [exact G | now apply IH].
Qed.

Lemma decimal_digits n : Forall is_digit (decimal n).
Proof. apply digits_digits. constructor. Qed.

Lemma decimal_nonempty n : decimal n <> [].
Proof.
  unfold decimal. cbn [digits]. destruct (n <? 10)%N; [discriminate|].
  rewrite digits_app. intros E. apply app_eq_nil in E. destruct E as [_ E]. discriminate.
Qed.

(* One encoded character. *)
Definition enc (ch : N) : str :=
  if isalnum ch || (ch =? 95)%N then [ch]
  else [38; 35]%N ++ decimal_signed (as_char ch) ++ [59]%N.

Lemma sanitise_cons ch r : sanitise (ch :: r) = enc ch ++ sanitise r.
Proof. reflexivity. Qed.

Definition plain (c : N) : Prop := c <> 38%N /\ c <> 35%N /\ c <> 59%N.

Lemma raw_plain ch : isalnum ch || (ch =? 95)%N = true -> plain ch.
Proof.
  unfold plain. intros H. repeat split; intros ->; discriminate.
Qed.

Definition numeral (c : N) : Prop := is_digit c \/ c = 45%N.

Lemma signed_numeral z : Forall numeral (decimal_signed z).
Proof.
  assert (X : forall n, Forall numeral (decimal n)).
  { intros n. eapply Forall_impl; [|apply decimal_digits]. intros c H. now left. }
  unfold decimal_signed. destruct (z <? 0)%Z; [constructor; [now right | apply X] | apply X].
Qed.

Lemma signed_inj a b : decimal_signed a = decimal_signed b -> a = b.
Proof.
  assert (M : forall n l, decimal n <> 45%N :: l).
  { intros n l E. pose proof (decimal_digits n) as D. rewrite E in D.
    inversion D as [|? ? H _]. unfold is_digit in H. lia. }
  unfold decimal_signed.
  destruct (Z.ltb_spec a 0); destruct (Z.ltb_spec b 0); intros E.
  - injection E as E. apply decimal_inj in E. lia.
  - symmetry in E. now apply M in E.
  - now apply M in E.
  - apply decimal_inj in E. lia.
Qed.

Lemma as_char_inj a b : (a < 256)%N -> (b < 256)%N -> as_char a = as_char b -> a = b.
Proof.
  unfold as_char. intros A B. destruct (N.ltb_spec a 128); destruct (N.ltb_spec b 128); lia.
Qed.

(* Splitting at the first character that is not a numeral. *)
Lemma split_numeral l l' r r' c c' :
  Forall numeral l -> Forall numeral l' -> ~ numeral c -> ~ numeral c' ->
  l ++ c :: r = l' ++ c' :: r' -> l = l' /\ c :: r = c' :: r'.
Proof.
  revert l'. induction l as [|x l IH]; intros [|y l'] F F' NC NC' E; cbn [app] in E.
  - auto.
  - injection E as -> E. inversion F'; subst. contradiction.
  - injection E as <- E. inversion F; subst. contradiction.
  - injection E as <- E. inversion F; inversion F'; subst.
    destruct (IH l') as [-> X]; auto.
Qed.

Lemma not_numeral_59 : ~ numeral 59%N.
Proof. intros [H|H]; [unfold is_digit in H; lia | discriminate]. Qed.
Lemma not_numeral_35 : ~ numeral 35%N.
Proof. intros [H|H]; [unfold is_digit in H; lia | discriminate]. Qed.

Lemma enc_head a r b r' : (a < 256)%N -> (b < 256)%N -> enc a ++ r = enc b ++ r' -> a = b /\ r = r'.
Proof.
  intros A B. unfold enc.
  destruct (isalnum a || (a =? 95)%N) eqn:EA; destruct (isalnum b || (b =? 95)%N) eqn:EB; cbn [app]; intros E.
  - injection E as -> E. auto.
  - injection E as -> _. apply raw_plain in EA. destruct EA as [X _]. congruence.
  - injection E as <- _. apply raw_plain in EB. destruct EB as [X _]. congruence.
  - injection E as E. rewrite <- !app_assoc in E. cbn [app] in E.
    apply split_numeral in E; try apply signed_numeral; try apply not_numeral_59.
    destruct E as [E1 E2]. injection E2 as E2.
    split; [|exact E2]. apply as_char_inj; [exact A | exact B |]. now apply signed_inj.
Qed.

Definition bytes (s : str) : Prop := Forall (fun c => (c < 256)%N) s.

Lemma enc_not_nil a r : enc a ++ r <> [].
Proof. unfold enc. destruct (isalnum a || (a =? 95)%N); discriminate. Qed.

Lemma enc_not_hash a r x : enc a ++ r <> 35%N :: x.
Proof.
  unfold enc. destruct (isalnum a || (a =? 95)%N) eqn:E; cbn [app]; intros X.
  - injection X as -> _. apply raw_plain in E. destruct E as [_ [E _]]. congruence.
  - discriminate.
Qed.

Definition suffix (k : N) : str := if (k =? 0)%N then [] else 35%N :: decimal k.

Lemma suffix_inj j k : suffix j = suffix k -> j = k.
Proof.
  unfold suffix. destruct (N.eqb_spec j 0) as [->|]; destruct (N.eqb_spec k 0) as [->|]; intros E; auto.
  - discriminate.
  - discriminate.
  - injection E as E. now apply decimal_inj.
Qed.

(* The name and the number are determined. *)
Lemma name_inj : forall a b j k, bytes a -> bytes b ->
  sanitise a ++ suffix j = sanitise b ++ suffix k -> a = b /\ j = k.
Proof.
  induction a as [|x a IH]; intros [|y b] j k BA BB E.
  - split; [reflexivity|]. now apply suffix_inj.
  - exfalso. change (sanitise [] ++ suffix j) with (suffix j) in E. rewrite sanitise_cons, <- app_assoc in E.
    unfold suffix at 1 in E. destruct (j =? 0)%N; symmetry in E;
      [now apply enc_not_nil in E | now apply enc_not_hash in E].
  - exfalso. rewrite sanitise_cons, <- app_assoc in E. change (sanitise [] ++ suffix k) with (suffix k) in E.
    unfold suffix at 2 in E. destruct (k =? 0)%N;
      [now apply enc_not_nil in E | now apply enc_not_hash in E].
  - inversion BA as [|? ? HX BA']; inversion BB as [|? ? HY BB']; subst.
    rewrite !sanitise_cons, <- !app_assoc in E.
    apply enc_head in E; [|assumption|assumption]. destruct E as [-> E].
    destruct (IH b j k BA' BB' E) as [-> ->]. auto.
Qed.

(* The loop against the names that are there. *)
Definition full (pre name : str) (k : N) : str := pre ++ sanitise name ++ suffix k.

Lemma full_inj pre a b j k : bytes a -> bytes b -> full pre a j = full pre b k -> a = b /\ j = k.
Proof. intros A B E. apply app_inv_head in E. now apply name_inj. Qed.

(* What is there: names of the form (name, number), where the numbers of each
   name are 0, 1, 2 ... in order, and others that are not of that form for a
   number above zero. *)
Inductive entry := Made (name : str) (k : N) | Other (s : str).
Definition shown (pre : str) (e : entry) : str :=
  match e with Made n k => full pre n k | Other s => s end.

Definition same_name (name : str) (e : entry) : option N :=
  match e with Made n k => if str_eqb n name then Some k else None | Other s => None end.

Fixpoint numbers (name : str) (es : list entry) : list N :=
  match es with
  | [] => []
  | e :: r => match same_name name e with Some k => k :: numbers name r | None => numbers name r end
  end.

Fixpoint from (k : N) (n : nat) : list N :=
  match n with 0 => [] | S m => k :: from (k + 1) m end.

Lemma from_snoc k n : from k (S n) = from k n ++ [(k + N.of_nat n)%N].
Proof.
  revert k. induction n as [|n IH]; intros k.
  - cbn. f_equal. lia.
  - change (from k (S (S n))) with (k :: from (k + 1) (S n)). rewrite IH.
    cbn [from app]. f_equal. f_equal. f_equal. lia.
Qed.

Lemma dedup_ok pre name : bytes name -> forall es k m,
  (forall n j, In (Made n j) es -> bytes n) ->
  (forall s j, In (Other s) es -> s <> full pre name j) ->
  numbers name es = from k m ->
  dedup (pre ++ sanitise name) (map (shown pre) es) k (full pre name k) = full pre name (k + N.of_nat m).
Proof.
  intros B. induction es as [|e r IH]; intros k m HB HO HN; cbn [map dedup numbers] in *.
  - destruct m; [|discriminate]. f_equal. lia.
  - destruct e as [n j|s]; cbn [same_name shown] in *.
    + destruct (str_eqb n name) eqn:Q.
      * apply str_eqb_true in Q. subst n. destruct m as [|m]; [discriminate|]. cbn [from] in HN.
        injection HN as -> HN.
        replace (str_eqb (full pre name k) (full pre name k)) with true
          by (symmetry; now apply str_eqb_true).
        replace ((pre ++ sanitise name) ++ 35%N :: decimal (k + 1)) with (full pre name (k + 1)).
        2:{ unfold full, suffix. rewrite <- app_assoc.
            destruct (N.eqb_spec (k + 1) 0); [lia | reflexivity]. }
        rewrite (IH (k + 1)%N m); [f_equal; lia | | | exact HN].
        -- intros n' j' I. apply (HB n' j'). now right.
        -- intros s' j' I. apply HO. now right.
      * apply str_eqb_false in Q.
        replace (str_eqb (full pre n j) (full pre name k)) with false.
        2:{ symmetry. apply str_eqb_false. intros E. apply full_inj in E;
            [destruct E; congruence | apply (HB n j); now left | exact B]. }
        apply IH; [| | exact HN].
        -- intros n' j' I. apply (HB n' j'). now right.
        -- intros s' j' I. apply HO. now right.
    + replace (str_eqb s (full pre name k)) with false.
      2:{ symmetry. apply str_eqb_false. apply HO. now left. }
      apply IH; [| | exact HN].
      * intros n' j' I. apply (HB n' j'). now right.
      * intros s' j' I. apply HO. now right.
Qed.

(* Well-formed lists of entries. *)
Definition orderly (es : list entry) : Prop :=
  (forall n j, In (Made n j) es -> bytes n) /\
  (forall name, exists m, numbers name es = from 0 m).

Lemma numbers_app name a b : numbers name (a ++ b) = numbers name a ++ numbers name b.
Proof.
  induction a as [|e r IH]; cbn [app numbers]; [reflexivity|].
  destruct (same_name name e); [cbn [app]; now rewrite IH | exact IH].
Qed.

Lemma in_from k n x : In x (from k n) <-> (k <= x < k + N.of_nat n)%N.
Proof.
  revert k. induction n as [|n IH]; intros k; cbn [from In].
  - lia.
  - rewrite IH. lia.
Qed.

Lemma in_numbers name es k : In (Made name k) es -> In k (numbers name es).
Proof.
  induction es as [|e r IH]; intros I; [destruct I|]. cbn [numbers].
  destruct I as [->|I].
  - cbn [same_name]. replace (str_eqb name name) with true by (symmetry; now apply str_eqb_true).
    now left.
  - destruct (same_name name e); [right|]; now apply IH.
Qed.

Definition foreign (pre : str) (es : list entry) : Prop :=
  forall s n k, In (Other s) es -> bytes n -> s <> full pre n k.

Lemma from_length k n : length (from k n) = n.
Proof. revert k. induction n as [|n IH]; intros k; cbn; auto. Qed.

Lemma add_one pre es name : bytes name -> orderly es -> foreign pre es ->
  NoDup (map (shown pre) es) ->
  let k := N.of_nat (length (numbers name es)) in
  dedup (pre ++ sanitise name) (map (shown pre) es) 0 (pre ++ sanitise name) = full pre name k /\
  orderly (es ++ [Made name k]) /\ foreign pre (es ++ [Made name k]) /\
  NoDup (map (shown pre) (es ++ [Made name k])).
Proof.
  intros B [OB ON] F ND k. destruct (ON name) as [m Hm].
  assert (Hk : k = N.of_nat m) by (unfold k; rewrite Hm, from_length; reflexivity).
  split; [|split; [|split]].
  - replace (pre ++ sanitise name) with (full pre name 0) at 2
      by (unfold full, suffix; cbn [N.eqb]; now rewrite app_nil_r).
    rewrite (dedup_ok pre name B es 0 m OB) by (try exact Hm; intros s j I; now apply (F s name j)).
    now rewrite Hk.
  - split.
    + intros n j I. apply in_app_iff in I. destruct I as [I|[I|[]]]; [now apply (OB n j)|].
      injection I as <- _. exact B.
    + intros n. rewrite numbers_app. cbn [numbers same_name].
      destruct (str_eqb name n) eqn:Q.
      * apply str_eqb_true in Q. subst n. exists (S m). rewrite Hm, from_snoc, Hk. reflexivity.
      * destruct (ON n) as [q Hq]. exists q. now rewrite app_nil_r.
  - intros s n j I. apply in_app_iff in I. destruct I as [I|[I|[]]]; [now apply F | discriminate].
  - rewrite map_app. cbn [map shown].
    assert (X : ~ In (full pre name k) (map (shown pre) es)).
    { intros I. apply in_map_iff in I. destruct I as [[n j|s] [E I]]; cbn [shown] in E.
      - apply full_inj in E; [|now apply (OB n j)|exact B]. destruct E as [-> ->].
        apply in_numbers in I. rewrite Hm in I. apply in_from in I. lia.
      - now apply (F s name k I B) in E. }
    clear -ND X. induction (map (shown pre) es) as [|y r IH]; cbn [app].
    + constructor; [intros [] | constructor].
    + inversion ND as [|? ? NI ND']; subst. constructor.
      * intros I. apply in_app_iff in I. destruct I as [I|[I|[]]]; [contradiction|].
        apply X. left. symmetry. exact I.
      * apply IH; [exact ND' | intros I; apply X; now right].
Qed.

Lemma count_occ_numbers name es :
  length (numbers name es) =
  length (filter (fun e => match same_name name e with Some _ => true | None => false end) es).
Proof.
  induction es as [|e r IH]; cbn [numbers filter]; [reflexivity|].
  destruct (same_name name e); cbn [length]; now rewrite IH.
Qed.

(* Items: the entries made from a list of names. *)
Definition occurrences (name : str) (l : list str) : nat :=
  length (filter (str_eqb name) l).

Lemma str_eqb_sym a b : str_eqb a b = str_eqb b a.
Proof. unfold str_eqb. destruct (list_eq_dec N.eq_dec a b), (list_eq_dec N.eq_dec b a); congruence. Qed.

Definition stands_for (es : list entry) (names : list str) : Prop :=
  Forall2 (fun e n => exists k, e = Made n k) es names.

Lemma stands_numbers es names name : stands_for es names ->
  length (numbers name es) = occurrences name names.
Proof.
  unfold occurrences. induction 1 as [|e n es names [k ->] F IH]; [reflexivity|].
  cbn [numbers same_name filter]. rewrite (str_eqb_sym name n).
  destruct (str_eqb n name); cbn [length]; now rewrite IH.
Qed.

Lemma add_items_ok hier : forall names es done items,
  (forall n, In n names -> n <> [] /\ bytes n) ->
  orderly es -> foreign (hier ++ [46%N]) es -> NoDup (map (shown (hier ++ [46%N])) es) ->
  stands_for es done ->
  add_items hier (map (shown (hier ++ [46%N])) es) names = Ok items ->
  NoDup items /\ length items = length done + length names /\
  (forall i, i < length done -> nth_error items i = nth_error (map (shown (hier ++ [46%N])) es) i) /\
  (forall i n, nth_error names i = Some n ->
     nth_error items (length done + i) =
     Some (full (hier ++ [46%N]) n (N.of_nat (occurrences n (done ++ firstn i names))))).
Proof.
  induction names as [|n rest IH]; intros es done items HN O F ND ST E; cbn [add_items] in E.
  - injection E as <-. assert (L : length es = length done).
    { clear -ST. induction ST; cbn; auto. }
    split; [exact ND|]. split; [rewrite map_length, L; cbn; lia|]. split; [reflexivity|].
    intros i m X. destruct i; discriminate.
  - destruct (HN n (or_introl eq_refl)) as [NE B]. unfold add_item in E.
    destruct n as [|c n]; [contradiction|]. set (name := c :: n) in *. cbn [bind] in E.
    replace (hier ++ 46%N :: sanitise name) with ((hier ++ [46%N]) ++ sanitise name) in E
      by (rewrite <- app_assoc; reflexivity).
    set (pre := hier ++ [46%N]) in *.
    destruct (add_one pre es name B O F ND) as [D [O' [F' ND']]].
    rewrite (stands_numbers es done name ST) in *. set (k := N.of_nat (occurrences name done)) in *.
    rewrite D in E. replace (map (shown pre) es ++ [full pre name k]) with (map (shown pre) (es ++ [Made name k])) in E
      by (rewrite map_app; reflexivity).
    assert (L : length es = length done).
    { clear -ST. induction ST; cbn; auto. }
    assert (ST' : stands_for (es ++ [Made name k]) (done ++ [name])).
    { apply Forall2_app; [exact ST|]. constructor; [eauto | constructor]. }
    destruct (IH (es ++ [Made name k]) (done ++ [name]) items) as [A1 [A2 [A3 A4]]]; auto.
    { intros m I. apply HN. now right. }
    rewrite app_length in A2, A3, A4. cbn [length] in A2, A3, A4.
    split; [exact A1|]. split; [cbn [length]; lia|]. split.
    + intros i Hi. rewrite A3 by lia. rewrite map_app, nth_error_app1; [reflexivity|].
      rewrite map_length. lia.
    + intros [|i] m X; cbn [nth_error firstn] in *.
      * injection X as <-. rewrite Nat.add_0_r, app_nil_r. rewrite A3 by lia.
        rewrite map_app, nth_error_app2 by (rewrite map_length; lia).
        rewrite map_length, L, Nat.sub_diag. reflexivity.
      * specialize (A4 i m X). replace (length done + S i) with (length done + 1 + i) by lia.
        rewrite A4. rewrite <- app_assoc. reflexivity.
Qed.

(* Scopes. *)
Definition idchar (c : N) : bool := isalnum c || (c =? 95)%N.

(* What appears in encoded names. *)
Definition codechar (c : N) : bool :=
  idchar c || (c =? 38)%N || (c =? 35)%N || (c =? 59)%N || (c =? 45)%N.

Lemma digit_code c : is_digit c -> codechar c = true.
Proof.
  intros [A B]. unfold codechar, idchar, isalnum, between.
  replace ((48 <=? c) && (c <=? 57))%N with true; [now rewrite !Bool.orb_true_r|].
  symmetry. apply andb_true_intro. split; apply N.leb_le; assumption.
Qed.

Lemma decimal_code n : forallb codechar (decimal n) = true.
Proof.
  apply forallb_forall. intros c I. apply digit_code.
  pose proof (decimal_digits n) as D. rewrite Forall_forall in D. now apply D.
Qed.

Lemma sanitise_code s : forallb codechar (sanitise s) = true.
Proof.
  induction s as [|c r IH]; [reflexivity|]. rewrite sanitise_cons, forallb_app, IH, Bool.andb_true_r.
  unfold enc. destruct (isalnum c || (c =? 95)%N) eqn:E.
  - cbn [forallb]. unfold codechar, idchar. rewrite E. reflexivity.
  - rewrite !forallb_app. cbn [forallb]. unfold decimal_signed.
    destruct (as_char c <? 0)%Z; cbn [forallb]; rewrite decimal_code; reflexivity.
Qed.

Lemma full_code n k : forallb codechar (full [] n k) = true.
Proof.
  unfold full, suffix. cbn [app]. rewrite forallb_app, sanitise_code.
  destruct (k =? 0)%N; [reflexivity|]. cbn [forallb]. now rewrite decimal_code.
Qed.

Lemma idchars_same s : forallb idchar s = true -> sanitise s = s.
Proof.
  induction s as [|c r IH]; intros H; [reflexivity|]. cbn [forallb] in H.
  apply andb_prop in H. destruct H as [A B]. rewrite sanitise_cons. unfold enc.
  unfold idchar in A. rewrite A, (IH B). reflexivity.
Qed.

Definition classify (s : str) : entry := if forallb idchar s then Made s 0 else Other s.

Lemma classify_shown s : shown [] (classify s) = s.
Proof.
  unfold classify. destruct (forallb idchar s) eqn:E; [|reflexivity].
  cbn [shown]. unfold full, suffix. cbn [N.eqb app]. now rewrite app_nil_r, idchars_same.
Qed.

Lemma numbers_classify name l : NoDup l ->
  exists m, numbers name (map classify l) = from 0 m /\ (~ In name l -> m = 0).
Proof.
  induction 1 as [|s l NI ND [m [IH0 IH]]]; cbn [map numbers]; [exists 0; auto|].
  unfold classify at 1. destruct (forallb idchar s); cbn [same_name].
  - destruct (str_eqb s name) eqn:Q.
    + apply str_eqb_true in Q. subst s. exists 1. rewrite IH0, (IH NI). split; [reflexivity|].
      intros X. exfalso. apply X. now left.
    + exists m. split; [exact IH0|]. intros X. apply IH. intros I. apply X. now right.
  - exists m. split; [exact IH0|]. intros X. apply IH. intros I. apply X. now right.
Qed.

Lemma scope_run_ok : forall names es children,
  (forall n, In n names -> n <> [] /\ bytes n) ->
  orderly es -> foreign [] es -> NoDup (map (shown []) es) ->
  scope_run (map (shown []) es) (map Create names) = Ok children ->
  NoDup children /\ length children = length es + length names.
Proof.
  induction names as [|n rest IH]; intros es children HN O F ND E; cbn [map scope_run] in E.
  - injection E as <-. split; [exact ND|]. rewrite map_length. cbn. lia.
  - destruct (HN n (or_introl eq_refl)) as [NE B]. unfold scope_step in E.
    destruct n as [|c n]; [contradiction|]. set (name := c :: n) in *. cbn [bind] in E.
    destruct (add_one [] es name B O F ND) as [D [O' [F' ND']]]. cbn [app] in D.
    set (k := N.of_nat (length (numbers name es))) in *. rewrite D in E.
    replace (map (shown []) es ++ [full [] name k]) with (map (shown []) (es ++ [Made name k])) in E
      by (rewrite map_app; reflexivity).
    destruct (IH (es ++ [Made name k]) children) as [A1 A2]; auto.
    { intros m I. apply HN. now right. }
    split; [exact A1|]. rewrite A2, app_length. cbn [length]. lia.
Qed.

Lemma start_ok l : NoDup l -> (forall s, In s l -> bytes s) ->
  (forall s, In s l -> forallb idchar s = true \/ forallb codechar s = false) ->
  orderly (map classify l) /\ foreign [] (map classify l) /\
  map (shown []) (map classify l) = l.
Proof.
  intros ND HB HC. split; [split|split].
  - intros n j I. apply in_map_iff in I. destruct I as [s [E I]]. unfold classify in E.
    destruct (forallb idchar s); [|discriminate]. injection E as <- _. now apply HB.
  - intros name. destruct (numbers_classify name l ND) as [m [X _]]. eauto.
  - intros s n k I B E. apply in_map_iff in I. destruct I as [s' [C I]]. unfold classify in C.
    destruct (forallb idchar s') eqn:Q; [discriminate|]. injection C as ->.
    destruct (HC s I) as [X|X]; [congruence|].
    subst s. rewrite full_code in X. discriminate.
  - rewrite map_map. erewrite map_ext; [apply map_id|]. apply classify_shown.
Qed.
