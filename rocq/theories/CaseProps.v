(* C73-C75: case statements. *)

From Coq Require Import ZArith List Bool Lia.
From Verif Require Import Base CaseModel CaseSpec CaseProofs CaseArrayProofs.
Import ListNotations.
Local Open Scope Z_scope.

(* ---- C73: the check of a case statement on a scalar ---- *)

Lemma covered_choice s v : (exists i c, choice_at s i c /\ stands_for c v) <-> incov (map ends (concat s)) v.
Proof.
  rewrite incov_map. unfold choice_at. split.
  - intros (i & c & I & S). exists c. split; auto. now apply nth_error_In in I.
  - intros (c & I & S). apply In_nth_error in I as (i & I). eauto.
Qed.

Lemma in_type tlow thigh l : Forall not_null l ->
  (forall c v, In c l -> stands_for c v -> tlow <= v <= thigh) -> Forall (fun c => inb tlow thigh (ends c)) l.
Proof.
  intros N V. rewrite Forall_forall in *. intros c C. pose proof (not_null_ends c (N c C)) as E.
  assert (A : stands_for c (fst (ends c))) by (apply stands_ends; unfold inside; lia).
  assert (B : stands_for c (snd (ends c))) by (apply stands_ends; unfold inside; lia).
  apply (V c _ C) in A. apply (V c _ C) in B. unfold inb. lia.
Qed.

(* When no value stands twice and there is no `others`, the statement is accepted
   exactly when every value of the type has a choice; otherwise the only report lists
   exactly the values without a choice. *)
Theorem C73_missing tlow thigh s :
  type_fits tlow thigh -> no_others s -> concat s <> [] -> Forall not_null (concat s) ->
  values_of_type tlow thigh s -> no_value_twice s ->
  exists r, check_scalar_case tlow thigh s = Ok r /\
    (r = [] /\ every_value tlow thigh s \/
     exists gaps, r = [Missing gaps] /\ (exists v, tlow <= v <= thigh /\ ~ exists i c, choice_at s i c /\ stands_for c v) /\
       forall v, (exists p, In p gaps /\ fst p <= v <= snd p) <->
                 tlow <= v <= thigh /\ ~ exists i c, choice_at s i c /\ stands_for c v).
Proof.
  intros (T1 & T2 & T3 & T4) N Ne Nn V D.
  assert (F : Forall (fun c => inb tlow thigh (ends c)) (concat s)).
  { apply in_type; auto. intros c v C S. apply In_nth_error in C as (i & C). exact (V i c v C S). }
  assert (Dj : disjoint (map ends (concat s))) by (apply disjoint_pos; exact D).
  destruct (cover_all_disjoint tlow thigh (map ends (concat s)) []) as (cov & E & Fc & Sc & Q & Nc); auto.
  { rewrite Forall_map. exact F. } { exact I. } { intros v _ (p & [] & _). }
  unfold check_scalar_case. rewrite check_choices_cover by auto. rewrite E. cbn [bind].
  assert (Nc' : cov <> []). { apply Nc. intros X. apply map_eq_nil in X. auto. }
  destruct (missing_choices tlow thigh cov) as [e|] eqn:M.
  - cbn [bind app]. exists e. split; auto.
    assert (Cov : forall v, incov cov v <-> exists i c, choice_at s i c /\ stands_for c v).
    { intros v. rewrite covered_choice, Q. split; auto. intros [(p & [] & _)|X]; auto. }
    destruct (missing_exact tlow thigh cov e) as [(-> & A)|(gaps & -> & A & w & W)]; auto.
    + left. split; auto. intros v X. apply Cov. auto.
    + right. exists gaps. split; auto. split.
      * exists w. apply A in W. rewrite Cov in W. exact W.
      * intros v. rewrite <- Cov. exact (A v).
  - exfalso. unfold missing_choices in M.
    destruct (walk_ok tlow thigh cov tlow 0 T1 T2 T4 Fc) as (w & m & g & k & Ew & W & Mb & _); [lia|lia|].
    rewrite Ew in M. cbn [bind] in M. rewrite int64_ok in M by lia. cbn [bind] in M.
    destruct (w =? thigh + 1); cbn [bind] in M; [destruct (m =? 0); discriminate|].
    rewrite int64_ok in M by lia. cbn [bind] in M. rewrite int64_ok in M by lia. cbn [bind] in M.
    destruct (_ =? 0) in M; discriminate.
Qed.
Print Assumptions C73_missing.

Definition choice_dec (a b : choice) : {a = b} + {a <> b}.
Proof. decide equality; auto using Z.eq_dec, bool_dec. Defined.

Lemma others_split s : others_last s ->
  exists l, ~ In Others l /\ (concat s = l \/ concat s = l ++ [Others]).
Proof.
  intros O. destruct (in_dec choice_dec Others (concat s)) as [I|I].
  - apply in_split in I as (l & r & E). pose proof (O l r E) as R. subst r. exists l. split; auto.
    intros X. apply in_split in X as (a & b & ->). specialize (O a (b ++ [Others])). rewrite E, <- app_assoc in O.
    specialize (O eq_refl). destruct b; discriminate.
  - exists (concat s). auto.
Qed.

Lemma check_others tlow thigh l : forall ho cov ho' cov' e,
  check_choices tlow thigh (l ++ [Others]) ho cov = Ok (ho', cov', e) ->
  exists h, check_choices tlow thigh l ho cov = Ok (h, cov', e).
Proof.
  induction l as [|c l IH]; intros ho cov ho' cov' e E.
  - cbn in E. injection E as <- <- <-. exists ho. reflexivity.
  - cbn [app check_choices] in *. destruct (check_choice tlow thigh c ho cov) as [[[h1 c1] e1]|]; cbn [bind] in *; [|discriminate].
    destruct (check_choices tlow thigh (l ++ [Others]) h1 c1) as [[[h2 c2] e2]|] eqn:Q; cbn [bind] in *; [|discriminate].
    injection E as -> -> <-. apply IH in Q as (h & ->). cbn [bind]. exists h. reflexivity.
Qed.

(* "range .. is already covered" is only said of values that stand for two choices. *)
Theorem C73_genuine tlow thigh s r a b :
  type_fits tlow thigh -> Forall (fun c => c = Others \/ not_null c) (concat s) ->
  check_scalar_case tlow thigh s = Ok r -> In (Covered a b) r ->
  a <= b /\ forall v, a <= v <= b ->
    exists i j c d, (i < j)%nat /\ choice_at s i c /\ choice_at s j d /\ stands_for c v /\ stands_for d v.
Proof.
  intros (T1 & T2 & T3 & T4) N E I. unfold check_scalar_case in E.
  destruct (check_choices tlow thigh (concat s) false []) as [[[ho cov] e]|] eqn:C; cbn [bind] in E; [|discriminate].
  assert (X : In (Covered a b) e).
  { destruct ho; [injection E as <-; auto|]. destruct (missing_choices tlow thigh cov) as [e2|] eqn:M; cbn [bind] in E; [|discriminate].
    injection E as <-. apply in_app_or in I as [I|I]; auto. unfold missing_choices in M.
    destruct (walk_covered cov tlow 0) as [[[w m] g]|]; cbn [bind] in M; [|discriminate].
    destruct (int64 (thigh + 1)) as [q|]; cbn [bind] in M; [|discriminate].
    destruct (if w =? q then _ else _) as [[m2 g2]|]; cbn [bind] in M; [|discriminate].
    destruct (m2 =? 0); injection M as <-; [destruct I|destruct I as [I|[]]; discriminate]. }
  destruct (check_genuine tlow thigh (concat s) T1 T2 T3 [] false [] ho cov e N (Forall_nil _)) with (a := a) (b := b) as (L & Q); auto.
  intros v (p & [] & _).
Qed.
Print Assumptions C73_genuine.

(* Choices that are written in order: an accepted statement represents no value twice,
   only values of the type, and without `others` every value. *)
Theorem C73_ordered_partial tlow thigh s :
  type_fits tlow thigh -> concat s <> [] -> others_last s -> Forall (fun c => c = Others \/ not_null c) (concat s) ->
  ascending s \/ descending s ->
  check_scalar_case tlow thigh s = Ok [] ->
  values_of_type tlow thigh s /\ no_value_twice s /\ (no_others s -> every_value tlow thigh s).
Proof.
  intros T Ne O Nn Od E. pose proof T as (T1 & T2 & T3 & T4).
  destruct (others_split s O) as (l & Nl & Cs).
  assert (Q : exists ho cov, check_choices tlow thigh l false [] = Ok (ho, cov, [])).
  { unfold check_scalar_case in E.
    destruct (check_choices tlow thigh (concat s) false []) as [[[ho cov] e]|] eqn:C; cbn [bind] in E; [|discriminate].
    assert (e = []).
    { destruct ho; [congruence|]. destruct (missing_choices tlow thigh cov); cbn [bind] in E; [|discriminate].
      injection E as E. now apply app_eq_nil in E. }
    subst e. destruct Cs as [Cs|Cs]; rewrite Cs in C; [eauto|]. apply check_others in C as (h & C). eauto. }
  destruct Q as (ho & cov & Q).
  assert (Nnl : Forall not_null l).
  { rewrite Forall_forall in *. intros c C. assert (I : In c (concat s)) by (destruct Cs as [-> | ->]; [|apply in_or_app]; auto).
    destruct (Nn c I) as [->|X]; auto. contradiction. }
  destruct (check_choices_accepted tlow thigh l T3 [] ho cov Nl Nnl Q) as (-> & F & Ca).
  assert (At : forall i c, nth_error l i = Some c -> choice_at s i c).
  { intros i c I. unfold choice_at. destruct Cs as [-> | ->]; auto. rewrite nth_error_app1; auto. apply nth_error_Some. congruence. }
  assert (At' : forall i c v, choice_at s i c -> stands_for c v -> nth_error l i = Some c).
  { intros i c v I S. unfold choice_at in I. destruct Cs as [Cs|Cs]; rewrite Cs in I; auto.
    destruct (Nat.lt_ge_cases i (length l)) as [L|L]; [now rewrite nth_error_app1 in I|].
    rewrite nth_error_app2 in I by auto. destruct (i - length l)%nat as [|[|]]; [|discriminate|discriminate]. injection I as <-. destruct S. }
  assert (Fm : Forall (inb tlow thigh) (map ends l)) by (rewrite Forall_map; exact F).
  assert (Nt : forall i j c d, (i < j)%nat -> nth_error l i = Some c -> nth_error l j = Some d -> d <> Others).
  { intros i j c d _ _ J ->. apply nth_error_In in J. contradiction. }
  assert (D : disjoint (map ends l)).
  { destruct Od as [Od|Od].
    - refine (proj1 (cover_all_up tlow thigh (map ends l) [] cov T1 T2 Fm (Forall_nil _) I _ _ Ca)); [|intros p q []].
      intros i j p q L Hi Hj. rewrite nth_error_map in Hi, Hj.
      destruct (nth_error l i) as [c|] eqn:Ci; [|discriminate]. destruct (nth_error l j) as [d|] eqn:Dj; [|discriminate].
      injection Hi as <-. injection Hj as <-.
      destruct (Od i j c d L (At _ _ Ci) (At _ _ Dj) (Nt i j c d L Ci Dj)) as (v & V & W).
      assert (Ed : stands_for d (fst (ends d))).
      { apply stands_ends. rewrite Forall_forall in F. specialize (F d (nth_error_In _ _ Dj)). unfold inb in F. unfold inside. lia. }
      apply W in Ed. apply stands_ends in V. unfold inside in V. lia.
    - refine (proj1 (cover_all_down tlow thigh (map ends l) [] cov T1 T2 Fm (Forall_nil _) I _ _ Ca)); [|intros p q []].
      intros i j p q L Hi Hj. rewrite nth_error_map in Hi, Hj.
      destruct (nth_error l i) as [c|] eqn:Ci; [|discriminate]. destruct (nth_error l j) as [d|] eqn:Dj; [|discriminate].
      injection Hi as <-. injection Hj as <-.
      destruct (Od i j c d L (At _ _ Ci) (At _ _ Dj) (Nt i j c d L Ci Dj)) as (v & V & W).
      assert (Ed : stands_for c (fst (ends c))).
      { apply stands_ends. rewrite Forall_forall in F. specialize (F c (nth_error_In _ _ Ci)). unfold inb in F. unfold inside. lia. }
      apply W in Ed. apply stands_ends in V. unfold inside in V. lia. }
  assert (V : values_of_type tlow thigh s).
  { intros i c v I S. pose proof (At' i c v I S) as J. apply nth_error_In in J. rewrite Forall_forall in F. specialize (F c J).
    apply stands_ends in S. unfold inb, inside in *. lia. }
  assert (D' : no_value_twice s).
  { intros i j c d v I J S S'. rewrite disjoint_pos in D. exact (D i j c d v (At' _ _ _ I S) (At' _ _ _ J S') S S'). }
  split; auto. split; auto. intros No.
  assert (Nn' : Forall not_null (concat s)).
  { rewrite Forall_forall in *. intros c C. destruct (Nn c C) as [->|X]; [exfalso; exact (No C)|exact X]. }
  destruct (C73_missing tlow thigh s T No Ne Nn' V D') as (r & R & [(_ & A)|(g & -> & _)]); auto. congruence.
Qed.
Print Assumptions C73_ordered_partial.

(* A statement with the choices of its type, each once, is never refused. *)
Theorem C73_good_accepted tlow thigh s :
  type_fits tlow thigh -> concat s <> [] -> others_last s -> Forall (fun c => c = Others \/ not_null c) (concat s) ->
  values_of_type tlow thigh s -> no_value_twice s -> (no_others s -> every_value tlow thigh s) ->
  check_scalar_case tlow thigh s = Ok [].
Proof.
  intros T Ne O Nn V D A. pose proof T as (T1 & T2 & T3 & T4).
  destruct (others_split s O) as (l & Nl & [Cs|Cs]).
  - assert (No : no_others s) by (unfold no_others; congruence).
    assert (Nn' : Forall not_null (concat s)).
    { rewrite Forall_forall in *. intros c C. destruct (Nn c C) as [->|X]; [exfalso; exact (No C)|exact X]. }
    destruct (C73_missing tlow thigh s T No Ne Nn' V D) as (r & R & [(-> & _)|(g & -> & (v & Hv & N) & _)]); auto.
    exfalso. apply N. exact (A No v Hv).
  - unfold check_scalar_case. rewrite Cs.
    assert (At : forall i c, nth_error l i = Some c -> choice_at s i c).
    { intros i c I. unfold choice_at. rewrite Cs, nth_error_app1; auto. apply nth_error_Some. congruence. }
    assert (Nnl : Forall not_null l).
    { rewrite Forall_forall in *. intros c C. assert (I : In c (concat s)) by (rewrite Cs; apply in_or_app; auto).
      destruct (Nn c I) as [->|X]; auto. contradiction. }
    assert (F : Forall (fun c => inb tlow thigh (ends c)) l).
    { apply in_type; auto. intros c v C S. apply In_nth_error in C as (i & C). exact (V i c v (At i c C) S). }
    assert (Dj : disjoint (map ends l)).
    { apply disjoint_pos. intros i j c d v I J S S'. exact (D i j c d v (At _ _ I) (At _ _ J) S S'). }
    destruct (cover_all_disjoint tlow thigh (map ends l) []) as (cov & E & _); auto.
    { rewrite Forall_map. exact F. } { exact I. } { intros v _ (p & [] & _). }
    pose proof (check_choices_cover tlow thigh l [] Nl F) as C. rewrite E in C. cbn [bind] in C.
    assert (G : forall l ho cov ho' cov', check_choices tlow thigh l ho cov = Ok (ho', cov', []) ->
       check_choices tlow thigh (l ++ [Others]) ho cov = Ok (true, cov', [])).
    { clear. induction l as [|c l IH]; intros ho cov ho' cov' E.
      - cbn in *. injection E as <- <-. reflexivity.
      - cbn [app check_choices] in *. destruct (check_choice tlow thigh c ho cov) as [[[h1 c1] e1]|]; cbn [bind] in *; [|discriminate].
        destruct (check_choices tlow thigh l h1 c1) as [[[h2 c2] e2]|] eqn:Q; cbn [bind] in *; [|discriminate].
        injection E as -> -> X. apply app_eq_nil in X as (-> & ->). apply IH in Q. rewrite Q. reflexivity. }
    rewrite (G _ _ _ _ _ C). reflexivity.
Qed.
Print Assumptions C73_good_accepted.

(* 0, 2, 1, 2 for a type with the values 0 to 3: 2 stands twice, 3 has no choice. *)
Theorem C73_refuted : exists s, let t := (0, 3) in
  type_fits (fst t) (snd t) /\ no_others s /\ Forall not_null (concat s) /\
  check_scalar_case (fst t) (snd t) s = Ok [] /\ ~ no_value_twice s /\ ~ every_value (fst t) (snd t) s.
Proof.
  exists [[Named 0]; [Named 2]; [Named 1]; [Named 2]]. cbn zeta. cbn [fst snd].
  split; [unfold type_fits; lia|]. split; [intros X; cbn in X; intuition discriminate|].
  split; [repeat constructor; eexists; cbn; reflexivity|]. split; [vm_compute; reflexivity|]. split.
  - intros H. specialize (H 1%nat 3%nat (Named 2) (Named 2) 2 eq_refl eq_refl eq_refl eq_refl). discriminate.
  - intros H. destruct (H 3) as (i & c & I & S); [lia|]. unfold choice_at in I. apply nth_error_In in I. cbn in I.
    repeat (destruct I as [<-|I]; [cbn in S; lia|]). destruct I.
Qed.
Print Assumptions C73_refuted.

(* The same with a range: 1, 3, 2 to 3 for the values 1 to 4. *)
Example C73_refuted_range :
  check_scalar_case 1 4 [[Named 1]; [Named 3]; [Range true 2 3]] = Ok [].
Proof. vm_compute. reflexivity. Qed.

(* The count of missing values is an int: 2 ** 32 of them are none. *)
Theorem C73_wide_refuted : exists tlow thigh s, no_others s /\ concat s <> [] /\ tlow <= thigh /\
  Forall not_null (concat s) /\ check_scalar_case tlow thigh s = Ok [] /\ ~ every_value tlow thigh s.
Proof.
  exists 0, (2 ^ 32), [[Named 0]]. split; [intros [X|[]]; discriminate|]. split; [discriminate|]. split; [lia|].
  split; [repeat constructor; eexists; cbn; reflexivity|]. split; [vm_compute; reflexivity|].
  intros H. destruct (H 1) as (i & c & I & S); [lia|]. unfold choice_at in I. apply nth_error_In in I. cbn in I.
  destruct I as [<-|[]]. cbn in S. lia.
Qed.
Print Assumptions C73_wide_refuted.

(* Null ranges: INTEGER with nothing but one is accepted, and a correct statement is
   refused because of one. *)
Example C73_null_ranges :
  check_scalar_case (- 2 ^ 31) (2 ^ 31 - 1) [[Range true 1 0]] = Ok [] /\
  (exists r, check_scalar_case 0 3 [[Range true 0 3]; [Range true 2 1]] = Ok r /\ r <> []).
Proof.
  split; [vm_compute; reflexivity|].
  eexists. split; [vm_compute; reflexivity|]. discriminate.
Qed.

Definition demo_case : stmt := [[Named 5; Range true 0 2]; [Range false 4 3]; [Named 6]].

Example demo_case_meets :
  type_fits 0 7 /\ no_others demo_case /\ concat demo_case <> [] /\ Forall not_null (concat demo_case) /\
  values_of_type 0 7 demo_case /\ no_value_twice demo_case /\
  check_scalar_case 0 7 demo_case = Ok [Missing [(7, 7)]] /\ check_scalar_case 0 6 demo_case = Ok [].
Proof.
  assert (P : forall i c, choice_at demo_case i c ->
     i = 0%nat /\ c = Named 5 \/ i = 1%nat /\ c = Range true 0 2 \/ i = 2%nat /\ c = Range false 4 3 \/ i = 3%nat /\ c = Named 6).
  { intros [|[|[|[|[|i]]]]] c H; cbn in H; try discriminate; injection H as <-; auto. }
  split; [unfold type_fits; lia|]. split; [intros X; cbn in X; intuition discriminate|]. split; [discriminate|].
  split. { repeat constructor; [exists 5|exists 0|exists 3|exists 6]; cbn; lia. }
  split. { intros i c v I S. apply P in I. repeat (destruct I as [(_ & ->)|I]; [cbn in S; lia|]). destruct I as (_ & ->). cbn in S; lia. }
  split. { intros i j c d v I J S S'. apply P in I. apply P in J.
    destruct I as [(-> & ->)|[(-> & ->)|[(-> & ->)|(-> & ->)]]]; cbn in S;
    destruct J as [(-> & ->)|[(-> & ->)|[(-> & ->)|(-> & ->)]]]; cbn in S'; lia. }
  split; vm_compute; reflexivity.
Qed.

(* In ascending order with a duplicate: reported. *)
Example demo_dup : check_scalar_case 0 7 [[Named 1; Named 2]; [Range true 2 4]; [Others]] = Ok [Covered 2 2].
Proof. vm_compute. reflexivity. Qed.

(* ---- C74: the check of a case statement on an array of characters ---- *)

(* Known length of the expression.  The choices contain only characters of the subtype
   of the elements; the last two conditions are limits of the program. *)
Theorem C74_accepted elow ehigh n s :
  elow <= ehigh < elow + 2 ^ 31 -> Z.of_nat n < 2 ^ 62 ->
  (forall w c, In (AName w) (concat s) -> In c w -> elow <= c <= ehigh) ->
  (forall w, In (AName w) (concat s) -> encode_choice 0 w <> INT64_MAX) ->
  Z.of_nat (length (concat s)) < 2 ^ 31 ->
  check_array_case (ehigh - elow + 1) (Some (Z.of_nat n)) s = [] <->
    (forall w, In (AName w) (concat s) -> length w = n) /\ NoDup (words (concat s)) /\
    (In AOthers (concat s) \/ forall w, word_of elow ehigh n w -> In (AName w) (concat s)).
Proof.
  intros H N C G L. rewrite (array_known elow ehigh n s); auto.
  - split; intros (F & D & E); (split; [|split; [exact D|]]).
    + intros w W. rewrite Forall_forall in F. apply F. now apply words_in.
    + destruct E as [E|E]; auto. right. intros w W. apply words_in. auto.
    + rewrite Forall_forall. intros w W. apply F. now apply words_in.
    + destruct E as [E|E]; auto. right. intros w W. apply words_in. auto.
  - rewrite Forall_forall. intros w W. apply words_in in W. rewrite Forall_forall. eauto.
  - rewrite Forall_forall. intros w W. apply words_in in W. exact (G w W).
  - assert (X : (length (words (concat s)) <= length (concat s))%nat); [|lia].
    generalize (concat s). induction l as [|[|w] l IH]; cbn; lia.
Qed.
Print Assumptions C74_accepted.

(* Length taken from the first choice. *)
Theorem C74_unknown_length elow ehigh s w0 rest :
  elow <= ehigh < elow + 2 ^ 31 -> concat s = AName w0 :: rest -> Z.of_nat (length w0) < 2 ^ 62 -> aothers_last s ->
  (forall w c, In (AName w) (concat s) -> In c w -> elow <= c <= ehigh) ->
  (forall w, In (AName w) (concat s) -> encode_choice 0 w <> INT64_MAX) ->
  Z.of_nat (length (concat s)) < 2 ^ 31 ->
  check_array_case (ehigh - elow + 1) None s = [] <->
    (forall w, In (AName w) (concat s) -> length w = length w0) /\ NoDup (words (concat s)) /\
    (In AOthers (concat s) \/ forall w, word_of elow ehigh (length w0) w -> In (AName w) (concat s)).
Proof.
  intros H E N O C G L. rewrite <- (C74_accepted elow ehigh (length w0) s); auto.
  unfold check_array_case. rewrite (acheck_first _ (concat s) O). rewrite E. cbn [words]. reflexivity.
Qed.
Print Assumptions C74_unknown_length.

(* Elements of the subtype '0' to '1' of a type with the three values '0', '1', 'X':
   the choices "0" and "X" are two of two. *)
Theorem C74_subtype_refuted : exists elow ehigh s, elow <= ehigh /\
  check_array_case (ehigh - elow + 1) (Some 1) s = [] /\ ~ In AOthers (concat s) /\
  exists w, word_of elow ehigh 1 w /\ ~ In (AName w) (concat s).
Proof.
  exists 0, 1, [[AName [0]]; [AName [2]]]. split; [lia|]. split; [vm_compute; reflexivity|].
  split; [intros X; cbn in X; intuition discriminate|].
  exists [1]. split; [split; [reflexivity|repeat constructor; lia]|]. intros X; cbn in X. intuition discriminate.
Qed.
Print Assumptions C74_subtype_refuted.

Definition demo_array : astmt := [[AName [0; 0]; AName [1; 1]]; [AName [0; 1]]; [AName [1; 0]]].

Example demo_array_meets :
  (forall w c, In (AName w) (concat demo_array) -> In c w -> 0 <= c <= 1) /\
  (forall w, In (AName w) (concat demo_array) -> encode_choice 0 w <> INT64_MAX) /\
  check_array_case 2 (Some 2) demo_array = [] /\ check_array_case 2 None demo_array = [] /\
  check_array_case 2 (Some 2) (tl demo_array) = [CoverOnly 2 4] /\
  check_array_case 2 (Some 2) (demo_array ++ [[AName [1; 1]]; [AOthers]]) = [Duplicate [1; 1]] /\
  check_array_case 2 (Some 3) demo_array = [WrongLength 3 2].
Proof.
  split. { intros w c W C. cbn in W. repeat (destruct W as [W|W]; [injection W as <-; cbn in C; intuition lia|]). destruct W. }
  split. { intros w W. cbn in W. repeat (destruct W as [W|W]; [injection W as <-; vm_compute; discriminate|]). destruct W. }
  repeat split; vm_compute; reflexivity.
Qed.

(* ---- C75: the alternative that runs ---- *)

(* The generated code runs the alternative with a choice for the value, or the one
   with `others`, or none. *)
Theorem C75_scalar s : others_last s ->
  exists code, lower_case_scalar s = Ok code /\ forall v, selects s v (run_scalar code v).
Proof. exact (lower_scalar_selects s). Qed.
Print Assumptions C75_scalar.

(* When no value stands twice there is only one such alternative. *)
Theorem C75_one s v a b : no_value_twice s -> others_last s -> selects s v a -> selects s v b -> a = b.
Proof.
  intros D O.
  assert (Pos : forall (A : Type) (s : list (list A)) k l (c : A), nth_error s k = Some l -> In c l ->
     exists i, nth_error (concat s) i = Some c /\ (length (concat (firstn k s)) <= i < length (concat (firstn (S k) s)))%nat).
  { clear. intros A s. induction s as [|x s IH]; intros [|k] l c K I; try discriminate.
    - injection K as ->. apply In_nth_error in I as (i & I). exists i. cbn [concat firstn].
      assert (i < length l)%nat by (apply nth_error_Some; congruence).
      rewrite nth_error_app1 by auto. split; auto. cbn. rewrite app_nil_r. lia.
    - cbn in K. destruct (IH k l c K I) as (i & J & B). exists (length x + i)%nat. cbn [concat firstn].
      rewrite nth_error_app2 by lia. replace (length x + i - length x)%nat with i by lia. split; auto.
      cbn [concat firstn] in *. rewrite !app_length. lia. }
  assert (Mono : forall (A : Type) (s : list (list A)) j k, (j <= k)%nat -> (length (concat (firstn j s)) <= length (concat (firstn k s)))%nat).
  { clear. intros A s. induction s as [|x s IH]; intros [|j] [|k] L; cbn; try lia. rewrite !app_length. specialize (IH j k). lia. }
  assert (Same : forall (A : Type) (s : list (list A)) i j k,
     (length (concat (firstn j s)) <= i < length (concat (firstn (S j) s)))%nat ->
     (length (concat (firstn k s)) <= i < length (concat (firstn (S k) s)))%nat -> j = k).
  { intros A s0 i j k Hj Hk. destruct (Nat.lt_trichotomy j k) as [L|[L|L]]; auto.
    - pose proof (Mono A s0 (S j) k L). lia.
    - pose proof (Mono A s0 (S k) j L). lia. }
  assert (Oth : forall i, choice_at s i Others -> S i = length (concat s)).
  { intros i I. apply nth_error_split in I as (l & r & E & <-). pose proof (O l r E) as ->. rewrite E, app_length. cbn. lia. }
  intros A B. inversion A as [k l c K I S|k l K I N|N N']; subst; inversion B as [k' l' c' K' I' S'|k' l' K' I' M|M M']; subst; auto.
  - f_equal. destruct (Pos _ s k l c K I) as (i & P & Q). destruct (Pos _ s k' l' c' K' I') as (j & P' & Q').
    pose proof (D i j c c' v P P' S S') as ->. eapply Same; eauto.
  - exfalso. apply (M c); auto. apply in_concat. exists l. split; auto. now apply nth_error_In in K.
  - exfalso. apply (M c); auto. apply in_concat. exists l. split; auto. now apply nth_error_In in K.
  - exfalso. apply (N c'); auto. apply in_concat. exists l'. split; auto. now apply nth_error_In in K'.
  - f_equal. destruct (Pos _ s k l _ K I) as (i & P & Q). destruct (Pos _ s k' l' _ K' I') as (j & P' & Q').
    apply Oth in P as Pi. apply Oth in P' as Pj. assert (i = j) by lia. subst j. eapply Same; eauto.
  - exfalso. apply M'. apply in_concat. exists l. split; auto. now apply nth_error_In in K.
  - exfalso. apply (N c'); auto. apply in_concat. exists l'. split; auto. now apply nth_error_In in K'.
  - exfalso. apply N'. apply in_concat. exists l'. split; auto. now apply nth_error_In in K'.
Qed.
Print Assumptions C75_one.

(* Arrays: whether the encodings are exact or only hashes. *)
Theorem C75_array literals n s :
  1 <= literals <= 2 ^ 30 -> aothers_last s ->
  (forall w, In (AName w) (concat s) -> word_of 0 (literals - 1) n w) ->
  exists code, lower_case_array literals (Z.of_nat n) s = Ok code /\
    forall v, word_of 0 (literals - 1) n v -> exists r, run_array code v = Ok r /\ aselects s v r.
Proof.
  intros L O W. apply lower_array_selects; auto. rewrite Forall_forall. intros w X. apply W. now apply words_in.
Qed.
Print Assumptions C75_array.

(* When the expression is constant the statement is replaced by an alternative: the
   right one if every range choice contains the value. *)
Theorem C75_constant_partial s v : others_last s ->
  (forall up lf rt, In (Range up lf rt) (concat s) -> stands_for (Range up lf rt) v) ->
  selects s v (simp_case s v).
Proof. intros O R. apply simp_selects; auto. intros c I up lf rt ->. auto. Qed.
Print Assumptions C75_constant_partial.

(* when 1 to 3, when others, for 7: the first alternative. *)
Theorem C75_constant_refuted : exists s v k, others_last s /\ no_value_twice s /\
  simp_case s v = Some k /\ ~ selects s v (Some k).
Proof.
  exists [[Range true 1 3]; [Others]], 7, 0%nat. split.
  { intros [|x [|y [|z l]]] r H; cbn in H; try discriminate; injection H; intros; subst; auto; discriminate. }
  split.
  { intros i j c d v I J S S'. unfold choice_at in *. cbn [concat app] in *.
    destruct i as [|[|[|]]], j as [|[|[|]]]; cbn in I, J; try discriminate; auto; injection I as <-; injection J as <-; cbn in S, S'; contradiction. }
  split; [vm_compute; reflexivity|]. intros H. inversion H as [k l c K I S|k l K I N|]; subst; cbn in K; injection K as <-.
  - destruct I as [<-|[]]. cbn in S. lia.
  - destruct I as [I|[]]. discriminate.
Qed.
Print Assumptions C75_constant_refuted.

Example demo_run : exists code, lower_case_scalar (demo_case ++ [[Others]]) = Ok code /\
  map (run_scalar code) [0; 2; 3; 5; 6; 7] = [Some 0; Some 0; Some 1; Some 0; Some 2; Some 3]%nat.
Proof. eexists. split; vm_compute; reflexivity. Qed.

(* Three literals and 40 elements: hashes. *)
Example demo_hash : let w b := repeat 1 39 ++ [b] in
  exists code, lower_case_array 3 40 [[AName (w 0)]; [AName (w 1); AName (repeat 2 40)]; [AOthers]] = Ok code /\
  ac_exact code = false /\
  map (run_array code) [w 0; w 1; w 2; repeat 2 40; repeat 0 40] =
    [Ok (Some 0); Ok (Some 1); Ok (Some 2); Ok (Some 1); Ok (Some 2)]%nat.
Proof. eexists. split; [vm_compute; reflexivity|]. split; vm_compute; reflexivity. Qed.

Example demo_exact : exists code, lower_case_array 9 8 [[AName (repeat 3 8)]; [AName [0;1;2;3;4;5;6;7]]; [AOthers]] = Ok code /\
  ac_exact code = true /\
  map (run_array code) [repeat 3 8; [0;1;2;3;4;5;6;7]; repeat 8 8] = [Ok (Some 0); Ok (Some 1); Ok (Some 2)]%nat.
Proof. eexists. split; [vm_compute; reflexivity|]. split; vm_compute; reflexivity. Qed.
