(* C94: values as text, for generics on the command line and the force command *)
From Coq Require Import List NArith ZArith Bool Lia.
From Verif Require Import Base IdentModel PvalSpec PvalModel PvalProofs.
Import ListNotations.
Local Open Scope N_scope.

(* ---- Integers ---- *)
(* Every numeral whose value fits is read, with or without a sign and with space around it. *)
Theorem C94_integer_partial : forall l (neg : bool) ds r, blank l -> blank r -> numeral ds -> (numeral_value ds 0 < 2 ^ 63)%Z ->
  parse_integer (l ++ (if neg then [45] else []) ++ ds ++ r) =
  Ok (Some (if neg then - numeral_value ds 0 else numeral_value ds 0)%Z).
Proof.
  intros l neg ds r B R [D E] V. change (if neg then [45] else []) with (sign neg). rewrite parse_integer_is; auto using blank_stops.
  - apply Z.ltb_lt in V. rewrite V. apply count_pos in E. destruct (count_digits ds); [congruence|].
    apply only_space_spec in R. rewrite R. reflexivity.
  - intros ->. destruct E as (c & [] & _).
Qed.
(* Nothing else is. *)
Theorem C94_integer_only : forall s v, parse_integer s = Ok (Some v) ->
  exists l (neg : bool) ds r, s = l ++ (if neg then [45] else []) ++ ds ++ r /\ blank l /\ blank r /\ numeral ds /\
    v = (if neg then - numeral_value ds 0 else numeral_value ds 0)%Z /\ (- 2 ^ 63 < v < 2 ^ 63)%Z.
Proof.
  intros s v H. destruct (parse_integer_split s) as (l & neg & ds & r & -> & B & D & S & X).
  rewrite parse_integer_is in H by auto. destruct (Z.ltb_spec (numeral_value ds 0) (2 ^ 63)) as [V|V]; [|discriminate].
  destruct (count_digits ds) eqn:C; [discriminate|]. destruct (only_space r) eqn:R; [|discriminate]. injection H as <-.
  pose proof (numeral_value_mono ds 0 D ltac:(lia)) as M.
  exists l, neg, ds, r. split; [reflexivity|]. split; auto. split; [apply only_space_spec; auto|]. split; [|split].
  - split; auto. apply count_pos. congruence.
  - destruct neg; reflexivity.
  - destruct neg; cbn; lia.
Qed.
(* A numeral with a value from 2^63 overflows, whatever the sign: also the least integer. *)
Theorem C94_integer_overflow : forall l (neg : bool) ds r, blank l -> blank r -> numeral ds -> (2 ^ 63 <= numeral_value ds 0)%Z ->
  parse_integer (l ++ (if neg then [45] else []) ++ ds ++ r) = Fault.
Proof.
  intros l neg ds r B R [D E] V. change (if neg then [45] else []) with (sign neg). rewrite parse_integer_is; auto using blank_stops.
  - destruct (Z.ltb_spec (numeral_value ds 0) (2 ^ 63)); [lia|reflexivity].
  - intros ->. destruct E as (c & [] & _).
Qed.
(* -9223372036854775808 *)
Definition least : text := [57;50;50;51;51;55;50;48;51;54;56;53;52;55;55;53;56;48;56].
Theorem C94_integer_least_refuted : numeral least /\ (- numeral_value least 0 = - 2 ^ 63)%Z /\ parse_integer (45 :: least) = Fault.
Proof.
  split; [|split; [vm_compute; reflexivity|vm_compute; reflexivity]]. split.
  - intros c C. left. unfold least in C. unfold is_digit. cbn in C. intuition lia.
  - exists 57. split; [left; auto|unfold is_digit; lia].
Qed.

(* ---- Enumeration literals ---- *)
Theorem C94_enum_identifier : forall lits i id w l r, NoDup lits -> literal_at lits i id -> basic_identifier id -> spells w id ->
  blank l -> blank r -> parse_enum lits (l ++ w ++ r) = Ok (Some i).
Proof.
  intros lits i id w l r ND LA [NE BI] SP B R. destruct (spells_up w id SP BI) as (U & NS & _).
  unfold parse_enum. rewrite skip_blank by auto.
  assert (X : skip_space (w ++ r) = w ++ r).
  { destruct w as [|c w]; [inversion SP; subst; congruence|]. cbn [app]. apply skip_solid, NS. left; auto. }
  rewrite X, up_word_app by auto using blank_ends. rewrite U. destruct id as [|c id]; [congruence|]. cbn [new_ident bind].
  rewrite (find_lit_at (c :: id) lits 0 i) by auto. apply only_space_spec in R. rewrite R. reflexivity.
Qed.
Theorem C94_enum_char_partial : forall lits i c l r, NoDup lits -> literal_at lits i (quote c) -> ~ blank [c] ->
  blank l -> blank r -> parse_enum lits (l ++ quote c ++ r) = Ok (Some i).
Proof.
  intros lits i c l r ND LA NB B R. unfold parse_enum. rewrite skip_blank by auto.
  assert (SC : isspace c = false).
  { destruct (isspace c) eqn:E; auto. exfalso. apply NB. intros d [<- |[]]. apply isspace_spec. auto. }
  unfold quote at 1. cbn [app]. rewrite skip_solid by reflexivity.
  change (39 :: c :: 39 :: r) with (quote c ++ r). rewrite up_word_app.
  - cbn [quote up_word isspace fst andb negb N.eqb]. replace (isspace 39) with false by reflexivity. rewrite SC. cbn.
    change [39; c; 39] with (quote c). rewrite (find_lit_at (quote c) lits 0 i) by auto. apply only_space_spec in R. rewrite R. reflexivity.
  - intros d [<- |[<- |[<- |[]]]]; auto.
  - apply blank_ends; auto.
Qed.
(* A value that is found is that of a literal with the same letters. *)
Theorem C94_enum_only : forall lits s i, parse_enum lits s = Ok (Some i) ->
  exists l w r id, s = l ++ w ++ r /\ blank l /\ blank r /\ literal_at lits i id /\ Forall2 case_of w id.
Proof.
  intros lits s i H. destruct (skip_split s) as (l & B & E). unfold parse_enum in H.
  destruct (up_word_split (skip_space s) true) as (w & r & E2 & NS & EN & U). rewrite U in H.
  destruct (new_ident (fst (up_word w true))) as [id|] eqn:NI; [|discriminate]. cbn [bind] in H.
  assert (id = fst (up_word w true)) by (unfold new_ident in NI; destruct (fst (up_word w true)); congruence). subst id.
  destruct (find_lit _ lits 0) as [j|] eqn:F; [|discriminate]. destruct (only_space r) eqn:R; [|discriminate]. injection H as <-.
  apply find_lit_some in F. destruct F as (k & -> & N).
  exists l, w, r, (fst (up_word w true)). split; [rewrite <- E2; auto|]. split; auto. split; [apply only_space_spec; auto|].
  split; [exact N|]. apply up_word_case; auto.
Qed.
(* The character literal ' ' is not read. *)
Theorem C94_enum_space_refuted : exists lits i, proper lits /\ literal_at lits i (quote 32) /\ parse_enum lits (quote 32) = Ok None.
Proof.
  exists [quote 32], O. split; [|split; reflexivity]. split; [repeat constructor; intros []|]. intros l [<- |[]]. left. exists 32. reflexivity.
Qed.
(* An extended identifier is taken for another one: \a\ for \A\. *)
Theorem C94_enum_extended_refuted : exists lits, proper lits /\ literal_at lits 0 [92; 97; 92] /\
  parse_enum lits [92; 97; 92] = Ok (Some 1%nat).
Proof.
  exists [[92; 97; 92]; [92; 65; 92]]. split; [|split; reflexivity]. split.
  - constructor; [intros [X|[]]; discriminate|repeat constructor; intros []].
  - intros l [<- |[<- |[]]]; right; cbn; discriminate.
Qed.
(* An empty value ends in a failed assertion. *)
Theorem C94_enum_empty_refuted : forall lits l, blank l -> parse_enum lits l = Fault.
Proof.
  intros lits l B. unfold parse_enum. rewrite <- (app_nil_r l), skip_blank by auto. reflexivity.
Qed.

(* ---- Arrays of characters ---- *)
(* Without quotes every text that spells an array is read as that array. *)
Theorem C94_chars_partial : forall lits vs t, proper lits -> (length lits <= 256)%nat -> spelled_by lits vs t ->
  parse_chars false lits t = Ok (Some vs).
Proof.
  intros lits vs t P L S. unfold parse_chars.
  assert (X : skip_unmapped (char_map lits 0) t = t /\ match char_map lits 0 34, t with None, c :: _ => c =? 34 | _, _ => false end = false).
  { destruct S as [|i is c s I S]; [split; auto; destruct (char_map lits 0 34); auto|].
    assert (M : char_map lits 0 c = Some i) by (apply (char_map_at lits 0 c i); auto). cbn [skip_unmapped]. rewrite M. split; auto.
    destruct (char_map lits 0 34) eqn:Q; auto. apply N.eqb_neq. intros ->. congruence. }
  destruct X as [X1 X2]. cbv zeta. rewrite X1, X2. rewrite <- (app_nil_r t). rewrite (take_is lits vs t []) by auto. reflexivity.
Qed.
(* With quotes, and space around them, if the quotation mark is not a literal of the type. *)
Theorem C94_chars_quoted : forall lits vs t l r, proper lits -> (length lits <= 256)%nat -> spelled_by lits vs t ->
  ~ In (quote 34) lits -> blank l -> (forall c, In c l -> ~ In (quote c) lits) -> blank r ->
  parse_chars false lits (l ++ [34] ++ t ++ [34] ++ r) = Ok (Some vs).
Proof.
  intros lits vs t l r P L S NQ B NL R.
  assert (NM : forall c, ~ In (quote c) lits -> char_map lits 0 c = None).
  { intros c C. destruct (char_map lits 0 c) eqn:E; auto. apply char_map_some in E; auto. destruct E as (k & _ & N).
    apply nth_error_In in N. contradiction. }
  unfold parse_chars. rewrite skip_unmapped_app by auto. cbn [app skip_unmapped]. rewrite (NM 34 NQ).
  replace (isspace 34) with false by reflexivity. cbn [tl]. rewrite N.eqb_refl.
  rewrite (take_is lits vs t (34 :: r)) by (auto; apply NM; auto). rewrite N.eqb_refl.
  apply only_space_spec in R. rewrite R. reflexivity.
Qed.
Theorem C94_chars_only : forall lits s vs, proper lits -> (length lits <= 256)%nat -> parse_chars false lits s = Ok (Some vs) ->
  exists l q t r, s = l ++ q ++ t ++ q ++ r /\ blank l /\ blank r /\ (q = [] \/ q = [34]) /\ spelled_by lits vs t.
Proof.
  intros lits s vs P L H. destruct (unmapped_split (char_map lits 0) s) as (l & B & E). unfold parse_chars in H. cbv zeta in H.
  set (s' := skip_unmapped (char_map lits 0) s) in *.
  set (q := match char_map lits 0 34, s' with None, c :: _ => c =? 34 | _, _ => false end) in *.
  destruct (take_mapped (char_map lits 0) (if q then tl s' else s')) as [vs' rest] eqn:T.
  destruct (take_split lits _ _ _ P L T) as (t & E2 & SP).
  destruct q eqn:Q.
  - assert (S34 : s' = 34 :: tl s').
    { unfold q in Q. destruct (char_map lits 0 34); [discriminate|]. destruct s' as [|c s'']; [discriminate|]. apply N.eqb_eq in Q. subst. reflexivity. }
    rewrite T in H. destruct rest as [|c rest]; [discriminate|]. destruct (N.eqb_spec c 34) as [->|]; [|discriminate].
    destruct (only_space rest) eqn:R; [|discriminate]. injection H as <-.
    exists l, [34], t, rest. split; [rewrite E, S34, E2; reflexivity|]. split; auto. split; [apply only_space_spec; auto|]. split; auto.
  - rewrite T in H. destruct (only_space rest) eqn:R; [|discriminate]. injection H as <-.
    exists l, [], t, rest. split; [cbn; congruence|]. split; auto. split; [apply only_space_spec; auto|]. split; auto.
Qed.
(* With more than 256 literals another value is stored. *)
Definition many : list text := map (fun n => [N.of_nat n + 1000]) (seq 0 256) ++ [quote 120].
Theorem C94_chars_wide_refuted : proper many /\ spelled_by many [256%nat] [120] /\ parse_chars false many [120] = Ok (Some [0%nat]).
Proof.
  split; [|split].
  - split.
    + apply (NoDup_map_inv (fun t : text => hd 0 t + 2 * N.of_nat (length t))).
      assert (E : map (fun t : text => hd 0 t + 2 * N.of_nat (length t)) many = map (fun n => N.of_nat n + 1002) (seq 0 256) ++ [45]) by (vm_compute; reflexivity).
      rewrite E. apply NoDup_Add with (a := 45) (l := map (fun n => N.of_nat n + 1002) (seq 0 256)).
      * rewrite <- (app_nil_r (map _ _)) at 1. apply Add_app.
      * split; [apply FinFun.Injective_map_NoDup; [intros a b; lia|apply seq_NoDup]|].
        rewrite in_map_iff. intros (n & N & _). lia.
    + intros l X. unfold many in X. apply in_app_or in X. destruct X as [X|[<- |[]]]; [right|left; exists 120; reflexivity].
      apply in_map_iff in X. destruct X as (n & <- & _). cbn. lia.
  - repeat constructor.
  - vm_compute. reflexivity.
Qed.
(* An array of a subtype, as STD_LOGIC_VECTOR in 1993, ends in an internal error. *)
Theorem C94_chars_subtype_refuted : forall lits s, parse_chars true lits s = Fault.
Proof. reflexivity. Qed.

(* ---- Reals and physical values ---- *)
Theorem C94_physical_partial : forall strtod units num scale sp w unit v r,
  skip_space (num ++ sp ++ w ++ r) = num ++ sp ++ w ++ r -> strtod (num ++ sp ++ w ++ r) = (scale, sp ++ w ++ r) ->
  blank sp -> blank r -> basic_identifier unit -> spells w unit -> NoDup (map fst units) -> In (unit, v) units ->
  (scale * v <> -1)%Z ->
  parse_physical strtod units (num ++ sp ++ w ++ r) = Ok (Some (scale * v)%Z).
Proof.
  intros strtod units num scale sp w unit v r SK ST B R [NE BI] SP ND IU NM. unfold parse_physical. rewrite SK, ST.
  destruct (spells_up w unit SP BI) as (_ & NS & U). rewrite skip_blank by auto.
  assert (X : skip_space (w ++ r) = w ++ r).
  { destruct w as [|c w]; [inversion SP; subst; congruence|]. cbn [app]. apply skip_solid, NS. left; auto. }
  rewrite X.
  assert (Y : up_unit (w ++ r) = (unit, r)).
  { rewrite <- U. clear - NS R. apply blank_ends in R. induction w as [|c w IH]; cbn [app].
    - destruct r as [|c r]; cbn in *; auto. rewrite R. reflexivity.
    - cbn [up_unit]. rewrite NS by (left; auto). rewrite IH by (intros d D; apply NS; right; auto). destruct (up_unit w). reflexivity. }
  rewrite Y. assert (F : find_unit unit units = Some v).
  { clear - ND IU. induction units as [|[u x] us IH]; [destruct IU|]. cbn in *. inversion ND; subst. destruct IU as [E|IU].
    - injection E as -> ->. rewrite (proj2 (text_eqb_spec unit unit) eq_refl). reflexivity.
    - destruct (text_eqb u unit) eqn:E; auto. apply text_eqb_spec in E. subst. exfalso. apply H1. apply in_map_iff. exists (unit, v). auto. }
  destruct unit as [|c unit]; [congruence|]. rewrite F. destruct (Z.eqb_spec (scale * v) (-1)); [contradiction|].
  apply only_space_spec in R. rewrite R. reflexivity.
Qed.
(* Nothing is accepted but a known unit, and the value is the multiple of it. *)
Theorem C94_physical_only : forall strtod units s v, parse_physical strtod units s = Ok (Some v) ->
  exists l scale rest sp w unit u r, s = l ++ skip_space s /\ blank l /\ strtod (skip_space s) = (scale, rest) /\
    rest = sp ++ w ++ r /\ blank sp /\ blank r /\ In (unit, u) units /\ Forall2 case_of w unit /\ v = (scale * u)%Z.
Proof.
  intros strtod units s v H. destruct (skip_split s) as (l & B & E). unfold parse_physical in H.
  destruct (strtod (skip_space s)) as [scale rest] eqn:ST. destruct (skip_split rest) as (sp & BS & ES).
  assert (X : forall t, exists w r, t = w ++ r /\ snd (up_unit t) = r /\ Forall2 case_of w (fst (up_unit t))).
  { induction t as [|c t (w & r & E1 & E2 & E3)]; [exists [], []; repeat split; constructor|]. cbn [up_unit].
    destruct (isspace c); [exists [], (c :: t); repeat split; constructor|]. destruct (up_unit t) as [x y]. cbn [fst snd] in *.
    exists (c :: w), r. split; [cbn; congruence|]. split; auto. constructor; auto. apply toupper_case. }
  destruct (X (skip_space rest)) as (w & r & E1 & E2 & E3). destruct (up_unit (skip_space rest)) as [uw ur]. cbn [fst snd] in *. subst ur.
  destruct uw as [|c uw]; [discriminate|].
  destruct (find_unit (c :: uw) units) as [u|] eqn:F; [|discriminate]. destruct (scale * u =? -1)%Z; [discriminate|].
  destruct (only_space r) eqn:R; [|discriminate]. injection H as <-.
  exists l, scale, rest, sp, w, (c :: uw), u, r. split; auto. split; auto. split; auto. split; [congruence|]. split; auto.
  split; [apply only_space_spec; auto|]. split; [|split; auto].
  clear - F. induction units as [|[x y] us IH]; [discriminate|]. cbn in F. destruct (text_eqb x (c :: uw)) eqn:T.
  - injection F as ->. apply text_eqb_spec in T. subst. left; auto.
  - right. auto.
Qed.
(* -1 fs is refused. *)
Theorem C94_physical_minus_refuted : forall strtod, strtod [45; 49; 32; 102; 115] = ((-1)%Z, [32; 102; 115]) ->
  parse_physical strtod [([70; 83], 1%Z)] [45; 49; 32; 102; 115] = Ok None.
Proof. intros strtod H. unfold parse_physical. cbn [skip_space isspace N.eqb Pos.eqb orb]. rewrite H. vm_compute. reflexivity. Qed.
(* A unit without a number is zero, and so is an empty real. *)
Theorem C94_physical_number_refuted : forall strtod, strtod [110; 115] = (0%Z, [110; 115]) ->
  parse_physical strtod [([78; 83], 1000000%Z)] [110; 115] = Ok (Some 0%Z).
Proof. intros strtod H. unfold parse_physical. cbn [skip_space isspace N.eqb Pos.eqb orb]. rewrite H. vm_compute. reflexivity. Qed.
Theorem C94_real_empty_refuted : forall strtod s, blank s -> strtod [] = (0%Z, []) -> parse_real strtod s = Ok (Some 0%Z).
Proof. intros strtod s B H. unfold parse_real. rewrite <- (app_nil_r s), skip_blank by auto. cbn [skip_space]. rewrite H. reflexivity. Qed.

(* ---- Examples ---- *)
Example ex_integer : parse_integer [32; 45; 49; 95; 50; 10] = Ok (Some (-12)%Z).
Proof. vm_compute. reflexivity. Qed.
Definition bits : list text := [quote 48; quote 49].
Example ex_proper : proper bits.
Proof.
  split; [constructor; [intros [X|[]]; discriminate|repeat constructor; intros []]|].
  intros l [<- |[<- |[]]]; left; [exists 48|exists 49]; reflexivity.
Qed.
Example ex_spelled : spelled_by bits [1; 0; 1]%nat [49; 48; 49].
Proof. repeat constructor. Qed.
Example ex_chars : parse_chars false bits [32; 34; 49; 48; 49; 34; 32] = Ok (Some [1; 0; 1]%nat).
Proof. vm_compute. reflexivity. Qed.
Definition booleans : list text := [[70; 65; 76; 83; 69]; [84; 82; 85; 69]].
Example ex_spells : spells [84; 114; 85; 101] [84; 82; 85; 69].
Proof.
  apply spells_same. change 114 with (82 + 32). apply spells_lower; [lia|]. apply spells_same. change 101 with (69 + 32).
  apply spells_lower; [lia|constructor].
Qed.
Example ex_enum : parse_enum booleans [32; 84; 114; 85; 101] = Ok (Some 1%nat).
Proof. vm_compute. reflexivity. Qed.
Example ex_physical : parse_physical (fun s => match s with 53 :: r => (5%Z, r) | _ => (0%Z, s) end) [([70; 83], 1%Z); ([80; 83], 1000%Z)] [53; 32; 112; 115] = Ok (Some 5000%Z).
Proof. vm_compute. reflexivity. Qed.

Print Assumptions C94_integer_partial.
Print Assumptions C94_integer_only.
Print Assumptions C94_integer_overflow.
Print Assumptions C94_integer_least_refuted.
Print Assumptions C94_enum_identifier.
Print Assumptions C94_enum_char_partial.
Print Assumptions C94_enum_only.
Print Assumptions C94_enum_space_refuted.
Print Assumptions C94_enum_extended_refuted.
Print Assumptions C94_enum_empty_refuted.
Print Assumptions C94_chars_partial.
Print Assumptions C94_chars_quoted.
Print Assumptions C94_chars_only.
Print Assumptions C94_chars_wide_refuted.
Print Assumptions C94_chars_subtype_refuted.
Print Assumptions C94_physical_partial.
Print Assumptions C94_physical_only.
Print Assumptions C94_physical_minus_refuted.
Print Assumptions C94_physical_number_refuted.
Print Assumptions C94_real_empty_refuted.
