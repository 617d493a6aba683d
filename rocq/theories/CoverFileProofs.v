From Coq Require Import ZArith NArith List Bool Arith Lia Znumtheory.
From Verif Require Import Base AdlerSpec FbufModel FbufSpec FbufProofs CoverModel CoverProofs CoverFileModel
  CoverFileSpec.
Import ListNotations.
Local Open Scope nat_scope.

Lemma to_u64_range v : (to_u64 v < 2 ^ 64)%N.
Proof.
  unfold to_u64. assert (H := Z.mod_pos_bound v 18446744073709551616 ltac:(lia)).
  change (2 ^ 64)%N with (Z.to_N 18446744073709551616). apply Z2N.inj_lt; lia.
Qed.

Lemma of_to_u64 v : int64 v -> of_u64 (to_u64 v) = v.
Proof.
  unfold int64, of_u64, to_u64. intros H.
  assert (B := Z.mod_pos_bound v 18446744073709551616 ltac:(lia)).
  destruct (N.ltb_spec (Z.to_N (v mod 18446744073709551616)) 9223372036854775808) as [L|L].
  - apply N2Z.inj_lt in L. rewrite Z2N.id in L |- * by lia.
    destruct (Z.ltb_spec v 0).
    + rewrite <- (Z.mod_unique v 18446744073709551616 (-1) (v + 18446744073709551616)) in L; lia.
    + apply Z.mod_small. lia.
  - apply N2Z.inj_le in L. rewrite Z2N.id in L |- * by lia.
    destruct (Z.ltb_spec v 0).
    + rewrite <- (Z.mod_unique v 18446744073709551616 (-1) (v + 18446744073709551616)); lia.
    + rewrite Z.mod_small in L by lia. lia.
Qed.

Lemma int32_to_u64 v : int32 v -> int32_of (to_u64 v) = v.
Proof.
  unfold int32, int32_of, to_u64. intros H.
  assert (B := Z.mod_pos_bound v 18446744073709551616 ltac:(lia)).
  rewrite Z2N.id by lia.
  assert (E : ((v mod 18446744073709551616) mod 2 ^ 32 = v mod 2 ^ 32)%Z).
  { symmetry. apply Zmod_div_mod; [lia|lia|]. exists (2 ^ 32)%Z. reflexivity. }
  rewrite E.
  destruct (Z.ltb_spec v 0).
  - rewrite <- (Z.mod_unique v (2 ^ 32) (-1) (v + 2 ^ 32)) by lia.
    destruct (Z.ltb_spec (v + 2 ^ 32) (2 ^ 31)); lia.
  - rewrite Z.mod_small by lia. destruct (Z.ltb_spec v (2 ^ 31)); lia.
Qed.

Lemma int32_of_small n : (Z.of_nat n < 2 ^ 31)%Z -> int32_of (N.of_nat n) = Z.of_nat n.
Proof.
  intros H. unfold int32_of. rewrite nat_N_Z, Z.mod_small by lia.
  destruct (Z.ltb_spec (Z.of_nat n) (2 ^ 31)); lia.
Qed.

Lemma add_sub32 a b : (0 <= a < 2 ^ 32)%Z -> add32 b (sub32 a b) = a.
Proof.
  intros H. unfold add32, sub32. rewrite Zplus_mod_idemp_r.
  replace (b + (a - b))%Z with a by lia. now apply Z.mod_small.
Qed.

Lemma sub32_range a b : (- 2 ^ 63 <= sub32 a b < 2 ^ 63)%Z.
Proof. unfold sub32. assert (H := Z.mod_pos_bound (a - b) (2 ^ 32) ltac:(lia)). lia. Qed.

Lemma f2_length {A B} (R : A -> B -> Prop) l l' : Forall2 R l l' -> length l = length l'.
Proof. induction 1; cbn; congruence. Qed.

Lemma f2_impl {A B} (R R' : A -> B -> Prop) l l' :
  (forall a b, R a b -> R' a b) -> Forall2 R l l' -> Forall2 R' l l'.
Proof. intros H. induction 1; constructor; auto. Qed.

(* The bytes of fields. *)
Definition encs (fs : list field) : list N := concat (map enc fs).

Lemma encs_cons f fs : encs (f :: fs) = enc f ++ encs fs.
Proof. reflexivity. Qed.

Lemma encs_app a b : encs (a ++ b) = encs a ++ encs b.
Proof. unfold encs. now rewrite map_app, concat_app. Qed.

Section File.
Variable names : ident -> list N.
Variable intern : list N -> ident.
Variable wfiles : list (list N).
Notation ok := (ident_fits names intern).
Hypothesis wfiles_fit : Forall name_fits wfiles.
Hypothesis wfiles_few : (Z.of_nat (length wfiles) < FILE_INVALID)%Z.

(* Single reads. *)

Definition at_ (r : rctx) (b : list N) : Prop := r_buf r = b.

Lemma with_buf_buf r b : r_buf (with_buf r b) = b.
Proof. reflexivity. Qed.

Lemma with_buf_twice r a b : with_buf (with_buf r a) b = with_buf r b.
Proof. reflexivity. Qed.

Lemma get_u8_ok r u rest : (u < 2 ^ 8)%N -> r_buf r = enc (FU8 u) ++ rest ->
  get_u8 r = Ok (u, with_buf r rest).
Proof.
  intros H E. unfold get_u8. rewrite E.
  assert (R := read_field_ok (FU8 u) rest H). cbn [kind_of read_field] in R.
  destruct (get_le 1 (enc (FU8 u) ++ rest) 0) as [[v b]|]; cbn [bind] in *; [|discriminate].
  now injection R as -> ->.
Qed.

Lemma get_u16_ok r u rest : (u < 2 ^ 16)%N -> r_buf r = enc (FU16 u) ++ rest ->
  get_u16 r = Ok (u, with_buf r rest).
Proof.
  intros H E. unfold get_u16. rewrite E.
  assert (R := read_field_ok (FU16 u) rest H). cbn [kind_of read_field] in R.
  destruct (get_le 2 (enc (FU16 u) ++ rest) 0) as [[v b]|]; cbn [bind] in *; [|discriminate].
  now injection R as -> ->.
Qed.

Lemma get_u32_ok r u rest : (u < 2 ^ 32)%N -> r_buf r = enc (FU32 u) ++ rest ->
  get_u32 r = Ok (u, with_buf r rest).
Proof.
  intros H E. unfold get_u32. rewrite E.
  assert (R := read_field_ok (FU32 u) rest H). cbn [kind_of read_field] in R.
  destruct (get_le 4 (enc (FU32 u) ++ rest) 0) as [[v b]|]; cbn [bind] in *; [|discriminate].
  now injection R as -> ->.
Qed.

Lemma get_un_ok r u rest : (u < 2 ^ 64)%N -> r_buf r = enc (FUint u) ++ rest ->
  get_un r = Ok (u, with_buf r rest).
Proof.
  intros H E. unfold get_un. rewrite E.
  assert (R := read_field_ok (FUint u) rest H). cbn [kind_of read_field] in R.
  destruct (get_uint (enc (FUint u) ++ rest)) as [[v b]|]; cbn [bind] in *; [|discriminate].
  now injection R as -> ->.
Qed.

Lemma get_int_ok r v rest : (- 2 ^ 63 <= v < 2 ^ 63)%Z -> r_buf r = enc (FInt v) ++ rest ->
  get_int r = Ok (v, with_buf r rest).
Proof.
  intros H E. unfold get_int. rewrite E.
  assert (R := read_field_ok (FInt v) rest H). cbn [kind_of read_field] in R.
  destruct (get_uint (enc (FInt v) ++ rest)) as [[u b]|]; cbn [bind] in *; [|discriminate].
  now injection R as -> ->.
Qed.

Lemma get_raw_ok r n bs rest : length bs = n -> r_buf r = enc (FRaw bs) ++ rest ->
  get_raw n r = Ok (bs, with_buf r rest).
Proof.
  intros H E. unfold get_raw. rewrite E. cbn [enc].
  rewrite app_length. destruct (Nat.ltb_spec (length bs + length rest) n); [lia|].
  now rewrite firstn_app, skipn_app, <- H, firstn_all, skipn_all, Nat.sub_diag, firstn_O, skipn_O, app_nil_r.
Qed.

Lemma get_i32_ok r v rest : int32 v -> r_buf r = enc (put_int64 v) ++ rest ->
  get_i32 r = Ok (v, with_buf r rest).
Proof.
  intros H E. unfold get_i32. rewrite (get_un_ok r _ rest (to_u64_range v) E). cbn [bind].
  now rewrite int32_to_u64.
Qed.

Lemma get_i32_nat r n rest : (Z.of_nat n < 2 ^ 31)%Z -> r_buf r = enc (FUint (N.of_nat n)) ++ rest ->
  get_i32 r = Ok (Z.of_nat n, with_buf r rest).
Proof.
  intros H E. unfold get_i32. rewrite (get_un_ok r (N.of_nat n) rest); [|lia|exact E]. cbn [bind].
  now rewrite int32_of_small.
Qed.

Lemma get_i64_ok r v rest : int64 v -> r_buf r = enc (put_int64 v) ++ rest ->
  get_i64 r = Ok (v, with_buf r rest).
Proof.
  intros H E. unfold get_i64. rewrite (get_un_ok r _ rest (to_u64_range v) E). cbn [bind].
  now rewrite of_to_u64.
Qed.

(* The state of the reader after it has read what the writer wrote. *)

Definition prefix {A} (a b : list A) : Prop := exists e, b = a ++ e.

Lemma prefix_refl {A} (a : list A) : prefix a a.
Proof. exists []. now rewrite app_nil_r. Qed.

Lemma prefix_trans {A} (a b c : list A) : prefix a b -> prefix b c -> prefix a c.
Proof. intros [e ->] [e' ->]. exists (e ++ e'). now rewrite app_assoc. Qed.

Lemma prefix_nth {A} (a b : list A) k x : prefix a b -> nth_error a k = Some x -> nth_error b k = Some x.
Proof.
  intros [e ->] H. rewrite nth_error_app1; [exact H|]. apply nth_error_Some. congruence.
Qed.

(* How many references of the file are not known yet. *)
Fixpoint unknown (refs : list Z) : nat :=
  match refs with
  | [] => 0
  | x :: r => (if (x =? FILE_INVALID)%Z then 1 else 0) + unknown r
  end.

Definition ref_ok (files : list (list N)) (name : list N) (ref : Z) : Prop :=
  ref = FILE_INVALID \/
  ((0 <= ref < FILE_INVALID)%Z /\ nth_error files (Z.to_nat ref) = Some name).

Record sync (w : wctx) (r : rctx) : Prop := {
  sy_index : r_index r = w_index w;
  sy_line : r_line r = w_line w; sy_column : r_column r = w_column w;
  sy_ldelta : r_ldelta r = w_ldelta w; sy_cdelta : r_cdelta r = w_cdelta w;
  sy_cache : r_cache r = None :: map Some (w_seen w);
  sy_map : if w_index w
           then r_map r = wfiles /\ Forall2 (ref_ok (r_files r)) wfiles (r_refs r) /\
                (Z.of_nat (length (r_files r) + unknown (r_refs r)) < FILE_INVALID)%Z
           else (Z.of_nat (length (r_files r) + length wfiles) < FILE_INVALID)%Z }.

Lemma sync_buf w r b : sync w r -> sync w (with_buf r b).
Proof. intros []. split; assumption. Qed.

(* Identifiers. *)

Lemma position_some l i : forall p, position l i = Some p -> nth_error l p = Some i.
Proof.
  induction l as [|x l IH]; intros p H; cbn [position] in H; [discriminate|].
  destruct (Nat.eqb_spec x i) as [->|_]; [now injection H as <-|].
  destruct (position l i) as [q|]; [|discriminate]. injection H as <-. cbn. now apply IH.
Qed.

Definition BOUND : Z := (2 ^ 31)%Z.

Lemma read_ident_ok id w r rest fs w' :
  write_ident names id w = (fs, w') -> (forall i, id = Some i -> ok i) -> sync w r -> (Z.of_nat (length (w_seen w)) < BOUND)%Z ->
  r_buf r = encs fs ++ rest ->
  exists r', read_ident intern r = Ok (id, r') /\ r_buf r' = rest /\ sync w' r' /\
    r_files r' = r_files r /\ length (w_seen w') <= length (w_seen w) + 1 /\ Forall in_range fs.
Proof.
  unfold BOUND. intros W OK S0 B E. destruct id as [i|]; cbn [write_ident] in W.
  - destruct (position (w_seen w) i) as [p|] eqn:P.
    + injection W as <- <-. apply position_some in P.
      assert (L : p < length (w_seen w)) by (apply nth_error_Some; congruence).
      unfold encs in E. cbn [map concat] in E. rewrite app_nil_r in E.
      assert (RG : (- 2 ^ 63 <= Z.of_nat p + 1 + 1 < 2 ^ 63)%Z) by lia.
      exists (with_buf r rest). unfold read_ident. rewrite (get_int_ok r _ rest RG E). cbn [bind].
      destruct (Z.ltb_spec (Z.of_nat p + 1 + 1) 0); [lia|].
      destruct (Z.eqb_spec (Z.of_nat p + 1 + 1) 0); [lia|].
      replace (Z.to_nat (Z.of_nat p + 1 + 1 - 1)) with (S p) by lia.
      cbn [r_cache with_buf]. rewrite (sy_cache _ _ S0). cbn [nth_error].
      rewrite nth_error_map, P. cbn.
      repeat split; try reflexivity; try (now apply sync_buf); try lia.
      constructor; [exact RG|constructor].
    + injection W as <- <-. destruct (OK i eq_refl) as ([NB NL] & NE & NI).
      unfold encs in E. cbn [map concat] in E. rewrite app_nil_r, <- app_assoc in E.
      assert (RG : (- 2 ^ 63 <= - Z.of_nat (length (names i)) < 2 ^ 63)%Z) by lia.
      unfold read_ident. rewrite (get_int_ok r _ _ RG E). cbn [bind].
      assert (LP : 0 < length (names i)) by (destruct (names i); [congruence|cbn; lia]).
      destruct (Z.ltb_spec (- Z.of_nat (length (names i))) 0); [|lia].
      rewrite (get_raw_ok (with_buf r (enc (FRaw (names i)) ++ rest)) _ (names i) rest);
        [|lia|reflexivity].
      cbn [bind]. rewrite NI. eexists. split; [reflexivity|].
      split; [reflexivity|]. split.
      * destruct S0. split; cbn; try assumption.
        rewrite sy_cache0. cbn. now rewrite map_app.
      * split; [reflexivity|]. split; [cbn; rewrite app_length; cbn; lia|].
        constructor; [exact RG|]. constructor; [|constructor]. cbn.
        split; [|lia]. eapply Forall_impl; [|exact NB]. intros b [_ Hb]. exact Hb.
  - injection W as <- <-. unfold encs in E. cbn [map concat] in E. rewrite app_nil_r in E.
    assert (RG : (- 2 ^ 63 <= 1 < 2 ^ 63)%Z) by lia.
    exists (with_buf r rest). unfold read_ident. rewrite (get_int_ok r 1 rest RG E). cbn [bind].
    change (1 <? 0)%Z with false. change (1 =? 0)%Z with false. cbn [Z.sub Z.to_nat].
    cbn [r_cache with_buf]. rewrite (sy_cache _ _ S0). cbn.
    repeat split; try reflexivity; try (now apply sync_buf); try lia.
    constructor; [exact RG|constructor].
Qed.

Lemma read_ident1_ok i w r rest fs w' :
  write_ident names (Some i) w = (fs, w') -> ok i -> sync w r -> (Z.of_nat (length (w_seen w)) < BOUND)%Z ->
  r_buf r = encs fs ++ rest ->
  exists r', read_ident1 intern r = Ok (i, r') /\ r_buf r' = rest /\ sync w' r' /\
    r_files r' = r_files r /\ length (w_seen w') <= length (w_seen w) + 1 /\ Forall in_range fs.
Proof.
  intros W OK S0 B E.
  destruct (read_ident_ok _ _ _ _ _ _ W ltac:(intros j [= <-]; exact OK) S0 B E) as (r' & R & H).
  exists r'. split; [|exact H]. unfold read_ident1. now rewrite R.
Qed.

(* Files. *)

Lemma cstr_name n : Forall (fun b => 0 < b < 256)%N n -> cstr (n ++ [0%N]) = n.
Proof.
  induction 1 as [|b n Hb _ IH]; [reflexivity|]. cbn [app cstr].
  destruct (N.eqb_spec b 0); [lia|]. now rewrite IH.
Qed.

Lemma read_names_ok rest : forall ns r, Forall name_fits ns ->
  r_buf r = encs (flat_map (fun n => [FUint (N.of_nat (length n + 1)); FRaw (n ++ [0%N])]) ns) ++ rest ->
  read_names (length ns) r = Ok (ns, with_buf r rest) /\
  Forall in_range (flat_map (fun n => [FUint (N.of_nat (length n + 1)); FRaw (n ++ [0%N])]) ns).
Proof.
  induction ns as [|n ns IH]; intros r F E.
  - cbn in E |- *. subst rest. split; [|constructor]. now destruct r.
  - inversion F as [|? ? [NB NL] F']; subst.
    cbn [flat_map app] in E |- *. rewrite !encs_cons in E. rewrite <- !app_assoc in E.
    cbn [read_names length].
    rewrite (get_un_ok r (N.of_nat (length n + 1)) _ ltac:(lia) E). cbn [bind].
    erewrite (get_raw_ok _ _ (n ++ [0%N])); [|rewrite app_length; cbn; lia|reflexivity]. cbn [bind].
    rewrite !with_buf_twice.
    destruct (IH (with_buf r (encs (flat_map (fun n => [FUint (N.of_nat (length n + 1)); FRaw (n ++ [0%N])]) ns) ++ rest)) F' eq_refl) as [R RG].
    rewrite R. cbn [bind]. rewrite cstr_name by exact NB. split; [reflexivity|].
    constructor; [cbn; lia|]. constructor; [|exact RG]. cbn. split.
    + apply Forall_app. split; [|constructor; [unfold is_byte; lia|constructor]].
      eapply Forall_impl; [|exact NB]. intros b [_ Hb]. exact Hb.
    + rewrite app_length. cbn. lia.
Qed.

Lemma unknown_repeat n : unknown (repeat FILE_INVALID n) = n.
Proof. induction n; cbn; [reflexivity|]. now rewrite IHn. Qed.

Lemma refs_repeat files : forall ns, Forall2 (ref_ok files) ns (repeat FILE_INVALID (length ns)).
Proof. induction ns; cbn; constructor; [now left|assumption]. Qed.

Definition indexed (w : wctx) : wctx :=
  Wctx true (w_line w) (w_column w) (w_ldelta w) (w_cdelta w) (w_seen w).

Lemma read_index_ok w r rest : sync w r -> w_index w = false ->
  r_buf r = encs (write_index wfiles) ++ rest ->
  exists r', read_index r = Ok r' /\ r_buf r' = rest /\ sync (indexed w) r' /\ r_files r' = r_files r /\
    Forall in_range (write_index wfiles).
Proof.
  intros S0 I E. destruct S0. rewrite I in sy_map0.
  unfold write_index in *. rewrite !encs_cons, <- !app_assoc in E.
  unfold read_index. rewrite (get_u16_ok r LOC_MAGIC _ ltac:(unfold LOC_MAGIC; lia) E). cbn [bind].
  rewrite N.eqb_refl. cbn [negb]. unfold FILE_INVALID in sy_map0.
  erewrite (get_un_ok _ (N.of_nat (length wfiles))); [|lia|reflexivity]. cbn [bind].
  rewrite Nat2N.id.
  destruct (read_names_ok rest wfiles (with_buf (with_buf r (enc (FUint (N.of_nat (length wfiles))) ++
    encs (flat_map (fun n => [FUint (N.of_nat (length n + 1)); FRaw (n ++ [0%N])]) wfiles) ++ rest))
    (encs (flat_map (fun n => [FUint (N.of_nat (length n + 1)); FRaw (n ++ [0%N])]) wfiles) ++ rest))
    wfiles_fit eq_refl) as [R RG].
  rewrite R. cbn [bind]. eexists. split; [reflexivity|]. split; [reflexivity|]. split.
  - split; cbn; try assumption; [reflexivity|].
    split; [reflexivity|]. split; [apply refs_repeat|]. rewrite unknown_repeat. exact sy_map0.
  - split; [reflexivity|]. constructor; [cbn; unfold LOC_MAGIC; lia|].
    constructor; [cbn; lia|exact RG].
Qed.

Lemma find_file_ok files name : forall l i found,
  (forall k x, nth_error l k = Some x -> nth_error files (Z.to_nat (i + Z.of_nat k)) = Some x) ->
  (0 <= i)%Z -> (i + Z.of_nat (length l) < FILE_INVALID)%Z ->
  ref_ok files name found -> ref_ok files name (find_file l name i found).
Proof.
  induction l as [|f l IH]; intros i found H I L R; cbn [find_file]; [exact R|].
  apply IH.
  - intros k x E. specialize (H (S k) x E). now replace (i + 1 + Z.of_nat k)%Z with (i + Z.of_nat (S k))%Z by lia.
  - lia.
  - cbn [length] in L. lia.
  - unfold bytes_eqb. destruct (list_eq_dec N.eq_dec f name) as [<-|_]; [|exact R].
    right. cbn [length] in L. split; [lia|].
    specialize (H 0 f eq_refl). now rewrite Z.add_0_r in H.
Qed.

Lemma find_file_found name : forall l i found, (0 <= i)%Z ->
  (i + Z.of_nat (length l) < FILE_INVALID)%Z ->
  find_file l name i found = FILE_INVALID -> found = FILE_INVALID.
Proof.
  induction l as [|f l IH]; intros i found I L H; cbn [find_file] in H; [exact H|].
  cbn [length] in L. apply IH in H; [|lia|lia].
  destruct (bytes_eqb f name); [lia|exact H].
Qed.

Lemma ref_ok_prefix files files' name ref : prefix files files' ->
  ref_ok files name ref -> ref_ok files' name ref.
Proof. intros P [->|[H E]]; [now left|]. right. split; [exact H|]. eapply prefix_nth; eauto. Qed.

Lemma refs_replace files name ref : forall ns refs j,
  Forall2 (ref_ok files) ns refs -> nth_error ns j = Some name -> ref_ok files name ref ->
  Forall2 (ref_ok files) ns (replace refs j ref).
Proof.
  intros ns refs j H. revert j. induction H as [|n x ns refs R H IH]; intros j E K.
  - destruct j; discriminate.
  - destruct j; cbn in E |- *; constructor; auto.
    injection E as ->. exact K.
Qed.

Lemma unknown_replace ref : forall refs j x, ref <> FILE_INVALID -> nth_error refs j = Some x ->
  unknown (replace refs j ref) + (if (x =? FILE_INVALID)%Z then 1 else 0) = unknown refs.
Proof.
  induction refs as [|y refs IH]; intros j x N E; [destruct j; discriminate|].
  destruct j as [|j]; cbn [replace unknown nth_error] in *.
  - injection E as ->. destruct (Z.eqb_spec ref FILE_INVALID); [contradiction|]. lia.
  - specialize (IH j x N E). lia.
Qed.

Lemma map_ref_ok w r old : sync w r -> w_index w = true ->
  old = FILE_INVALID \/ (0 <= old < Z.of_nat (length wfiles))%Z ->
  exists ref r', map_ref old r = Ok (ref, r') /\ r_buf r' = r_buf r /\ sync w r' /\
    prefix (r_files r) (r_files r') /\
    (if (old =? FILE_INVALID)%Z then ref = FILE_INVALID
     else (0 <= ref < FILE_INVALID)%Z /\
          nth_error (r_files r') (Z.to_nat ref) = nth_error wfiles (Z.to_nat old)).
Proof.
  intros S0 I O. unfold map_ref. destruct (Z.eqb_spec old FILE_INVALID) as [E|NE].
  - exists FILE_INVALID, r. repeat split; try reflexivity; try (apply S0); try apply prefix_refl.
  - destruct O as [O|O]; [contradiction|].
    destruct S0. rewrite I in sy_map0. destruct sy_map0 as (M & F & B).
    destruct (nth_error wfiles (Z.to_nat old)) as [name|] eqn:EN.
    2: { apply nth_error_None in EN. lia. }
    destruct (nth_error (r_refs r) (Z.to_nat old)) as [ref|] eqn:ER.
    2: { apply nth_error_None in ER.
         assert (length (r_refs r) = length wfiles) by (symmetry; eapply f2_length; eauto). lia. }
    rewrite M, EN.
    assert (RO : ref_ok (r_files r) name ref).
    { clear - F EN ER. revert EN ER. generalize (Z.to_nat old). induction F; intros [|k] A B;
        cbn in A, B; try discriminate; [injection A as ->; injection B as ->; assumption|eauto]. }
    set (ref1 := if (ref =? FILE_INVALID)%Z then find_file (r_files r) name 0 FILE_INVALID else ref).
    assert (R1 : ref_ok (r_files r) name ref1).
    { unfold ref1. destruct (Z.eqb_spec ref FILE_INVALID) as [->|_]; [|exact RO].
      apply find_file_ok; [intros k x K; now rewrite Z.add_0_l, Nat2Z.id|lia|lia|now left]. }
    assert (U := fun r0 N => unknown_replace r0 (r_refs r) (Z.to_nat old) ref N ER).
    destruct (Z.eqb_spec ref1 FILE_INVALID) as [E1|N1].
    + assert (EI : ref = FILE_INVALID).
      { unfold ref1 in E1. destruct (Z.eqb_spec ref FILE_INVALID); congruence. }
      set (k := Z.of_nat (length (r_files r))).
      assert (KB : (0 <= k < FILE_INVALID)%Z) by (unfold k; lia).
      assert (KO : nth_error (r_files r ++ [name]) (Z.to_nat k) = Some name).
      { unfold k. rewrite Nat2Z.id, nth_error_app2, Nat.sub_diag by lia. reflexivity. }
      assert (PX : prefix (r_files r) (r_files r ++ [name])) by (now exists [name]).
      exists k. eexists. split; [reflexivity|]. split; [reflexivity|]. split.
      * split; cbn; try assumption. rewrite I. split; [reflexivity|]. split.
        -- apply (refs_replace _ name); [|exact EN|right; auto].
           eapply f2_impl; [|exact F]. intros a b. now apply ref_ok_prefix.
        -- specialize (U k ltac:(lia)). rewrite EI in U. rewrite Z.eqb_refl in U.
           rewrite app_length. cbn [length]. lia.
      * split; [exact PX|]. split; [exact KB|exact KO].
    + exists ref1. eexists. split; [reflexivity|]. split; [reflexivity|]. split.
      * split; cbn; try assumption. rewrite I. split; [reflexivity|]. split.
        -- apply (refs_replace _ name); assumption.
        -- specialize (U ref1 N1). lia.
      * split; [apply prefix_refl|]. destruct R1 as [R1|R1]; [contradiction|exact R1].
Qed.

(* Locations. *)

Lemma read_loc_ok l w r rest fs w' :
  write_loc wfiles l w = (fs, w') -> loc_fits wfiles l -> sync w r ->
  r_buf r = encs fs ++ rest ->
  exists l' r', read_loc r = Ok (l', r') /\ r_buf r' = rest /\ sync w' r' /\
    prefix (r_files r) (r_files r') /\
    (forall g, prefix (r_files r') g -> same_place wfiles g l l') /\
    w_seen w' = w_seen w /\ Forall in_range fs.
Proof.
  intros W LF S0 E. unfold write_loc in W. injection W as <- <-.
  destruct LF as [L1 L2 L3 L4 L5].
  rewrite encs_app, <- app_assoc in E.
  assert (H : exists r1, (if r_index r then Ok r else read_index r) = Ok r1 /\
    r_buf r1 = encs [FUint (Z.to_N (l_file l)); FInt (sub32 (l_line l) (w_line w));
                     FInt (sub32 (l_line_delta l) (w_ldelta w));
                     FInt (sub32 (l_column l) (w_column w));
                     FInt (sub32 (l_column_delta l) (w_cdelta w))] ++ rest /\
    sync (indexed w) r1 /\ r_files r1 = r_files r /\
    Forall in_range (if w_index w then [] else write_index wfiles)).
  { rewrite (sy_index _ _ S0). destruct (w_index w) eqn:I.
    - exists r. split; [reflexivity|]. split; [exact E|]. split; [|split; [reflexivity|constructor]].
      unfold indexed. rewrite <- I. now destruct w.
    - destruct (read_index_ok w r _ S0 I E) as (r1 & A & B & C & D & F). exists r1. auto. }
  destruct H as (r1 & E1 & B1 & S1 & F1 & G1).
  unfold read_loc. rewrite E1. cbn [bind].
  rewrite !encs_cons, <- !app_assoc in B1.
  assert (FR : (0 <= l_file l < 65536)%Z).
  { unfold FILE_INVALID in *. lia. }
  rewrite (get_un_ok r1 (Z.to_N (l_file l)) _ ltac:(lia) B1). cbn [bind].
  rewrite Z2N.id, Z.mod_small by lia.
  destruct (map_ref_ok (indexed w) (with_buf r1 (enc (FInt (sub32 (l_line l) (w_line w))) ++
      enc (FInt (sub32 (l_line_delta l) (w_ldelta w))) ++
      enc (FInt (sub32 (l_column l) (w_column w))) ++
      enc (FInt (sub32 (l_column_delta l) (w_cdelta w))) ++ encs [] ++ rest)) (l_file l)
      (sync_buf _ _ _ S1) eq_refl L5) as (ref & r2 & E2 & B2 & S2 & P2 & R2).
  rewrite E2. cbn [bind]. cbn [r_buf with_buf] in B2. cbn [r_files with_buf] in P2.
  rewrite (get_int_ok r2 _ _ (sub32_range _ _) B2). cbn [bind].
  erewrite get_int_ok; [|apply sub32_range|reflexivity]. cbn [bind].
  erewrite get_int_ok; [|apply sub32_range|reflexivity]. cbn [bind].
  erewrite get_int_ok; [|apply sub32_range|reflexivity]. cbn [bind].
  cbn [r_line r_column r_ldelta r_cdelta with_buf r_buf r_index r_map r_refs r_cache r_files].
  destruct S2. cbn in sy_line0, sy_column0, sy_ldelta0, sy_cdelta0, sy_index0, sy_cache0, sy_map0.
  rewrite sy_line0, sy_column0, sy_ldelta0, sy_cdelta0.
  rewrite !add_sub32 by lia.
  rewrite !Z.min_l by lia.
  eexists. eexists. split; [reflexivity|]. split; [reflexivity|]. split.
  - split; cbn; assumption || reflexivity.
  - cbn [r_files]. split; [now rewrite <- F1|]. split; [|split; [reflexivity|]].
    + intros g PG. unfold same_place, file_name. cbn [l_line l_column l_line_delta l_column_delta l_file].
      repeat split.
      * change 65535%Z with FILE_INVALID. destruct (Z.eqb_spec (l_file l) FILE_INVALID) as [LI|LI].
        -- rewrite R2. reflexivity.
        -- destruct R2 as [R2 R3]. destruct (Z.eqb_spec ref FILE_INVALID); [lia|].
           destruct (nth_error wfiles (Z.to_nat (l_file l))) as [nm|] eqn:EN.
           ++ symmetry. exact (prefix_nth _ _ _ _ PG R3).
           ++ apply nth_error_None in EN. destruct L5 as [L5|L5]; [|lia].
              change 65535%Z with FILE_INVALID in L5. congruence.
      * intros H. rewrite H in R2. exact R2.
      * intros H. change 65535%Z with FILE_INVALID in *.
        destruct (Z.eqb_spec (l_file l) FILE_INVALID); [assumption|]. lia.
    + apply Forall_app. split; [exact G1|].
      repeat (constructor; [first [apply sub32_range | cbn; lia]|]). constructor.
Qed.

(* Items. *)

Lemma read_ranges_ok rest : forall rs r, Forall (fun r => int64 (fst r) /\ int64 (snd r)) rs ->
  r_buf r = encs (flat_map (fun r => [put_int64 (fst r); put_int64 (snd r)]) rs) ++ rest ->
  read_ranges (length rs) r = Ok (rs, with_buf r rest).
Proof.
  induction rs as [|[a b] rs IH]; intros r F E.
  - cbn in E |- *. subst rest. now destruct r.
  - inversion F as [|? ? [Fa Fb] F']; subst. cbn [fst snd] in Fa, Fb.
    cbn [flat_map app fst snd] in E. rewrite !encs_cons in E. rewrite <- !app_assoc in E.
    cbn [read_ranges length].
    rewrite (get_i64_ok r a _ Fa E). cbn [bind].
    erewrite get_i64_ok; [|exact Fb|reflexivity]. cbn [bind]. rewrite with_buf_twice.
    rewrite IH; [|exact F'|reflexivity]. cbn [bind]. reflexivity.
Qed.

Lemma ranges_range rs : Forall in_range (flat_map (fun r : Z * Z => [put_int64 (fst r); put_int64 (snd r)]) rs).
Proof.
  induction rs as [|r rs IH]; cbn [flat_map app]; [constructor|].
  constructor; [apply to_u64_range|]. constructor; [apply to_u64_range|exact IH].
Qed.

Lemma kind_code_ok k : kind_of_code (kind_code k) = Ok k.
Proof. now destruct k. Qed.

Lemma has_operands_spec it : has_operands (i_flags it) = true <-> binary it.
Proof.
  unfold has_operands, binary. rewrite negb_true_iff, Z.eqb_neq. split.
  - intros H.
    destruct (Z.testbit (i_flags it) 3) eqn:T3; [exists 3%Z; split; [lia|exact T3]|].
    destruct (Z.testbit (i_flags it) 4) eqn:T4; [exists 4%Z; split; [lia|exact T4]|].
    destruct (Z.testbit (i_flags it) 5) eqn:T5; [exists 5%Z; split; [lia|exact T5]|].
    destruct (Z.testbit (i_flags it) 6) eqn:T6; [exists 6%Z; split; [lia|exact T6]|].
    exfalso. apply H. apply Z.bits_inj'. intros n N. rewrite Z.land_spec, Z.bits_0.
    destruct (Z.eqb_spec n 3) as [->|]; [now rewrite T3|].
    destruct (Z.eqb_spec n 4) as [->|]; [now rewrite T4|].
    destruct (Z.eqb_spec n 5) as [->|]; [now rewrite T5|].
    destruct (Z.eqb_spec n 6) as [->|]; [now rewrite T6|].
    apply andb_false_iff. right.
    destruct (Z.ltb_spec n 3).
    + assert (C : (n = 0 \/ n = 1 \/ n = 2)%Z) by lia. destruct C as [->|[->| ->]]; reflexivity.
    + apply Z.bits_above_log2; [lia|]. change (Z.log2 120) with 6%Z. lia.
  - intros (i & R & T) H. assert (E := f_equal (fun z => Z.testbit z i) H). cbv beta in E.
    rewrite Z.land_spec, T, Z.bits_0 in E.
    assert (C : (i = 3 \/ i = 4 \/ i = 5 \/ i = 6)%Z) by lia.
    destruct C as [->|[->|[->| ->]]]; discriminate E.
Qed.

Lemma has_func_spec it : has_func (i_kind it) = true <-> named it.
Proof.
  unfold has_func, named. destruct (i_kind it); split; intros H; try discriminate; auto;
    destruct H as [H|[H|H]]; discriminate.
Qed.

Lemma read_item_ok stale it w r rest fs w' :
  write_item names wfiles it w = (fs, w') -> item_fits ok wfiles it -> sync w r ->
  (Z.of_nat (length (w_seen w) + 2) <= BOUND)%Z ->
  r_buf r = encs fs ++ rest ->
  exists it' r', read_item intern stale r = Ok (it', r') /\ r_buf r' = rest /\ sync w' r' /\
    prefix (r_files r) (r_files r') /\
    (forall g, prefix (r_files r') g -> same_item wfiles g it it') /\
    length (w_seen w') <= length (w_seen w) + 2 /\ Forall in_range fs.
Proof.
  intros W [T1 T2 T3 T4 T5 T6 T7 T8 T9 TH TF T10 T11 T12] S0 B E. unfold write_item in W.
  destruct (write_loc wfiles (i_loc it) w) as [f1 w1] eqn:W1.
  destruct (if has_operands (i_flags it)
            then seq (write_loc wfiles) (write_loc wfiles) (i_loc_lhs it) (i_loc_rhs it) w1
            else ([], w1)) as [f2 w2] eqn:W2.
  destruct (write_ident names (Some (i_hier it)) w2) as [f3 w3] eqn:W3.
  destruct (if has_func (i_kind it) then write_ident names (i_func it) w3 else ([], w3))
    as [f4 w4] eqn:W4.
  injection W as <- <-.
  cbn [app] in E. rewrite !encs_cons, !encs_app in E. rewrite <- !app_assoc in E.
  assert (KC : (kind_code (i_kind it) < 2 ^ 64)%N) by (destruct (i_kind it); reflexivity).
  unfold read_item.
  rewrite (get_un_ok r _ _ KC E). cbn [bind]. rewrite kind_code_ok. cbn [bind].
  erewrite get_i32_ok; [|exact T1|reflexivity]. cbn [bind].
  erewrite get_i32_ok; [|exact T2|reflexivity]. cbn [bind].
  erewrite get_i32_ok; [|exact T3|reflexivity]. cbn [bind].
  erewrite get_i32_ok; [|exact T4|reflexivity]. cbn [bind].
  erewrite get_i32_ok; [|exact T5|reflexivity]. cbn [bind].
  erewrite get_i32_ok; [|exact T6|reflexivity]. cbn [bind].
  erewrite get_i32_nat; [|exact T8|reflexivity]. cbn [bind].
  erewrite get_i64_ok; [|exact T7|reflexivity]. cbn [bind].
  rewrite Nat2Z.id. rewrite !with_buf_twice.
  erewrite read_ranges_ok; [|exact T9|reflexivity]. cbn [bind]. rewrite with_buf_twice.
  set (rest1 := encs f2 ++ encs f3 ++ encs f4 ++ rest).
  destruct (read_loc_ok _ _ (with_buf r (encs f1 ++ rest1)) rest1 _ _ W1 T10 (sync_buf _ _ _ S0) eq_refl)
    as (l & r1 & E1 & B1 & S1 & P1 & SP1 & SE1 & G1).
  rewrite E1. cbn [bind]. cbn [r_files with_buf] in P1.
  assert (H2 : exists lhs rhs r2,
    (do! (lhs, r) <- (if has_operands (i_flags it) then read_loc r1 else Ok (i_loc_lhs stale, r1));
     do! (rhs, r) <- (if has_operands (i_flags it) then read_loc r else Ok (i_loc_rhs stale, r));
     Ok (lhs, rhs, r)) = Ok (lhs, rhs, r2) /\
    r_buf r2 = encs f3 ++ encs f4 ++ rest /\ sync w2 r2 /\ prefix (r_files r1) (r_files r2) /\
    (forall g, prefix (r_files r2) g -> binary it ->
       same_place wfiles g (i_loc_lhs it) lhs /\ same_place wfiles g (i_loc_rhs it) rhs) /\
    w_seen w2 = w_seen w1 /\ Forall in_range f2).
  { assert (HS := has_operands_spec it). destruct (has_operands (i_flags it)).
    - unfold seq in W2.
      destruct (write_loc wfiles (i_loc_lhs it) w1) as [fa wa] eqn:Wa.
      destruct (write_loc wfiles (i_loc_rhs it) wa) as [fb wb] eqn:Wb.
      injection W2 as <- <-. unfold rest1 in B1. rewrite encs_app, <- app_assoc in B1.
      destruct (read_loc_ok _ _ r1 _ _ _ Wa T11 S1 B1) as (la & ra & Ea & Ba & Sa & Pa & SPa & SEa & Ga).
      destruct (read_loc_ok _ _ ra _ _ _ Wb T12 Sa Ba) as (lb & rb & Eb & Bb & Sb & Pb & SPb & SEb & Gb).
      exists la, lb, rb. rewrite Ea. cbn [bind]. rewrite Eb. cbn [bind].
      split; [reflexivity|]. split; [exact Bb|]. split; [exact Sb|].
      split; [exact (prefix_trans _ _ _ Pa Pb)|]. split; [|split; [congruence|apply Forall_app; auto]].
      intros g PG _. split; [apply SPa; exact (prefix_trans _ _ _ Pb PG)|now apply SPb].
    - injection W2 as <- <-. exists (i_loc_lhs stale), (i_loc_rhs stale), r1. cbn [bind].
      split; [reflexivity|]. split; [exact B1|]. split; [exact S1|]. split; [apply prefix_refl|].
      split; [|split; [reflexivity|constructor]]. intros g _ BI. apply HS in BI. discriminate. }
  destruct H2 as (lhs & rhs & r2 & E2 & B2 & S2 & P2 & SP2 & SE2 & G2).
  destruct (if has_operands (i_flags it) then read_loc r1 else Ok (i_loc_lhs stale, r1))
    as [[lhs' ra]|]; cbn [bind] in E2 |- *; [|discriminate].
  destruct (if has_operands (i_flags it) then read_loc ra else Ok (i_loc_rhs stale, ra))
    as [[rhs' rb]|]; cbn [bind] in E2 |- *; [|discriminate].
  injection E2 as -> -> ->.
  destruct (read_ident1_ok _ _ r2 _ _ _ W3 TH S2 ltac:(rewrite SE2, SE1; lia) B2)
    as (r3 & E3 & B3 & S3 & F3 & LS3 & G3).
  rewrite E3. cbn [bind].
  assert (H4 : exists func r4,
    (if has_func (i_kind it) then read_ident intern r3 else Ok (i_func stale, r3)) = Ok (func, r4) /\
    r_buf r4 = rest /\ sync w4 r4 /\ r_files r4 = r_files r3 /\ (named it -> func = i_func it) /\
    length (w_seen w4) <= length (w_seen w3) + 1 /\ Forall in_range f4).
  { assert (HS := has_func_spec it). destruct (has_func (i_kind it)).
    - destruct (read_ident_ok _ _ r3 _ _ _ W4 TF S3 ltac:(rewrite SE2, SE1 in LS3; lia) B3)
        as (r4 & E4 & B4 & S4 & F4 & LS4 & G4).
      exists (i_func it), r4. repeat (split; [assumption||auto|]). exact G4.
    - injection W4 as <- <-. exists (i_func stale), r3.
      repeat (split; [assumption||reflexivity|]).
      split; [intros NM; apply HS in NM; discriminate|]. split; [lia|constructor]. }
  destruct H4 as (func & r4 & E4 & B4 & S4 & F4 & NM & LS4 & G4).
  rewrite E4. cbn [bind]. eexists. exists r4. split; [reflexivity|].
  split; [exact B4|]. split; [exact S4|].
  assert (P4 : prefix (r_files r2) (r_files r4)) by (rewrite F4, F3; apply prefix_refl).
  split; [exact (prefix_trans _ _ _ P1 (prefix_trans _ _ _ P2 P4))|]. split; [|split].
  - intros g PG. assert (PG2 := prefix_trans _ _ _ P4 PG). split; try reflexivity; cbn.
    + apply SP1. exact (prefix_trans _ _ _ P2 PG2).
    + now apply SP2.
    + exact NM.
  - rewrite SE2, SE1 in LS3. lia.
  - repeat rewrite <- app_assoc. cbn [app]. repeat (constructor; [first [apply to_u64_range | exact KC | cbn; lia]|]).
    repeat (apply Forall_app; split; try assumption). apply ranges_range.
Qed.

Lemma read_items_ok stale rest : forall its w r fs w',
  write_items names wfiles its w = (fs, w') -> Forall (item_fits ok wfiles) its -> sync w r ->
  (Z.of_nat (length (w_seen w) + 2 * length its) <= BOUND)%Z ->
  r_buf r = encs fs ++ rest ->
  exists its' r', read_item_list intern stale (length its) r = Ok (its', r') /\ r_buf r' = rest /\ sync w' r' /\
    prefix (r_files r) (r_files r') /\
    (forall g, prefix (r_files r') g -> Forall2 (same_item wfiles g) its its') /\
    length (w_seen w') <= length (w_seen w) + 2 * length its /\ Forall in_range fs.
Proof.
  induction its as [|it its IH]; intros w r fs w' W F S0 B E.
  - injection W as <- <-. exists [], r. cbn in E |- *.
    split; [reflexivity|]. split; [exact E|]. split; [exact S0|]. split; [apply prefix_refl|].
    split; [intros; constructor|]. split; [lia|constructor].
  - cbn [write_items] in W. unfold seq in W.
    destruct (write_item names wfiles it w) as [f1 w1] eqn:W1.
    destruct (write_items names wfiles its w1) as [f2 w2] eqn:W2. injection W as <- <-.
    inversion F as [|? ? F1 F2]; subst. cbn [length] in B |- *. rewrite encs_app, <- app_assoc in E.
    destruct (read_item_ok stale it w r _ _ _ W1 F1 S0 ltac:(lia) E)
      as (it' & r1 & E1 & B1 & S1 & P1 & SI1 & L1 & G1).
    destruct (IH w1 r1 _ _ W2 F2 S1 ltac:(lia) B1) as (its' & r2 & E2 & B2 & S2 & P2 & SI2 & L2 & G2).
    exists (it' :: its'), r2. cbn [read_item_list]. rewrite E1. cbn [bind]. rewrite E2. cbn [bind].
    split; [reflexivity|]. split; [exact B2|]. split; [exact S2|].
    split; [exact (prefix_trans _ _ _ P1 P2)|]. split; [|split; [lia|apply Forall_app; auto]].
    intros g PG. constructor; [apply SI1; exact (prefix_trans _ _ _ P2 PG)|now apply SI2].
Qed.

(* Scopes. *)

Definition write_kids (write : scope -> wctx -> list field * wctx) :=
  fix go (ks : list scope) (w : wctx) : list field * wctx :=
    match ks with
    | [] => ([], w)
    | k :: ks' => let '(x, w) := write k w in let '(y, w) := go ks' w in (x ++ y, w)
    end.

(* What reading needs as fuel. *)
Fixpoint need (s : scope) : nat :=
  let 'Scope _ _ _ _ _ _ kids := s in 2 + fold_right (fun k n => S (need k) + n) 0 kids.
Definition need_kids (ks : list scope) : nat := 1 + fold_right (fun k n => S (need k) + n) 0 ks.

Definition mentions_kids (ks : list scope) : nat := fold_right (fun k n => mentions k + n) 0 ks.


Lemma write_scope_eq t n h l b its kids w :
  write_scope names wfiles (Scope t n h l b its kids) w =
  let '(f1, w) := write_ident names (Some n) w in
  let '(f2, w) := write_ident names (Some h) w in
  let '(f3, w) := write_loc wfiles l w in
  let '(f4, w) := if t then write_ident names b w else ([], w) in
  let '(f5, w) := write_items names wfiles its w in
  let '(f6, w) := write_kids (write_scope names wfiles) kids w in
  (FU8 CTRL_PUSH_SCOPE :: FUint (if t then 1 else 0)%N ::
     f1 ++ f2 ++ f3 ++ f4 ++ FUint (N.of_nat (length its)) :: f5 ++ f6 ++ [FU8 CTRL_POP_SCOPE],
   w).
Proof. reflexivity. Qed.

(* The fields of a scope begin with the control byte, which is read by the
   caller; the fuel it needs is less than the number of its bytes. *)
Lemma write_scope_head s w :
  fst (write_scope names wfiles s w) = FU8 CTRL_PUSH_SCOPE :: tl (fst (write_scope names wfiles s w)).
Proof.
  destruct s as [t n h l b its kids]. rewrite write_scope_eq.
  destruct (write_ident names (Some n) w) as [f1 w1].
  destruct (write_ident names (Some h) w1) as [f2 w2].
  destruct (write_loc wfiles l w2) as [f3 w3].
  destruct (if t then write_ident names b w3 else ([], w3)) as [f4 w4].
  destruct (write_items names wfiles its w4) as [f5 w5].
  destruct (write_kids (write_scope names wfiles) kids w5) as [f6 w6]. reflexivity.
Qed.

Lemma leb_nonempty u : 1 <= length (leb 10 u).
Proof. destruct u; cbn [leb]; match goal with |- context [if ?c then _ else _] => destruct c | _ => idtac end; cbn [length]; auto with arith. Qed.

Lemma need_le s : forall w, S (need s) <= length (encs (fst (write_scope names wfiles s w))).
Proof.
  apply (scope_induction (fun s => forall w, S (need s) <= length (encs (fst (write_scope names wfiles s w))))).
  clear s. intros t n h l b its kids IH w. rewrite write_scope_eq.
  destruct (write_ident names (Some n) w) as [f1 w1].
  destruct (write_ident names (Some h) w1) as [f2 w2].
  destruct (write_loc wfiles l w2) as [f3 w3].
  destruct (if t then write_ident names b w3 else ([], w3)) as [f4 w4].
  destruct (write_items names wfiles its w4) as [f5 w5].
  assert (K : forall ks w, (forall k, In k ks -> forall w, S (need k) <= length (encs (fst (write_scope names wfiles k w)))) ->
    fold_right (fun k n => S (need k) + n) 0 ks <=
    length (encs (fst (write_kids (write_scope names wfiles) ks w)))).
  { clear. induction ks as [|k ks IH]; intros w H; [cbn; lia|]. cbn [write_kids fold_right].
    fold (write_kids (write_scope names wfiles)).
    assert (H1 := H k (or_introl eq_refl) w).
    destruct (write_scope names wfiles k w) as [x w1].
    assert (H2 := IH w1 (fun j I => H j (or_intror I))).
    destruct (write_kids (write_scope names wfiles) ks w1) as [y w2].
    cbn [fst] in *. rewrite encs_app, app_length. lia. }
  assert (KK := K kids w5 IH).
  destruct (write_kids (write_scope names wfiles) kids w5) as [f6 w6]. cbn [fst] in *.
  cbn [need]. rewrite !encs_cons, !encs_app, !encs_cons, !encs_app, !app_length, encs_cons, !app_length.
  change (length (enc (FU8 CTRL_PUSH_SCOPE))) with 1. change (length (enc (FU8 CTRL_POP_SCOPE))) with 1.
  assert (L1 : 1 <= length (enc (FUint (if t then 1 else 0)))) by apply leb_nonempty. lia.
Qed.

Definition scope_reads stale (s : scope) : Prop := forall w r rest fs w' fuel,
  write_scope names wfiles s w = (fs, w') -> scope_fits ok wfiles s -> sync w r ->
  (Z.of_nat (length (w_seen w) + mentions s) <= BOUND)%Z ->
  need s <= fuel -> r_buf r = encs (tl fs) ++ rest ->
  exists s' r', read_scope intern stale fuel r = Ok (s', r') /\ r_buf r' = rest /\ sync w' r' /\
    prefix (r_files r) (r_files r') /\
    (forall g, prefix (r_files r') g -> same_scope wfiles g s s') /\
    length (w_seen w') <= length (w_seen w) + mentions s /\ Forall in_range fs.

Lemma read_children_eq stale f r : read_children intern stale (S f) r =
  do! (ctrl, r) <- get_u8 r;
  if (ctrl =? CTRL_PUSH_SCOPE)%N then
    do! (k, r) <- read_scope intern stale f r;
    do! (ks, r) <- read_children intern stale f r;
    Ok (k :: ks, r)
  else if (ctrl =? CTRL_POP_SCOPE)%N then Ok ([], r)
  else Fault.
Proof. reflexivity. Qed.

Lemma read_scope_eq stale f r : read_scope intern stale (S f) r =
  do! (t, r) <- get_un r;
  do! (n, r) <- read_ident1 intern r;
  do! (h, r) <- read_ident1 intern r;
  do! (l, r) <- read_loc r;
  do! (b, r) <- (if (t =? 1)%N then read_ident intern r else Ok (None, r));
  do! (count, r) <- get_i32 r;
  do! (its, r) <- read_item_list intern stale (Z.to_nat count) r;
  do! (kids, r) <- read_children intern stale f r;
  Ok (Scope (t =? 1)%N n h l b its kids, r).
Proof. reflexivity. Qed.

Lemma read_kids_ok stale rest : forall ks, (forall k, In k ks -> scope_reads stale k) ->
  forall w r fs w' fuel,
  write_kids (write_scope names wfiles) ks w = (fs, w') -> Forall (scope_fits ok wfiles) ks -> sync w r ->
  (Z.of_nat (length (w_seen w) + mentions_kids ks) <= BOUND)%Z ->
  need_kids ks <= fuel -> r_buf r = encs fs ++ enc (FU8 CTRL_POP_SCOPE) ++ rest ->
  exists ks' r', read_children intern stale fuel r = Ok (ks', r') /\ r_buf r' = rest /\ sync w' r' /\
    prefix (r_files r) (r_files r') /\
    (forall g, prefix (r_files r') g -> Forall2 (same_scope wfiles g) ks ks') /\
    length (w_seen w') <= length (w_seen w) + mentions_kids ks /\ Forall in_range fs.
Proof.
  induction ks as [|k ks IH]; intros H w r fs w' fuel W F S0 B N E; destruct fuel as [|fuel];
    try (exfalso; unfold need_kids in N; lia).
  - injection W as <- <-. cbn [encs map concat app] in E. exists [], (with_buf r rest).
    rewrite read_children_eq. rewrite (get_u8_ok r CTRL_POP_SCOPE rest ltac:(reflexivity) E). cbn [bind].
    change (CTRL_POP_SCOPE =? CTRL_PUSH_SCOPE)%N with false.
    change (CTRL_POP_SCOPE =? CTRL_POP_SCOPE)%N with true. cbv iota.
    split; [reflexivity|]. split; [reflexivity|]. split; [now apply sync_buf|].
    split; [apply prefix_refl|]. split; [constructor|]. split; [lia|constructor].
  - cbn [write_kids] in W. fold (write_kids (write_scope names wfiles)) in W.
    assert (HD := write_scope_head k w).
    destruct (write_scope names wfiles k w) as [f1 w1] eqn:W1. cbn [fst] in HD.
    destruct (write_kids (write_scope names wfiles) ks w1) as [f2 w2] eqn:W2. injection W as <- <-.
    inversion F as [|? ? F1 F2]; subst.
    cbn [mentions_kids fold_right] in B |- *. fold (mentions_kids ks) in B |- *.
    unfold need_kids in N. cbn [fold_right] in N.
    rewrite encs_app, HD, encs_cons, <- !app_assoc in E.
    rewrite read_children_eq. rewrite (get_u8_ok r CTRL_PUSH_SCOPE _ ltac:(reflexivity) E). cbn [bind].
    change (CTRL_PUSH_SCOPE =? CTRL_PUSH_SCOPE)%N with true. cbv iota.
    destruct (H k (or_introl eq_refl) w (with_buf r (encs (tl f1) ++ encs f2 ++ enc (FU8 CTRL_POP_SCOPE) ++ rest))
                _ f1 w1 fuel W1 F1 (sync_buf _ _ _ S0) ltac:(lia) ltac:(lia) eq_refl)
      as (k' & r1 & E1 & B1 & S1 & P1 & SS1 & L1 & G1).
    destruct (IH (fun x I => H x (or_intror I)) w1 r1 f2 w2 fuel W2 F2 S1 ltac:(lia)
                ltac:(unfold need_kids; lia) B1) as (ks' & r2 & E2 & B2 & S2 & P2 & SS2 & L2 & G2).
    rewrite E1. cbn [bind]. rewrite E2. cbn [bind]. exists (k' :: ks'), r2.
    split; [reflexivity|]. split; [exact B2|]. split; [exact S2|].
    split; [exact (prefix_trans _ _ _ P1 P2)|]. split; [|split; [lia|apply Forall_app; auto]].
    intros g PG. constructor; [apply SS1; exact (prefix_trans _ _ _ P2 PG)|now apply SS2].
Qed.

Lemma read_scope_ok stale s : scope_reads stale s.
Proof.
  apply (scope_induction (scope_reads stale)). clear s.
  intros t n h l b its kids IH w r rest fs w' fuel W F S0 B N E.
  rewrite write_scope_eq in W.
  destruct (write_ident names (Some n) w) as [f1 w1] eqn:W1.
  destruct (write_ident names (Some h) w1) as [f2 w2] eqn:W2.
  destruct (write_loc wfiles l w2) as [f3 w3] eqn:W3.
  destruct (if t then write_ident names b w3 else ([], w3)) as [f4 w4] eqn:W4.
  destruct (write_items names wfiles its w4) as [f5 w5] eqn:W5.
  destruct (write_kids (write_scope names wfiles) kids w5) as [f6 w6] eqn:W6. injection W as <- <-.
  inversion F as [? ? ? ? ? ? ? OKN OKH OKB FL FN FI FK]; subst.
  destruct fuel as [|fuel]; [cbn [need] in N; lia|]. cbn [need mentions] in N, B |- *.
  fold (mentions_kids kids) in B |- *.
  cbn [tl] in E. rewrite encs_cons, !encs_app, encs_cons, !encs_app, encs_cons in E.
  change (encs []) with (@nil BinNums.N) in E. rewrite app_nil_r in E. rewrite <- !app_assoc in E.
  assert (TC : ((if t then 1 else 0) < 2 ^ 64)%N) by (destruct t; reflexivity).
  rewrite read_scope_eq. rewrite (get_un_ok r _ _ TC E). cbn [bind].
  match goal with |- context [with_buf r (encs f1 ++ ?X)] =>
    destruct (read_ident1_ok _ _ (with_buf r (encs f1 ++ X)) X _ _ W1 OKN (sync_buf _ _ _ S0) ltac:(lia) eq_refl)
      as (r1 & E1 & B1 & S1 & P1 & L1 & G1) end. rewrite E1. cbn [bind].
  destruct (read_ident1_ok _ _ r1 _ _ _ W2 OKH S1 ltac:(lia) B1)
    as (r2 & E2 & B2 & S2 & P2 & L2 & G2). rewrite E2. cbn [bind].
  destruct (read_loc_ok _ _ r2 _ _ _ W3 FL S2 B2) as (l' & r3 & E3 & B3 & S3 & P3 & SP3 & L3 & G3).
  rewrite E3. cbn [bind].
  assert (H4 : exists b' r4,
    (if ((if t then 1 else 0) =? 1)%N then read_ident intern r3 else Ok (None, r3)) = Ok (b', r4) /\
    r_buf r4 = enc (FUint (N.of_nat (length its))) ++ encs f5 ++ encs f6 ++ enc (FU8 CTRL_POP_SCOPE) ++ rest /\
    sync w4 r4 /\ r_files r4 = r_files r3 /\ (t = true -> b' = b) /\
    length (w_seen w4) <= length (w_seen w3) + 1 /\ Forall in_range f4).
  { destruct t.
    - change (1 =? 1)%N with true. cbv iota.
      destruct (read_ident_ok _ _ r3 _ _ _ W4 OKB S3 ltac:(rewrite L3; lia) B3)
        as (r4 & E4 & B4 & S4 & P4 & L4 & G4).
      exists b, r4. repeat (split; [assumption||auto|]). exact G4.
    - change (0 =? 1)%N with false. cbv iota. injection W4 as <- <-. exists None, r3.
      repeat (split; [assumption||reflexivity|]). split; [discriminate|]. split; [lia|constructor]. }
  destruct H4 as (b' & r4 & E4 & B4 & S4 & P4 & BB & L4 & G4). rewrite E4. cbn [bind].
  rewrite (get_i32_nat r4 (length its) _ FN B4). cbn [bind]. rewrite Nat2Z.id.
  match goal with |- context [with_buf r4 (encs f5 ++ ?X)] =>
    destruct (read_items_ok stale X _ _ (with_buf r4 (encs f5 ++ X)) _ _ W5 FI (sync_buf _ _ _ S4)
                ltac:(rewrite L3 in L4; lia) eq_refl)
      as (its' & r5 & E5 & B5 & S5 & P5 & SI5 & L5 & G5) end. rewrite E5. cbn [bind].
  destruct (read_kids_ok stale rest kids IH _ r5 _ _ fuel W6 FK S5 ltac:(rewrite L3 in L4; lia)
              ltac:(unfold need_kids; lia) B5) as (kids' & r6 & E6 & B6 & S6 & P6 & SK6 & L6 & G6).
  rewrite E6. cbn [bind].
  assert (TT : ((if t then 1 else 0) =? 1)%N = t) by now destruct t.
  rewrite TT. eexists. exists r6. split; [reflexivity|]. split; [exact B6|]. split; [exact S6|].
  cbn [r_files with_buf] in P1, P5. rewrite P4 in P5.
  assert (P35 := prefix_trans _ _ _ P5 P6).
  split; [rewrite <- P1, <- P2; exact (prefix_trans _ _ _ P3 P35)|].
  split; [|split].
  - intros g PG. constructor.
    + apply SP3. exact (prefix_trans _ _ _ P35 PG).
    + exact BB.
    + apply SI5. exact (prefix_trans _ _ _ P6 PG).
    + now apply SK6.
  - rewrite L3 in L4. lia.
  - constructor; [reflexivity|]. constructor; [exact TC|].
    apply Forall_app; split; [exact G1|]. apply Forall_app; split; [exact G2|].
    apply Forall_app; split; [exact G3|]. apply Forall_app; split; [exact G4|].
    constructor; [cbn; lia|]. apply Forall_app; split; [exact G5|].
    apply Forall_app; split; [exact G6|]. repeat constructor.
Qed.

(* The whole file. *)

Definition start (bytes : list N) (rfiles : list (list N)) : rctx :=
  Rctx bytes false [] [] 0 0 0 0 [None] rfiles.

Lemma read_db_ok stale rfiles pre d :
  (Z.of_nat (length rfiles + length wfiles) < FILE_INVALID)%Z ->
  (0 <= d_mask d < 2 ^ 32)%Z -> int32 (d_array_limit d) -> int32 (d_next_tag d) ->
  scope_fits ok wfiles (d_root d) -> (Z.of_nat (mentions (d_root d)) <= BOUND)%Z ->
  Forall in_range (write_db names wfiles d) /\
  exists s g, read_db intern stale rfiles pre (encs (write_db names wfiles d)) =
                Ok (Db (Z.lor (d_mask d) pre) (d_array_limit d) (d_next_tag d) s, g) /\
    prefix rfiles g /\ same_scope wfiles g (d_root d) s.
Proof.
  intros Fl M AL NT SF BB.
  assert (HD := write_scope_head (d_root d) wctx0).
  assert (ND := need_le (d_root d) wctx0).
  unfold write_db in *. destruct (write_scope names wfiles (d_root d) wctx0) as [fs w'] eqn:W.
  cbn [fst] in *.
  set (tail := enc (FU8 CTRL_END_OF_FILE) ++ @nil BinNums.N).
  assert (EB : encs ([FU32 COVER_FILE_MAGIC; FUint COVER_FILE_VERSION; put_int64 (d_mask d);
     put_int64 (d_array_limit d); put_int64 (d_next_tag d)] ++ fs ++ [FU8 CTRL_END_OF_FILE]) =
     enc (FU32 COVER_FILE_MAGIC) ++ enc (FUint COVER_FILE_VERSION) ++ enc (put_int64 (d_mask d)) ++
     enc (put_int64 (d_array_limit d)) ++ enc (put_int64 (d_next_tag d)) ++
     enc (FU8 CTRL_PUSH_SCOPE) ++ encs (tl fs) ++ tail).
  { cbn [app]. rewrite !encs_cons, encs_app, HD, encs_cons. cbn [tl]. rewrite <- app_assoc. reflexivity. }
  set (bytes := encs (_ ++ fs ++ _)) in *. clearbody bytes.
  assert (LB : S (need (d_root d)) <= length bytes).
  { rewrite EB, !app_length. rewrite HD, encs_cons, app_length in ND. lia. }
  assert (S0 : forall b, sync wctx0 (start b rfiles)).
  { intros b. split; try reflexivity. exact Fl. }
  destruct (read_scope_ok stale (d_root d) wctx0 (start (encs (tl fs) ++ tail) rfiles) tail fs w'
              (length bytes) W SF (S0 _) BB ltac:(lia) eq_refl)
    as (s & r1 & E1 & B1 & S1 & P1 & SS & L1 & G1).
  split.
  - cbn [app]. repeat (constructor; [first [apply to_u64_range | reflexivity]|]).
    apply Forall_app. split; [exact G1|]. repeat constructor.
  - exists s, (r_files r1). split; [|split; [exact P1|apply SS, prefix_refl]].
    unfold read_db. fold (start bytes rfiles).
    rewrite (get_u32_ok (start bytes rfiles) COVER_FILE_MAGIC _ ltac:(reflexivity) EB). cbn [bind].
    change (COVER_FILE_MAGIC =? COVER_FILE_MAGIC)%N with true. cbn [negb].
    erewrite (get_un_ok _ COVER_FILE_VERSION); [|reflexivity|reflexivity]. cbn [bind].
    change (uint32_of COVER_FILE_VERSION =? 2)%Z with true. cbn [negb].
    unfold put_int64 at 1. erewrite get_un_ok; [|apply to_u64_range|reflexivity]. cbn [bind].
    erewrite get_i32_ok; [|exact AL|reflexivity]. cbn [bind].
    erewrite get_i32_ok; [|exact NT|reflexivity]. cbn [bind].
    cbn [read_roots]. erewrite (get_u8_ok _ CTRL_PUSH_SCOPE); [|reflexivity|reflexivity]. cbn [bind].
    change (CTRL_PUSH_SCOPE =? CTRL_PUSH_SCOPE)%N with true. cbv iota.
    rewrite !with_buf_twice.
    change (with_buf (start bytes rfiles) (encs (tl fs) ++ tail)) with (start (encs (tl fs) ++ tail) rfiles).
    rewrite E1. cbn [bind]. destruct (length bytes) as [|m]; [lia|]. cbn [read_roots].
    rewrite (get_u8_ok r1 CTRL_END_OF_FILE [] ltac:(reflexivity) B1). cbn [bind].
    change (CTRL_END_OF_FILE =? CTRL_PUSH_SCOPE)%N with false.
    change (CTRL_END_OF_FILE =? CTRL_END_OF_FILE)%N with true. cbv iota. cbn [bind r_files with_buf].
    do 2 f_equal. f_equal. f_equal. unfold uint32_of, to_u64.
    rewrite Z2N.id by (apply Z.mod_pos_bound; lia).
    rewrite (Z.mod_small (d_mask d)) by lia. apply Z.mod_small. exact M.
Qed.

End File.

(* Through the buffer. *)
Lemma blocks_ok z a xs : z <> ZFastlz -> Forall in_range xs ->
  exists f f', write_fields (fbuf_open_out z a) xs = Ok f /\
    fbuf_maybe_flush f 61440 true = Ok f' /\ concat (map fst (f_blocks f')) = encs xs.
Proof.
  intros Hz R.
  destruct (write_fields_ok z a Hz xs _ [] (open_inv z a) R) as (f & E & I). cbn [app] in I.
  exists f. rewrite (flush_ok z a f _ 61440 true Hz I) by (unfold BIG; lia).
  eexists. split; [exact E|]. split; [reflexivity|].
  destruct I as (_ & _ & _ & Ea & _ & We & _). destruct (N.ltb_spec BIG (len (f_wbuf f) + 61440)) as [L|L].
  - cbn [flushed f_blocks]. rewrite concat_snoc. now symmetry.
  - unfold encs. rewrite Ea.
    assert (W : f_wbuf f = []).
    { destruct (f_wbuf f); [reflexivity|]. unfold len, BIG in L. cbn [length] in L. lia. }
    rewrite W. now rewrite app_nil_r.
Qed.
