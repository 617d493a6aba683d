(* Whole pack files. *)
From Coq Require Import List NArith ZArith Arith Lia Bool.
From Verif Require Import Base FbufModel FbufProofs PackModel PackSpec PackProofs.
Import ListNotations.
Local Open Scope N_scope.

(* ---- how much a function takes ---- *)

Definition grows (f : pw -> res pw) (c : N) : Prop :=
  forall w w', f w = Ok w' -> len (w_buf w') <= len (w_buf w) + c.

Lemma grows_then f g c d : grows f c -> grows g d -> grows (fun w => bind (f w) g) (c + d).
Proof.
  intros Hf Hg w w' H. apply bind_ok in H. destruct H as (w1 & H1 & H2).
  specialize (Hf _ _ H1). specialize (Hg _ _ H2). lia.
Qed.

Lemma grows_le f c d : c <= d -> grows f c -> grows f d.
Proof. intros L H w w' E. specialize (H _ _ E). lia. Qed.

Lemma grows_store n bs c : len bs <= c -> grows (fun w => store (pack_grow w n) bs) c.
Proof.
  intros L w w' H. unfold store in H.
  assert (B : w_buf (pack_grow w n) = w_buf w) by (unfold pack_grow; destruct (w_bufsz w <? len (w_buf w) + n); reflexivity).
  rewrite B in H.
  destruct (_ <? _); [discriminate|]. injection H as <-. cbn [w_buf]. rewrite len_app. lia.
Qed.

Lemma grows_uint u : grows (fun w => pack_uint w u) 10.
Proof.
  apply grows_store. unfold len, encode_number. pose proof (leb_length_le 10 u). lia.
Qed.
Lemma grows_int v : grows (fun w => pack_int w v) 10. Proof. apply grows_uint. Qed.
Lemma grows_reg v : grows (fun w => pack_reg w v) 10. Proof. apply grows_uint. Qed.
Lemma grows_u8 u : grows (fun w => pack_u8 w u) 1. Proof. now apply grows_store. Qed.
Lemma grows_u16 u : grows (fun w => pack_u16 w u) 2. Proof. now apply grows_store. Qed.

Lemma get_string_buf w s : w_buf (snd (get_string w s)) = w_buf w.
Proof. destruct s; cbn [get_string]; [|reflexivity]. now destruct (negb _). Qed.

Lemma grows_str s : grows (fun w => pack_str w s) 10.
Proof.
  intros w w' H. unfold pack_str in H. pose proof (get_string_buf w s) as B.
  destruct (get_string w s) as [o w1]. cbn [snd] in B. rewrite <- B. revert H. apply grows_uint.
Qed.

Lemma grows_loc l : grows (fun w => pack_loc w l) 30.
Proof.
  intros w w' H. unfold pack_loc in H. apply bind_ok in H. destruct H as (w1 & H & E).
  injection E as <-. cbn [w_buf set_last].
  destruct (_ || _) in H.
  - exact (grows_then _ _ 10 20 (grows_str _) (grows_then _ _ 10 10 (grows_uint _) (grows_uint _)) _ _ H).
  - apply (grows_le _ (1 + (10 + 10)) 30 ltac:(lia)
             (grows_then _ _ _ _ (grows_u8 0) (grows_then _ _ _ _ (grows_int _) (grows_int _))) _ _ H).
Qed.

Lemma grows_value v : grows (fun w => pack_value w v) 31.
Proof.
  assert (R : grows (fun w => Ok w) 0) by (intros w w' [= <-]; lia).
  assert (K : forall k f c, c <= 30 -> grows f c -> grows (fun w => do! w <- pack_u8 w k; f w) 31).
  { intros k f c L H. apply (grows_le _ (1 + c)); [lia|]. apply grows_then; [apply grows_u8|exact H]. }
  destruct v; cbn [pack_value].
  - eapply K; [|exact R]; lia.
  - eapply K; [|apply grows_reg]; lia.
  - eapply K; [|apply grows_int]; lia.
  - eapply K; [|apply grows_uint]; lia.
  - eapply K; [|apply grows_then; [apply grows_reg|apply grows_uint]]; lia.
  - eapply K; [|apply grows_uint]; lia.
  - eapply K; [|apply grows_uint]; lia.
  - eapply K; [|apply grows_uint]; lia.
  - eapply K; [|apply grows_uint]; lia.
  - eapply K; [|apply grows_str]; lia.
  - eapply K; [|apply grows_u8]; lia.
  - eapply K; [|apply grows_loc]; lia.
  - apply (grows_le _ 1); [lia|apply grows_u8].
  - eapply K; [|apply grows_then; [apply grows_str|apply grows_uint]]; lia.
Qed.

Lemma grows_irs l : grows (fun w => pack_irs w l) (74 * N.of_nat (length l)).
Proof.
  induction l as [|i l IH]; cbn [pack_irs length].
  - intros w w' [= <-]. lia.
  - apply (grows_le _ (74 + 74 * N.of_nat (length l))); [lia|]. apply grows_then; [|exact IH].
    unfold pack_ir. cbv zeta.
    apply (grows_le _ (2 + (10 + (31 + 31)))); [lia|].
    apply grows_then; [apply grows_u16|]. apply grows_then; [apply grows_reg|].
    apply grows_then; apply grows_value.
Qed.

Lemma grows_vars l : grows (fun w => pack_vars w l) (20 * N.of_nat (length l)).
Proof.
  induction l as [|[n o] l IH]; cbn [pack_vars length].
  - intros w w' [= <-]. lia.
  - apply (grows_le _ (10 + (10 + 20 * N.of_nat (length l)))); [lia|].
    apply grows_then; [apply grows_str|]. apply grows_then; [apply grows_uint|exact IH].
Qed.

Lemma grows_func f : func_ok f -> forall w w', pack_func w f = Ok w' -> w_buf w = [] -> len (w_buf w') < P64.
Proof.
  intros (_ & _ & H3 & _ & _ & _ & _ & _ & H9 & _) w w' H B.
  assert (G : grows (pack_rest f) (10 + (10 + (10 + (10 + (10 + (10 + (20 * N.of_nat (length (f_vars f)) +
             (10 + (10 + 74 * N.of_nat (length (f_irs f)))))))))))).
  { unfold pack_rest. do 6 (apply grows_then; [apply grows_uint|]).
    apply grows_then; [apply grows_vars|]. apply grows_then; [apply grows_str|].
    apply grows_then; [apply grows_uint|]. apply grows_irs. }
  specialize (G (set_last w LOC_INVALID) w' H). cbn [set_last w_buf] in G. rewrite B in G.
  unfold len in *. cbn [length] in G. unfold P64. lia.
Qed.

(* ---- one unit ---- *)

Definition entry_good (z : zstd) (tab : list N) (e : entry) (f : func) : Prop :=
  exists data r g, e_buf e = leb 10 (len data) ++ z_compress z data ++ r /\ len data < P64 /\
    unpack_func tab data (e_cpool e) = Ok g /\ func_kept f g.

Lemma emit_ok z w f : func_ok f -> wok w -> w_buf w = [] ->
  exists data w' ext, emit z w f = Ok (leb 10 (len data) ++ z_compress z data, w') /\
    len data < P64 /\ w_tab w' = w_tab w ++ ext /\ wok w' /\ w_buf w' = [] /\
    (len (w_tab w') < TOP -> forall more cpool, exists g,
       unpack_func (w_tab w' ++ more) data (f_cpool f ++ cpool) = Ok g /\ func_kept f g).
Proof.
  intros Hf W B.
  assert (W0 : wok (set_last w LOC_INVALID)) by exact W.
  destruct (puts_writes _ _ _ (pack_rest_ok f [] Hf) _ W0) as (w1 & bs & ext & E & B1 & T1 & W1).
  cbn [set_last w_buf w_tab] in B1, T1. rewrite B in B1. cbn [app] in B1.
  exists (w_buf w1), (Pw (w_tab w1) (w_hash w1) (w_bufsz w1) [] (w_last w1)), ext.
  split. { unfold emit. rewrite B. change (pack_func w f) with (pack_rest f (set_last w LOC_INVALID)).
           rewrite E. reflexivity. }
  split; [exact (grows_func f Hf w w1 E B)|]. split; [exact T1|]. split.
  { destruct W1 as (A1 & A2 & A3). split; [exact A1|]. split; [cbn [w_buf w_bufsz]; apply N.le_0_l|exact A3]. }
  split; [reflexivity|]. cbn [w_tab]. intros L more cpool.
  assert (Hl : lrel (w_last (set_last w LOC_INVALID)) LOC_INVALID) by (intros H; discriminate H).
  assert (B2 : w_buf w1 = w_buf (set_last w LOC_INVALID) ++ w_buf w1) by (cbn [set_last w_buf]; now rewrite B).
  destruct (puts_reads _ _ _ (pack_rest_ok f cpool Hf) _ _ _ W0 E B2 L more [] LOC_INVALID Hl)
    as (g & l' & G & _ & Kg).
  rewrite app_nil_r in G. exists g. split; [|exact Kg]. eapply unpack_func_tail. exact G.
Qed.

Lemma lookup_cons p k e n : lookup ((k, e) :: p) n = if str_eqb k n then Some e else lookup p n.
Proof. reflexivity. Qed.

Lemma skip_len (a b : list N) n : n = len a -> skipn (N.to_nat n) (a ++ b) = b.
Proof. intros ->. apply skipn_pre. unfold len. lia. Qed.

Lemma units_ok z : forall us w, Forall (fun u => name (fst u) /\ func_ok (snd u)) us ->
  wok w -> w_buf w = [] ->
  exists bytes w' ext, write_units z w us = Ok (bytes, w') /\ w_tab w' = w_tab w ++ ext /\ wok w' /\
  (len (w_tab w') < TOP -> len bytes < TOP -> NoDup (map fst us) ->
   forall tab more rest jp fuel, tab = w_tab w' ++ more -> (length bytes <= fuel)%nat ->
   (forall n, In n (map fst us) -> lookup jp n = None) ->
   exists jp', read_units fuel tab (len bytes) (bytes ++ rest) jp = Ok jp' /\
     (forall n, ~ In n (map fst us) -> lookup jp' n = lookup jp n) /\
     (forall n f, In (n, f) us -> exists e, lookup jp' n = Some e /\ entry_good z tab e f)).
Proof.
  induction us as [|[n f] us IH]; intros w Hus W B; cbn [write_units].
  - exists [], w, []. rewrite app_nil_r. split; [reflexivity|]. split; [reflexivity|]. split; [exact W|].
    intros _ _ _ tab more rest jp fuel _ _ _. exists jp. split; [now destruct fuel|]. split; [reflexivity|].
    intros ? ? [].
  - inversion Hus as [|? ? [Hn Hf] Hus']; subst. cbn [fst snd] in *.
    destruct (get_string_ok w (Some n) W (proj1 Hn)) as (o & w1 & e1 & E1 & Ho & B1 & T1 & _ & W1 & K1).
    rewrite E1.
    destruct (emit_ok z w1 f Hf W1 ltac:(congruence)) as (data & w2 & e2 & E2 & Hd & T2 & W2 & B2 & K2).
    rewrite E2. cbn [bind].
    destruct (IH w2 Hus' W2 B2) as (bytes & w3 & e3 & E3 & T3 & W3 & K3).
    rewrite E3. cbn [bind fst snd].
    set (buf := leb 10 (len data) ++ z_compress z data) in *.
    eexists _, w3, (e1 ++ e2 ++ e3). split; [reflexivity|].
    split; [rewrite T3, T2, T1, <- !app_assoc; reflexivity|]. split; [exact W3|].
    intros L3 Lb ND tab more rest jp fuel -> Hfuel Hjp.
    assert (L2 : len (w_tab w2) < TOP) by (rewrite T3, len_app in L3; lia).
    assert (L1 : len (w_tab w1) < TOP) by (rewrite T2, len_app in L2; lia).
    specialize (K1 L1).
    rewrite !len_app in Lb.
    inversion ND as [|? ? Hni ND']; subst.
    assert (Hsz : len buf < TOP /\ len (f_cpool f) < TOP /\ len bytes < TOP)
      by (clear - Lb; lia).
    destruct Hsz as (S1 & S2 & S3).
    set (all := encode_number o ++ encode_number (len buf) ++ encode_number (len (f_cpool f)) ++ buf ++ f_cpool f ++ bytes).
    assert (Hall : len all <> 0).
    { unfold all. rewrite len_app. unfold encode_number.
      pose proof (leb_nonempty 9 o). destruct (leb 10 o); [congruence|]. rewrite len_cons. lia. }
    destruct fuel as [|fuel].
    { exfalso. fold all in Hfuel. unfold len in Hall. lia. }
    assert (S64 : forall x, x < TOP -> x < P64) by (unfold TOP, P64; intros; lia).
    cbn [read_units]. fold all.
    destruct (N.eqb_spec (len all) 0) as [|_]; [congruence|].
    unfold all at 1. rewrite <- !app_assoc. unfold encode_number at 1.
    rewrite get_uint_ok by auto. cbn [bind fst snd]. unfold encode_number at 1.
    rewrite get_uint_ok by auto. cbn [bind fst snd]. unfold encode_number at 1.
    rewrite get_uint_ok by auto. cbn [bind fst snd].
    rewrite !u32_small by assumption.
    assert (St : stored (w_tab w3 ++ more) n o).
    { apply stored_app. rewrite T3. apply stored_app. rewrite T2. now apply stored_app. }
    rewrite (stored_cstr _ _ _ St), ident_new_ok by exact Hn. cbn [bind].
    rewrite (Hjp n (or_introl eq_refl)).
    set (e := Entry (buf ++ f_cpool f ++ bytes ++ rest) (skipn (N.to_nat (len buf)) (buf ++ f_cpool f ++ bytes ++ rest))).
    assert (Hleft : len all - (len (all ++ rest) - len (buf ++ f_cpool f ++ bytes ++ rest) + (len buf + len (f_cpool f))) = len bytes).
    { unfold all. rewrite !len_app. lia. }
    rewrite Hleft.
    assert (Hskip : skipn (N.to_nat (len buf + len (f_cpool f))) (buf ++ f_cpool f ++ bytes ++ rest) = bytes ++ rest).
    { rewrite app_assoc. apply skip_len. now rewrite len_app. }
    rewrite Hskip.
    destruct (K3 L3 S3 ND' (w_tab w3 ++ more) more rest ((n, e) :: jp) fuel eq_refl) as (jp' & R & F1 & F2).
    { fold all in Hfuel. unfold all, encode_number in Hfuel. rewrite !app_length in Hfuel.
      pose proof (leb_nonempty 9 o). destruct (leb 10 o); [congruence|]. cbn [length] in Hfuel. lia. }
    { intros n' Hn'. rewrite lookup_cons. destruct (str_eqb_spec n n'); [congruence|]. apply Hjp. now right. }
    exists jp'. split; [exact R|]. split.
    + intros n' Hn'. rewrite F1 by (intros H; apply Hn'; now right).
      rewrite lookup_cons. destruct (str_eqb_spec n n'); [|reflexivity]. exfalso. apply Hn'. now left.
    + intros n' f' [H|H]; [|now apply F2].
      injection H as <- <-. exists e. split.
      { rewrite F1 by exact Hni. rewrite lookup_cons. destruct (str_eqb_spec n n); congruence. }
      destruct (K2 L2 (e3 ++ more) (bytes ++ rest)) as (g & G & Kg).
      exists data, (f_cpool f ++ bytes ++ rest), g. cbn [e_buf e_cpool e].
      split; [unfold buf; now rewrite <- app_assoc|]. split; [exact Hd|].
      rewrite skip_len by reflexivity. rewrite T3, <- app_assoc. auto.
Qed.

Lemma fill_ok z p name f e : codec_ok z -> lookup (p_funcs p) name = Some e ->
  entry_good z (p_tab p) e f -> exists g, fill z p name = Ok (Some g) /\ func_kept f g.
Proof.
  intros [Zf Zd] Le (data & r & g & Be & Hd & G & Kg).
  exists g. split; [|exact Kg]. unfold fill. rewrite Le, Be, get_uint_ok by exact Hd.
  cbn [bind fst snd]. rewrite Zf, Nat2N.id, firstn_pre by reflexivity.
  unfold len at 1. rewrite Zd, N.eqb_refl. now rewrite G.
Qed.

Lemma file_ok z us : codec_ok z -> Forall (fun u => name (fst u) /\ func_ok (snd u)) us ->
  NoDup (map fst us) ->
  exists file, write_pack z us = Ok file /\
  (len file < TOP -> exists p, read_pack file = Ok p /\
    (forall n f, In (n, f) us -> exists g, fill z p n = Ok (Some g) /\ func_kept f g) /\
    (forall n, ~ In n (map fst us) -> fill z p n = Ok None)).
Proof.
  intros Hz Hus ND.
  assert (W : wok writer_new).
  { split; [discriminate|]. split; [discriminate|]. split; [intros ? ? []|]. intros _ ? ? []. }
  destruct (units_ok z us writer_new Hus W eq_refl) as (bytes & w & ext & E & T & Ww & K).
  eexists. split; [unfold write_pack; rewrite E; cbn [bind fst snd]; reflexivity|].
  intros L. set (file := [74; 73; 84; 49] ++ le_bytes 4 ((8 + len bytes) mod 4294967296) ++ bytes ++ w_tab w) in *.
  assert (Ll : len file = 8 + len bytes + len (w_tab w)).
  { unfold file. rewrite !len_app. unfold len at 2. rewrite le_bytes_len. change (len [74; 73; 84; 49]) with 4. lia. }
  assert (Hm : (8 + len bytes) mod 4294967296 = 8 + len bytes) by (apply N.mod_small; unfold TOP in L; lia).
  assert (H8 : skipn 8 file = bytes ++ w_tab w).
  { unfold file. rewrite app_assoc. apply skipn_pre. rewrite app_length, le_bytes_len. reflexivity. }
  assert (Htab : skipn (N.to_nat (8 + len bytes)) file = w_tab w).
  { unfold file. rewrite (app_assoc (le_bytes _ _)), (app_assoc [_; _; _; _]). apply skip_len.
    rewrite !len_app. unfold len at 3. rewrite le_bytes_len. change (len [74; 73; 84; 49]) with 4. lia. }
  destruct (K ltac:(lia) ltac:(lia) ND (w_tab w) [] (w_tab w) [] (length file)) as (jp & R & F1 & F2).
  { now rewrite app_nil_r. } { unfold len in Ll. lia. } { reflexivity. }
  exists (Loaded jp (w_tab w)). split.
  - unfold read_pack. destruct (N.ltb_spec (len file) 8) as [A|_]; [lia|].
    assert (str_eqb (firstn 4 file) [74; 73; 84; 49] = true) as -> by reflexivity.
    cbn [negb].
    assert (S4 : skipn 4 file = le_bytes 4 (8 + len bytes) ++ bytes ++ w_tab w).
    { unfold file. rewrite Hm. reflexivity. }
    rewrite S4, get_le_ok by (change (2 ^ (8 * N.of_nat 4)) with TOP; lia).
    cbn [bind fst snd]. change (2 ^ 0) with 1. rewrite N.mul_1_r, Htab, H8.
    replace (8 + len bytes - 8) with (len bytes) by lia. rewrite R. reflexivity.
  - split.
    + intros n f Hin. destruct (F2 n f Hin) as (e & Le & Ge).
      exact (fill_ok z (Loaded jp (w_tab w)) n f e Hz Le Ge).
    + intros n Hn. unfold fill. cbn [p_funcs]. rewrite F1 by exact Hn. reflexivity.
Qed.
