From Coq Require Import ZArith NArith List Bool Arith Lia.
From Verif Require Import Base FbufModel FbufSpec FbufProofs NumberModel NumberProps CoverModel CoverFileModel CoverFileSpec CoverFileProofs
  ObjModel ObjKindProofs ObjGraphModel ObjGraphSpec ObjGraphProofs ObjGraphProps ObjFileModel ObjFileSpec.
Import ListNotations.
Local Open Scope nat_scope.

Lemma get_u64_ok r u rest : (u < 2 ^ 64)%N -> r_buf r = enc (FU64 u) ++ rest ->
  get_u64 r = Ok (u, with_buf r rest).
Proof.
  intros H E. unfold get_u64. rewrite E.
  assert (R := read_field_ok (FU64 u) rest H). cbn [kind_of read_field] in R.
  destruct (get_le 8 (enc (FU64 u) ++ rest) 0) as [[v b]|]; cbn [bind] in *; [|discriminate].
  now injection R as -> ->.
Qed.

Lemma encs_one f : encs [f] = enc f.
Proof. unfold encs. cbn. apply app_nil_r. Qed.

Fixpoint assign (kmap : list nat) (deps ks : list nat) : list nat :=
  match deps, ks with
  | d :: deps, k :: ks => assign (replace kmap d k) deps ks
  | _, _ => kmap
  end.

Lemma replace_nth {A} (l : list A) k x j d : nth j (replace l k x) d = if (j =? k) && (k <? length l) then x else nth j l d.
Proof.
  revert k j. induction l as [|y l IH]; intros k j; cbn [replace].
  - cbn [length]. now rewrite andb_false_r.
  - destruct k as [|k], j as [|j]; cbn [nth length]; try reflexivity. rewrite IH. reflexivity.
Qed.

Lemma replace_length {A} (l : list A) k x : length (replace l k x) = length l.
Proof. revert k. induction l as [|y l IH]; intros [|k]; cbn; congruence. Qed.

Lemma assign_other deps : forall kmap ks j, ~ In j deps -> nth j (assign kmap deps ks) 0 = nth j kmap 0.
Proof.
  induction deps as [|d deps IH]; intros kmap ks j NI; [reflexivity|]. destruct ks as [|k ks]; [reflexivity|].
  cbn [assign]. rewrite IH by (intros X; apply NI; now right). rewrite replace_nth.
  destruct (Nat.eqb_spec j d) as [->|]; [destruct NI; now left|reflexivity].
Qed.

Lemma assign_deps deps : forall kmap ks, NoDup deps -> (forall d, In d deps -> d < length kmap) -> length ks = length deps ->
  Forall2 (fun d k => nth d (assign kmap deps ks) 0 = k) deps ks.
Proof.
  induction deps as [|d deps IH]; intros kmap ks ND LT LN; destruct ks as [|k ks]; try discriminate LN; constructor.
  - cbn [assign]. inversion ND as [|? ? N1 N2]; subst. rewrite assign_other by exact N1. rewrite replace_nth, Nat.eqb_refl.
    destruct (Nat.ltb_spec d (length kmap)) as [_|X]; [reflexivity|]. specialize (LT d (or_introl eq_refl)). lia.
  - cbn [assign]. inversion ND as [|? ? N1 N2]; subst. apply IH; [exact N2| |now injection LN].
    intros x X. rewrite replace_length. apply LT. now right.
Qed.

Lemma fold_max_ge l : forall k, k <= fold_left Nat.max l k /\ forall x, In x l -> x <= fold_left Nat.max l k.
Proof.
  induction l as [|y l IH]; intros k; cbn [fold_left]; [split; [lia|intros x []]|].
  destruct (IH (Nat.max k y)) as [H1 H2]. split; [lia|]. intros x [<-|X]; [lia|now apply H2].
Qed.

Lemma fold_max_le l b : forall k, k < b -> (forall x, In x l -> x < b) -> fold_left Nat.max l k < b.
Proof.
  induction l as [|y l IH]; intros k K H; cbn [fold_left]; [exact K|]. apply IH; [|intros x X; apply H; now right].
  specialize (H y (or_introl eq_refl)). lia.
Qed.

Lemma pages_mod u : (pages u mod 65536 = 0)%N.
Proof. unfold pages. apply N.mod_mul. discriminate. Qed.

Lemma pages_bound u : (N.of_nat u < 2 ^ 27)%N -> (pages u < 2 ^ 32)%N /\ u <= N.to_nat (pages u / 16).
Proof.
  intros U. unfold pages. set (q := ((N.of_nat u * 16 + 65535) / 65536)%N).
  assert (D := N.div_mod (N.of_nat u * 16 + 65535) 65536 ltac:(discriminate)). fold q in D.
  assert (M := N.mod_lt (N.of_nat u * 16 + 65535) 65536 ltac:(discriminate)).
  split; [lia|]. replace (q * 65536)%N with ((q * 4096) * 16)%N by lia. rewrite N.div_mul by discriminate. lia.
Qed.

Section Unit.
Variable names : ident -> list N.
Variable intern : list N -> ident.
Variable unnamed : ident.
Variable rg : registry.
Variable wfiles : list (list N).
Notation ok := (ident_fits names intern).
Hypothesis wfiles_fit : Forall name_fits wfiles.
Hypothesis wfiles_few : (Z.of_nat (length wfiles) < FILE_INVALID)%Z.
Variable wws : list arena.
Hypothesis wws_few : (N.of_nat (length wws) < 65535)%N.

Section Values.
Variable ws : list arena.
Variable own : nat.
Variable kmap : list nat.

Lemma saved_at a i : saved a i = file_position a i.
Proof.
  unfold saved, file_position, forwarded, find_at. destruct (a_fwd a) as [f|]; [|reflexivity].
  destruct (find _ f) as [[j [w|]]|]; reflexivity.
Qed.

Definition tk (k : nat) : nat := nth k kmap 0.
Definition tr (r : oref) : oref := moved wws tk r.

(* The reader can resolve the reference. *)
Definition good (r : oref) : Prop :=
  tk (fst r) <> 0 /\
  (tk (fst r) = own \/ exists a, nth_error ws (tk (fst r)) = Some a /\ snd (tr r) < extent rg a).

Lemma read_ref_ok x : (forall y, x = Some y -> ref_fits wws y) ->
  exists fs, write_ref wws x = Ok fs /\ Forall in_range fs /\
  forall r rest, r_buf r = encs fs ++ rest ->
    read_ref rg ws own kmap r = Ok (option_map tr x, with_buf r rest) \/
    (read_ref rg ws own kmap r = Fault /\ exists y, x = Some y /\ ~ good y).
Proof.
  destruct x as [[k i]|]; intros H; cbn [write_ref].
  - destruct (H _ eq_refl) as (K0 & a & NA & SV). cbn [fst snd] in *. rewrite NA, saved_at.
    destruct (Nat.eqb_spec k 0) as [|_]; [contradiction|].
    assert (LK : k < length wws) by (apply nth_error_Some; congruence).
    eexists. split; [reflexivity|]. split.
    { constructor; [cbn; lia|]. constructor; [cbn; lia|constructor]. }
    intros r rest E. rewrite encs_cons, encs_one, <- app_assoc in E. unfold read_ref.
    erewrite (get_un_ok _ (N.of_nat k)); [|lia|exact E]. cbn [bind].
    rewrite N.mod_small by lia. rewrite Nnat.Nat2N.id.
    destruct (Nat.eqb_spec k 0) as [|_]; [contradiction|].
    erewrite (get_un_ok _ (file_position a i)); [|lia|reflexivity]. cbn [bind]. rewrite with_buf_twice.
    unfold good, tr, moved, tk. cbn [fst snd option_map]. rewrite NA.
    destruct (nth_error kmap k) as [m|] eqn:NK.
    + rewrite (nth_error_nth _ _ 0 NK).
      destruct (Nat.eqb_spec m 0) as [M0|M0].
      { right. split; [reflexivity|]. eexists. split; [reflexivity|]. cbn [fst snd]. rewrite (nth_error_nth _ _ 0 NK). tauto. }
      destruct (Nat.eqb_spec m own) as [MO|MO]; [now left|].
      destruct (nth_error ws m) as [b|] eqn:NB.
      * destruct (Nat.ltb_spec (N.to_nat (file_position a i)) (extent rg b)) as [L|L]; [now left|].
        right. split; [reflexivity|]. eexists. split; [reflexivity|]. cbn [fst snd]. rewrite (nth_error_nth _ _ 0 NK), NA.
        intros (_ & [?|(b' & B1 & B2)]); [contradiction|]. rewrite NB in B1. injection B1 as <-. lia.
      * right. split; [reflexivity|]. eexists. split; [reflexivity|]. cbn [fst snd]. rewrite (nth_error_nth _ _ 0 NK).
        intros (_ & [?|(b' & B1 & B2)]); [contradiction|]. congruence.
    + right. split; [reflexivity|]. eexists. split; [reflexivity|]. cbn [fst snd].
      rewrite nth_overflow by (now apply nth_error_None). tauto.
  - eexists. split; [reflexivity|]. split; [constructor; [cbn; lia|constructor]|].
    intros r rest E. rewrite encs_one in E. left. unfold read_ref.
    erewrite (get_un_ok _ 0%N); [|lia|exact E]. reflexivity.
Qed.

Lemma read_refs_ok l : (forall y, In (Some y) l -> ref_fits wws y) ->
  exists fs, write_refs wws l = Ok fs /\ Forall in_range fs /\
  forall r rest, r_buf r = encs fs ++ rest ->
    read_refs rg ws own kmap (length l) r = Ok (map (option_map tr) l, with_buf r rest) \/
    (read_refs rg ws own kmap (length l) r = Fault /\ exists y, In (Some y) l /\ ~ good y).
Proof.
  induction l as [|x l IH]; intros H; cbn [write_refs length read_refs map].
  - exists []. split; [reflexivity|]. split; [constructor|]. intros r rest E. left. cbn in E. rewrite <- E. now destruct r.
  - destruct (read_ref_ok x) as (f1 & E1 & R1 & G1). { intros y ->. apply H. now left. }
    destruct IH as (f2 & E2 & R2 & G2). { intros y Y. apply H. now right. }
    rewrite E1, E2. cbn [bind]. eexists. split; [reflexivity|]. split; [apply Forall_app; split; assumption|].
    intros r rest E. rewrite encs_app, <- app_assoc in E.
    destruct (G1 r _ E) as [->|(-> & y & -> & Y)]; cbn [bind].
    + destruct (G2 (with_buf r (encs f2 ++ rest)) rest eq_refl) as [->|(-> & y & Y1 & Y2)]; cbn [bind].
      * now left.
      * right. split; [reflexivity|]. exists y. split; [now right|exact Y2].
    + right. split; [reflexivity|]. exists y. split; [now left|exact Y].
Qed.

Lemma read_oitem_ok t it w : fits t it -> value_fits ok wws it -> (Z.of_nat (length (w_seen w)) < BOUND)%Z ->
  exists fs w', write_oitem names wws t it w = Ok (fs, w') /\ Forall in_range fs /\
    length (w_seen w') <= length (w_seen w) + 1 /\
  forall r rest, sync wfiles w r -> r_buf r = encs fs ++ rest ->
    (exists it' r', read_oitem intern rg ws own kmap t r = Ok (it', r') /\ r_buf r' = rest /\ sync wfiles w' r' /\
       r_files r' = r_files r /\ same_value tr it it') \/
    (read_oitem intern rg ws own kmap t r = Fault /\ exists y, item_refers it y /\ ~ good y).
Proof.
  intros F V B.
  destruct t as [[]|], it as [i|o|l|z|d|x|n]; cbn in F; try contradiction; cbn [write_oitem read_oitem value_fits] in *.
  - destruct (write_ident names i w) as [fs w'] eqn:W.
    assert (G := fun r rest S E => read_ident_ok names intern wfiles i w r rest fs w' W V S B E).
    exists fs, w'. split; [reflexivity|].
    assert (RG : Forall in_range fs /\ length (w_seen w') <= length (w_seen w) + 1).
    { destruct (G (Rctx (encs fs ++ []) (w_index w) wfiles (repeat FILE_INVALID (length wfiles)) (w_line w) (w_column w) (w_ldelta w) (w_cdelta w)
          (None :: map Some (w_seen w)) []) []) as (? & ? & ? & ? & ? & ? & ?).
      - split; try reflexivity. destruct (w_index w); [|exact wfiles_few]. cbn [r_map r_refs r_files].
        split; [reflexivity|]. split; [apply refs_repeat|]. rewrite unknown_repeat. exact wfiles_few.
      - reflexivity.
      - auto. }
    destruct RG as [RG L]. split; [exact RG|]. split; [exact L|].
    intros r rest S E. left. destruct (G r rest S E) as (r' & E' & B' & S' & F' & _). rewrite E'. cbn [bind].
    eexists _, _. split; [reflexivity|]. repeat (split; [assumption|]). reflexivity.
  - destruct (read_ref_ok o V) as (fs & E & R & G). rewrite E. cbn [bind]. exists fs, w. split; [reflexivity|].
    split; [exact R|]. split; [lia|]. intros r rest S E'. destruct (G r rest E') as [->|(-> & y & -> & Y)]; cbn [bind].
    + left. eexists _, _. split; [reflexivity|]. split; [reflexivity|]. split; [now apply sync_buf|]. split; reflexivity.
    + right. split; [reflexivity|]. exists y. split; [now left|exact Y].
  - destruct V as [LN V]. destruct l as [l|]; cbn [members] in *.
    + destruct (read_refs_ok l V) as (fs & E & R & G). rewrite E. cbn [bind].
      eexists _, w. split; [reflexivity|]. split; [constructor; [cbn; lia|exact R]|]. split; [lia|].
      intros r rest S E'. rewrite encs_cons, <- app_assoc in E'. erewrite (get_un_ok _ (N.of_nat (length l))); [|lia|exact E']. cbn [bind].
      rewrite N.mod_small by exact LN. rewrite Nnat.Nat2N.id.
      destruct (Nat.eqb_spec (length l) 0) as [L0|L0].
      * destruct l as [|]; [|discriminate]. cbn [write_refs] in E. injection E as <-. left.
        eexists _, _. split; [reflexivity|]. split; [reflexivity|]. split; [now apply sync_buf|]. split; reflexivity.
      * destruct (G (with_buf r (encs fs ++ rest)) rest eq_refl) as [->|(-> & y & Y1 & Y2)]; cbn [bind].
        -- left. eexists _, _. split; [reflexivity|]. split; [reflexivity|]. split; [now apply sync_buf, sync_buf|]. split; reflexivity.
        -- right. split; [reflexivity|]. exists y. split; [right; exists l; split; [reflexivity|exact Y1]|exact Y2].
    + eexists _, w. split; [reflexivity|]. split; [constructor; [cbn; lia|constructor]|]. split; [lia|].
      intros r rest S E'. rewrite encs_one in E'. left. erewrite (get_un_ok _ 0%N); [|lia|exact E']. cbn [bind].
      change (N.to_nat (0 mod 2 ^ 32) =? 0) with true. cbv iota.
      eexists _, _. split; [reflexivity|]. split; [reflexivity|]. split; [now apply sync_buf|]. split; reflexivity.
  - eexists _, w. split; [reflexivity|]. split; [constructor; [exact V|constructor]|]. split; [lia|].
    intros r rest S E'. rewrite encs_one in E'. left. erewrite get_int_ok; [|exact V|exact E']. cbn [bind].
    eexists _, _. split; [reflexivity|]. split; [reflexivity|]. split; [now apply sync_buf|]. split; reflexivity.
  - eexists _, w. split; [reflexivity|]. split; [constructor; [exact V|constructor]|]. split; [lia|].
    intros r rest S E'. rewrite encs_one in E'. left. erewrite get_u64_ok; [|exact V|exact E']. cbn [bind].
    eexists _, _. split; [reflexivity|]. split; [reflexivity|]. split; [now apply sync_buf|]. split; reflexivity.
  - destruct V as (bs & -> & NB & NL).
    eexists _, w. split; [reflexivity|]. split.
    { constructor; [cbn; lia|]. constructor; [|constructor]. cbn. split; [|exact NL].
      eapply Forall_impl; [|exact NB]. intros b [_ ?]. assumption. }
    split; [lia|].
    intros r rest S E'. rewrite encs_cons, encs_one, <- app_assoc in E'. left. erewrite (get_un_ok _ (N.of_nat (length bs))); [|lia|exact E']. cbn [bind].
    rewrite Nnat.Nat2N.id. erewrite (get_raw_ok names intern wfiles _ _ bs); [|reflexivity|reflexivity]. cbn [bind].
    eexists _, _. split; [reflexivity|]. split; [reflexivity|]. split; [now apply sync_buf, sync_buf|]. split; reflexivity.
  - destruct V as (y & -> & WN). eexists _, w. split; [reflexivity|]. split; [now apply write_range|]. split; [lia|].
    intros r rest S E'. left. rewrite E'. unfold encs. rewrite read_ok by exact WN. cbn [bind].
    eexists _, _. split; [reflexivity|]. split; [reflexivity|]. split; [now apply sync_buf|]. split; reflexivity.
Qed.

Lemma read_oitems_ok has items :
  (forall bit, bit < 64 -> tb has bit = true ->
     exists it, nth_error items (rank has bit) = Some it /\ fits (type_of_bit bit) it /\ value_fits ok wws it) ->
  forall k b w, b + k = 64 -> (Z.of_nat (length (w_seen w) + k) <= BOUND)%Z ->
  exists fs w', write_oitems names wws (List.seq b k) has (skipn (rank has b) items) w = Ok (fs, w') /\
    Forall in_range fs /\ length (w_seen w') <= length (w_seen w) + k /\
  forall r rest, sync wfiles w r -> r_buf r = encs fs ++ rest ->
    (exists its r', read_oitems intern rg ws own kmap (List.seq b k) has r = Ok (its, r') /\ r_buf r' = rest /\
       sync wfiles w' r' /\ r_files r' = r_files r /\
       forall bit it, b <= bit < 64 -> tb has bit = true -> nth_error items (rank has bit) = Some it ->
         exists it', nth_error its (rank has bit - rank has b) = Some it' /\ same_value tr it it') \/
    (read_oitems intern rg ws own kmap (List.seq b k) has r = Fault /\
     exists bit it y, bit < 64 /\ tb has bit = true /\ nth_error items (rank has bit) = Some it /\ item_refers it y /\ ~ good y).
Proof.
  intros W. induction k as [|k IH]; intros b w B BB; cbn [List.seq write_oitems read_oitems].
  - exists [], w. split; [reflexivity|]. split; [constructor|]. split; [lia|]. intros r rest SY E. left.
    exists [], r. split; [reflexivity|]. split; [exact E|]. split; [exact SY|]. split; [reflexivity|]. intros. lia.
  - assert (RS := rank_S has b). fold (tb has b). destruct (tb has b) eqn:T.
    + destruct (W b ltac:(lia) T) as (it & NI & FI & VI).
      rewrite (skipn_cons _ _ _ NI). replace (S (rank has b)) with (rank has (S b)) by lia.
      destruct (read_oitem_ok _ _ w FI VI ltac:(lia)) as (f1 & w1 & E1 & R1 & L1 & G1). rewrite E1. cbn [bind].
      destruct (IH (S b) w1 ltac:(lia) ltac:(lia)) as (f2 & w2 & E2 & R2 & L2 & G2). rewrite E2. cbn [bind].
      exists (f1 ++ f2), w2. split; [reflexivity|]. split; [apply Forall_app; split; assumption|]. split; [lia|].
      intros r rest SY E. rewrite encs_app, <- app_assoc in E.
      destruct (G1 r _ SY E) as [(it' & r1 & -> & B1 & S1 & F1 & SV)|(-> & y & Y1 & Y2)]; cbn [bind].
      * destruct (G2 r1 rest S1 B1) as [(its & r2 & -> & B2 & S2 & F2 & SVs)|(-> & Y)]; cbn [bind].
        -- left. exists (it' :: its), r2. split; [reflexivity|]. split; [exact B2|]. split; [exact S2|]. split; [congruence|].
           intros bit it0 BR TB NB. destruct (Nat.eq_dec bit b) as [->|NE].
           ++ rewrite NI in NB. injection NB as <-. exists it'. rewrite Nat.sub_diag. split; [reflexivity|exact SV].
           ++ destruct (SVs bit it0 ltac:(lia) TB NB) as (it2 & N2 & SV2). exists it2. split; [|exact SV2].
              assert (M := rank_lt has b bit ltac:(lia) T).
              replace (rank has bit - rank has b) with (S (rank has bit - rank has (S b))) by lia. exact N2.
        -- right. split; [reflexivity|exact Y].
      * right. split; [reflexivity|]. exists b, it, y. repeat split; try assumption; lia.
    + replace (rank has b) with (rank has (S b)) by lia.
      destruct (IH (S b) w ltac:(lia) ltac:(lia)) as (f2 & w2 & E2 & R2 & L2 & G2).
      exists f2, w2. split; [exact E2|]. split; [exact R2|]. split; [lia|].
      intros r rest SY E. destruct (G2 r rest SY E) as [(its & r2 & -> & B2 & S2 & F2 & SVs)|(-> & Y)].
      * left. exists its, r2. split; [reflexivity|]. split; [exact B2|]. split; [exact S2|]. split; [exact F2|].
        intros bit it0 BR TB NB. destruct (Nat.eq_dec bit b) as [->|NE]; [congruence|]. apply SVs; [lia|exact TB|exact NB].
      * right. split; [reflexivity|exact Y].
Qed.

Lemma hdr_split tag kind : tag < 4 -> (N.of_nat kind < 16383)%N ->
  let h := N.lor (N.of_nat tag) (N.shiftl (N.of_nat kind) 2) in
  N.land h 3 = N.of_nat tag /\ N.shiftr h 2 = N.of_nat kind /\ (h < 65535)%N.
Proof.
  intros T K h. subst h.
  assert (E : N.lor (N.of_nat tag) (N.shiftl (N.of_nat kind) 2) = (N.of_nat kind * 4 + N.of_nat tag)%N).
  { rewrite N.shiftl_mul_pow2. change (2 ^ 2)%N with 4%N. rewrite N.lor_comm.
    rewrite <- N.lxor_lor, <- N.add_nocarry_lxor; [reflexivity| |].
    all: apply N.bits_inj; intros i; rewrite N.land_spec, N.bits_0;
      change 4%N with (2 ^ 2)%N; rewrite <- N.shiftl_mul_pow2;
      destruct (N.lt_ge_cases i 2) as [L|L];
      [rewrite N.shiftl_spec_low by exact L; reflexivity|];
      apply andb_false_iff; right;
      destruct (N.eq_dec (N.of_nat tag) 0) as [->|T0]; [apply N.bits_0|];
      apply N.bits_above_log2;
      assert (LG : (N.log2 (N.of_nat tag) < 2)%N) by (apply N.log2_lt_pow2; [lia|change (2 ^ 2)%N with 4%N; lia]);
      lia. }
  rewrite E. split; [|split].
  - change 3%N with (N.ones 2). rewrite N.land_ones. change (2 ^ 2)%N with 4%N.
    rewrite N.add_comm, N.mod_add by lia. apply N.mod_small. lia.
  - rewrite N.shiftr_div_pow2. change (2 ^ 2)%N with 4%N. rewrite N.div_add_l by lia.
    rewrite N.div_small by lia. lia.
  - lia.
Qed.

Lemma read_object_ok o w : well_typed rg o -> object_fits rg ok wws wfiles o ->
  (Z.of_nat (length (w_seen w) + 64) <= BOUND)%Z ->
  exists hdr fs w', write_object names rg wfiles wws o w = Ok (FUint hdr :: fs, w') /\ (hdr < 65535)%N /\
    Forall in_range fs /\ length (w_seen w') <= length (w_seen w) + 64 /\
  forall r rest, sync wfiles w r -> r_buf r = encs fs ++ rest ->
    (exists o' r', read_object intern rg ws own kmap hdr r = Ok (o', r') /\ r_buf r' = rest /\
       sync wfiles w' r' /\ prefix (r_files r) (r_files r') /\
       forall g, prefix (r_files r') g -> same_object rg tr wfiles g o o') \/
    (read_object intern rg ws own kmap hdr r = Fault /\ exists y, refers rg (N.ones 64) o y /\ ~ good y).
Proof.
  intros WT [OT OK OKS OL OI] BB. unfold write_object.
  assert (H : exists f1 w1, (if c_loc (class_of rg (o_tag o)) then write_loc wfiles (o_loc o) w else ([], w)) = (f1, w1) /\
    Forall in_range f1 /\ w_seen w1 = w_seen w /\
    forall r rest, sync wfiles w r -> r_buf r = encs f1 ++ rest ->
    exists l' r1, (if c_loc (class_of rg (o_tag o)) then read_loc r else Ok (no_loc, r)) = Ok (l', r1) /\ r_buf r1 = rest /\
      sync wfiles w1 r1 /\ prefix (r_files r) (r_files r1) /\
      (forall g, prefix (r_files r1) g -> c_loc (class_of rg (o_tag o)) = true -> same_place wfiles g (o_loc o) l')).
  { destruct (c_loc (class_of rg (o_tag o))) eqn:CL.
    - destruct (write_loc wfiles (o_loc o) w) as [f1 w1] eqn:W. exists f1, w1. split; [reflexivity|].
      assert (G := fun r rest S E => read_loc_ok names intern wfiles wfiles_fit wfiles_few (o_loc o) w r rest f1 w1 W (OL eq_refl) S E).
      assert (RG : Forall in_range f1 /\ w_seen w1 = w_seen w).
      { destruct (G (Rctx (encs f1 ++ []) (w_index w) wfiles (repeat FILE_INVALID (length wfiles)) (w_line w) (w_column w) (w_ldelta w) (w_cdelta w)
          (None :: map Some (w_seen w)) []) []) as (? & ? & ? & ? & ? & ? & ? & ? & ?).
        - split; try reflexivity. destruct (w_index w); [|exact wfiles_few]. cbn [r_map r_refs r_files].
          split; [reflexivity|]. split; [apply refs_repeat|]. rewrite unknown_repeat. exact wfiles_few.
        - reflexivity.
        - auto. }
      destruct RG as [RG L]. split; [exact RG|]. split; [exact L|].
      intros r rest SY E. destruct (G r rest SY E) as (l' & r' & E' & B' & S' & P' & SP & _).
      exists l', r'. repeat (split; [assumption|]). intros g Pg _. now apply SP.
    - exists [], w. split; [reflexivity|]. split; [constructor|]. split; [reflexivity|]. intros r rest SY E.
      exists no_loc, r. split; [reflexivity|]. split; [exact E|]. split; [exact SY|]. split; [apply prefix_refl|]. discriminate. }
  destruct H as (f1 & w1 & E1 & R1 & L1 & G1). rewrite E1.
  destruct (read_oitems_ok (obj_has rg o) (o_items o)) with (k := 64) (b := 0) (w := w1) as (f2 & w2 & E2 & R2 & L2 & G2).
  { intros bit B T. destruct (WT bit B T) as (it & E & F). exists it.
    assert (V := OI bit it B E). apply lookup_item_slot in E; [|exact B]. split; [apply E|]. split; assumption. }
  { reflexivity. } { rewrite L1. exact BB. }
  change (skipn (rank (obj_has rg o) 0) (o_items o)) with (o_items o) in E2. rewrite E2. cbn [bind].
  assert (KB : (N.of_nat (o_kind o) < 16383)%N) by lia.
  destruct (hdr_split (o_tag o) (o_kind o) OT KB) as (H1 & H2 & H3).
  eexists _, (f1 ++ f2), w2. split; [reflexivity|]. split; [exact H3|]. split; [apply Forall_app; split; assumption|]. split; [rewrite <- L1; exact L2|].
  intros r rest SY E. rewrite encs_app, <- app_assoc in E. unfold read_object. rewrite H1, H2.
  rewrite (N.mod_small (N.of_nat (o_kind o))) by lia. rewrite !Nnat.Nat2N.id.
  destruct (Nat.leb_spec (length (c_has (class_of rg (o_tag o)))) (o_kind o)) as [X|_]; [lia|].
  destruct (G1 r _ SY E) as (l' & r1 & -> & B1 & S1 & P1 & SP). cbn [bind].
  fold (obj_has rg o).
  destruct (G2 r1 rest S1 B1) as [(its & r2 & -> & B2 & S2 & F2 & SV)|(-> & bit & it & y & Y1 & Y2 & Y3 & Y4 & Y5)]; cbn [bind].
  - left. eexists _, r2. split; [reflexivity|]. split; [exact B2|]. split; [exact S2|]. split; [now rewrite F2|].
    intros g Pg. split; cbn [o_tag o_kind o_loc o_items]; try reflexivity.
    + intros CL. apply SP; [|exact CL]. now rewrite <- F2.
    + intros bit it B LI. unfold obj_has. cbn [o_tag o_kind]. fold (obj_has rg o).
      apply lookup_item_slot in LI; [|exact B]. destruct LI as [T NI].
      destruct (SV bit it ltac:(lia) T NI) as (it' & NI' & SV'). exists it'. split; [|exact SV'].
      apply lookup_item_slot; [exact B|]. split; [exact T|].
      change (rank (obj_has rg o) 0) with 0 in NI'. rewrite Nat.sub_0_r in NI'.
      rewrite nth_error_app1; [exact NI'|]. apply nth_error_Some. congruence.
  - right. split; [reflexivity|]. exists y. split; [|exact Y5]. exists bit, it. split; [exact Y1|].
    split; [apply N.ones_spec_low; lia|]. split; [apply lookup_item_slot; auto|exact Y4].
Qed.

Lemma same_units o o' g : same_object rg tr wfiles g o o' -> units rg o' = units rg o.
Proof. intros [T K _ _]. unfold units. now rewrite T, K. Qed.

Definition keeps (fwd : list (nat * option nat)) (l : list (nat * object)) : list object :=
  map snd (filter (fun p => is_some (forwarded fwd (fst p))) l).

Lemma read_objects_ok fwd l : forall w,
  (forall o, In o (keeps fwd l) -> well_typed rg o /\ object_fits rg ok wws wfiles o) ->
  (Z.of_nat (length (w_seen w) + 64 * length l) <= BOUND)%Z ->
  exists fs w', write_objects names rg wfiles wws fwd l w = Ok (fs, w') /\
    Forall in_range fs /\
    length (keeps fwd l) <= length (encs fs) /\
  forall r rest left fuel, sync wfiles w r -> r_buf r = encs fs ++ enc (FUint END_OF_OBJECTS) ++ rest ->
    list_sum (map (units rg) (keeps fwd l)) <= left -> length (keeps fwd l) < fuel ->
    (exists objs r', read_objects intern rg fuel ws own kmap left r = Ok (objs, r') /\ r_buf r' = rest /\
       prefix (r_files r) (r_files r') /\
       Forall2 (same_object rg tr wfiles (r_files r')) (keeps fwd l) objs) \/
    (read_objects intern rg fuel ws own kmap left r = Fault /\
     exists o y, In o (keeps fwd l) /\ refers rg (N.ones 64) o y /\ ~ good y).
Proof.
  induction l as [|[i o] l IH]; intros w OB BB; cbn [write_objects].
  - exists [], w. split; [reflexivity|]. split; [constructor|]. split; [cbn; lia|].
    intros r rest left fuel SY E _ F. left. destruct fuel as [|f]; [lia|]. cbn [read_objects].
    erewrite (get_un_ok _ END_OF_OBJECTS); [|reflexivity|exact E]. cbn [bind].
    change (END_OF_OBJECTS =? END_OF_OBJECTS)%N with true. cbv iota.
    eexists _, _. split; [reflexivity|]. split; [reflexivity|]. split; [apply prefix_refl|constructor].
  - unfold keeps in *. cbn [filter fst] in *. destruct (forwarded fwd i) as [v|] eqn:FI; cbn [is_some] in *.
    + cbn [map snd length] in *.
      destruct (OB o (or_introl eq_refl)) as [WT OF].
      destruct (read_object_ok o w WT OF ltac:(lia)) as (hdr & f1 & w1 & E1 & HB & R1 & L1 & G1).
      rewrite E1. cbn [bind].
      destruct (IH w1) as (f2 & w2 & E2 & R2 & K2 & G2). { intros x X. apply OB. now right. } { lia. }
      rewrite E2. cbn [bind]. eexists _, w2. split; [reflexivity|].
      split; [cbn [app]; constructor; [cbn; lia|apply Forall_app; split; assumption]|]. split.
      { cbn [app]. rewrite encs_cons, encs_app, !app_length. cbn [enc]. assert (X := leb_nonempty hdr). lia. }
      intros r rest left fuel SY E U F. cbn [app] in E. rewrite encs_cons, encs_app, <- !app_assoc in E.
      destruct fuel as [|f]; [lia|]. cbn [read_objects].
      erewrite (get_un_ok _ hdr); [|lia|exact E]. cbn [bind].
      destruct (N.eqb_spec hdr END_OF_OBJECTS) as [X|_]; [unfold END_OF_OBJECTS in X; lia|].
      assert (U' : units rg o + list_sum (map (units rg) (map snd (filter (fun p => is_some (forwarded fwd (fst p))) l))) <= left) by exact U.
      destruct (G1 (with_buf r (encs f1 ++ encs f2 ++ enc (FUint END_OF_OBJECTS) ++ rest)) _ (sync_buf _ _ _ _ SY) eq_refl)
        as [(o' & r1 & -> & B1 & S1 & P1 & SO)|(-> & y & Y1 & Y2)]; cbn [bind].
      * assert (UO : units rg o' = units rg o) by (eapply same_units; apply SO; apply prefix_refl). rewrite UO.
        destruct (Nat.ltb_spec left (units rg o)) as [X|_]; [lia|].
        destruct (G2 r1 rest (left - units rg o) f S1 B1 ltac:(lia) ltac:(lia))
          as [(objs & r2 & -> & B2 & P2 & F2)|(-> & x & y & Y1 & Y2 & Y3)]; cbn [bind].
        -- left. exists (o' :: objs), r2. split; [reflexivity|]. split; [exact B2|].
           split; [eapply prefix_trans; [exact P1|exact P2]|]. constructor; [now apply SO|exact F2].
        -- right. split; [reflexivity|]. exists x, y. split; [now right|]. split; assumption.
      * right. split; [reflexivity|]. exists o, y. split; [now left|]. split; assumption.
    + cbn [length] in BB. destruct (IH w OB ltac:(lia)) as (f2 & w2 & E2 & R2 & K2 & G2).
      exists f2, w2. split; [exact E2|]. split; [exact R2|]. split; [exact K2|exact G2].
Qed.

End Values.

(* ---- dependencies ---- *)

Lemma same_ident_spec a b : same_ident a b = true <-> a = b.
Proof.
  destruct a as [x|], b as [y|]; cbn; rewrite ?Nat.eqb_eq; split; intros H; try discriminate; try congruence.
Qed.

Lemma search_some dep l : forall i k, search unnamed rg l i dep = Ok (Some k) ->
  i <= k /\ exists a, nth_error l (k - i) = Some a /\ goes_by rg unnamed a dep.
Proof.
  induction l as [|a l IH]; intros i k H; cbn [search] in H; [discriminate|]. unfold goes_by.
  destruct (name_of unnamed rg (a_objs a)) as [n|] eqn:NM; cbn [bind] in H; [|discriminate].
  destruct (same_ident dep n) eqn:SI.
  - injection H as <-. apply same_ident_spec in SI. subst n. split; [lia|]. exists a. rewrite Nat.sub_diag. auto.
  - apply IH in H. destruct H as (L & b & NB & GB). split; [lia|]. exists b.
    replace (k - i) with (S (k - S i)) by lia. auto.
Qed.

Lemma search_first dep l : forall i k, i <= k -> (exists a, nth_error l (k - i) = Some a /\ goes_by rg unnamed a dep) ->
  (forall j a, i <= j < k -> nth_error l (j - i) = Some a -> exists m, goes_by rg unnamed a m /\ m <> dep) ->
  search unnamed rg l i dep = Ok (Some k).
Proof.
  induction l as [|a l IH]; intros i k L (b & NB & GB) FR; [destruct (k - i); discriminate NB|]. cbn [search].
  destruct (Nat.eq_dec k i) as [->|NE].
  - rewrite Nat.sub_diag in NB. injection NB as ->. unfold goes_by in GB. rewrite GB. cbn [bind].
    now rewrite (proj2 (same_ident_spec dep dep) eq_refl).
  - destruct (FR i a) as (m & GM & NM); [lia|now rewrite Nat.sub_diag|]. unfold goes_by in GM. rewrite GM. cbn [bind].
    destruct (same_ident dep m) eqn:SI; [apply same_ident_spec in SI; congruence|].
    apply IH; [lia| |].
    + exists b. split; [|exact GB]. replace (k - i) with (S (k - S i)) in NB by lia. exact NB.
    + intros j a' J NJ. apply (FR j a'); [lia|]. replace (j - i) with (S (j - S i)) by lia. exact NJ.
Qed.

Lemma search_none dep l : forall i,
  (forall j a, nth_error l j = Some a -> exists m, goes_by rg unnamed a m /\ m <> dep) ->
  search unnamed rg l i dep = Ok None.
Proof.
  induction l as [|a l IH]; intros i FR; [reflexivity|]. cbn [search].
  destruct (FR 0 a eq_refl) as (m & GM & NM). unfold goes_by in GM. rewrite GM. cbn [bind].
  destruct (same_ident dep m) eqn:SI; [apply same_ident_spec in SI; congruence|].
  apply IH. intros j a' NJ. now apply (FR (S j) a').
Qed.

Lemma nth_error_tl {A} (l : list A) j : nth_error (tl l) j = nth_error l (S j).
Proof. destruct l; [now destruct j|reflexivity]. Qed.

Notation found_dep ws' := (same_unit rg unnamed wws ws').
Notation descr := (described rg unnamed wws).

Lemma available_length loader ws xs ws' ks : available rg unnamed loader ws xs ws' ks -> length ks = length xs.
Proof. induction 1; cbn; congruence. Qed.

Definition dep_named (k : nat) : Prop :=
  k <> 0 /\ exists d n, nth_error wws k = Some d /\ goes_by rg unnamed d n /\ (forall i, n = Some i -> ok i) /\
    (a_std d < 2 ^ 32)%N /\ (a_checksum d < 2 ^ 32)%N.

Lemma read_deps_ok deps : forall w, (forall k, In k deps -> dep_named k) ->
  (Z.of_nat (length (w_seen w) + length deps) <= BOUND)%Z ->
  exists fs w', write_deps names unnamed rg wws deps w = Ok (fs, w') /\ Forall in_range fs /\
    length (w_seen w') <= length (w_seen w) + length deps /\
  forall loader ws kmap r rest, sync wfiles w r -> r_buf r = encs fs ++ rest ->
    (forall ws' ks kmap' r', loads rg unnamed loader ->
       read_deps intern unnamed rg loader (length deps) ws kmap r = Ok (ws', ks, kmap', r') ->
       r_buf r' = rest /\ sync wfiles w' r' /\ r_files r' = r_files r /\ (exists more, ws' = ws ++ more) /\
       kmap' = assign kmap deps ks /\ Forall2 (found_dep ws') deps ks /\ (forall k, In k deps -> k < length kmap)) /\
    (forall xs ws' ks, Forall2 descr deps xs -> available rg unnamed loader ws xs ws' ks ->
       (forall k, In k deps -> k < length kmap) ->
       exists r', read_deps intern unnamed rg loader (length deps) ws kmap r = Ok (ws', ks, assign kmap deps ks, r') /\
         r_buf r' = rest /\ sync wfiles w' r' /\ r_files r' = r_files r).
Proof.
  induction deps as [|k deps IH]; intros w DN BB; cbn [write_deps length].
  - exists [], w. split; [reflexivity|]. split; [constructor|]. split; [lia|].
    intros loader ws kmap r rest SY E. cbn [read_deps]. split.
    + intros ws' ks kmap' r' _ H. injection H as <- <- <- <-. split; [exact E|]. split; [exact SY|]. split; [reflexivity|].
      split; [exists []; now rewrite app_nil_r|]. split; [reflexivity|]. split; [constructor|intros k []].
    + intros xs ws' ks F2 AV _. inversion F2; subst. inversion AV; subst. exists r. cbn [assign]. auto.
  - destruct (DN k (or_introl eq_refl)) as (K0 & d & n & ND & GN & NOK & SB & CB). rewrite ND. unfold goes_by in GN. rewrite GN. cbn [bind].
    assert (LK : k < length wws) by (apply nth_error_Some; congruence).
    destruct (write_ident names n w) as [f1 w1] eqn:W.
    cbn [length] in BB. assert (B0 : (Z.of_nat (length (w_seen w)) < BOUND)%Z) by lia.
    assert (G := fun r rest SY E => read_ident_ok names intern wfiles n w r rest f1 w1 W NOK SY B0 E).
    assert (RG : Forall in_range f1 /\ length (w_seen w1) <= length (w_seen w) + 1).
    { destruct (G (Rctx (encs f1 ++ []) (w_index w) wfiles (repeat FILE_INVALID (length wfiles)) (w_line w) (w_column w) (w_ldelta w) (w_cdelta w)
          (None :: map Some (w_seen w)) []) []) as (? & ? & ? & ? & ? & ? & ?).
      - split; try reflexivity. destruct (w_index w); [|exact wfiles_few]. cbn [r_map r_refs r_files].
        split; [reflexivity|]. split; [apply refs_repeat|]. rewrite unknown_repeat. exact wfiles_few.
      - reflexivity.
      - auto. }
    destruct RG as [RG L1].
    destruct (IH w1) as (f2 & w2 & E2 & R2 & L2 & G2). { intros x X. apply DN. now right. } { lia. }
    rewrite E2. cbn [bind]. eexists _, w2. split; [reflexivity|]. split.
    { repeat (constructor; [cbn; lia|]). apply Forall_app. split; assumption. }
    split; [lia|].
    intros loader ws kmap r rest SY E. rewrite !encs_cons, encs_app, <- !app_assoc in E. cbn [read_deps].
    rewrite (get_un_ok r (N.of_nat k) _ ltac:(lia) E). cbn [bind].
    erewrite (get_un_ok _ (a_std d)); [|lia|reflexivity]. cbn [bind].
    erewrite (get_un_ok _ (a_checksum d)); [|lia|reflexivity]. cbn [bind].
    rewrite !with_buf_twice.
    destruct (G (with_buf r (encs f1 ++ encs f2 ++ rest)) _ (sync_buf _ _ _ _ SY) eq_refl) as (r1 & -> & B1 & S1 & F1 & _ & _).
    cbn [bind]. cbn [r_files with_buf] in F1.
    rewrite !(N.mod_small (a_std d)), !(N.mod_small (a_checksum d)) by lia.
    rewrite (N.mod_small (N.of_nat k)) by lia. rewrite Nnat.Nat2N.id.
    split.
    + intros ws' ks kmap' r' LD H.
      destruct (search unnamed rg (tl ws) 1 n) as [found|] eqn:SE; cbn [bind] in H; [|discriminate].
      assert (FD : exists ws1 m a, match found with
                     | Some k => Ok (ws, k)
                     | None => match n with
                               | None => Fault
                               | Some d => match loader ws d with Some x => Ok x | None => Fault end
                               end end = Ok (ws1, m) /\ (exists more, ws1 = ws ++ more) /\ m <> 0 /\
               nth_error ws1 m = Some a /\ goes_by rg unnamed a n).
      { destruct found as [m|].
        - apply search_some in SE. destruct SE as (L & a & NA & GA). exists ws, m, a. split; [reflexivity|].
          split; [exists []; now rewrite app_nil_r|]. split; [lia|]. split; [|exact GA].
          rewrite nth_error_tl in NA. replace (S (m - 1)) with m in NA by lia. exact NA.
        - destruct n as [nd|]; [|discriminate]. destruct (loader ws nd) as [[ws1 m]|] eqn:LE; [|discriminate].
          destruct (LD _ _ _ _ LE) as (PX & M0 & a & NA & GA). exists ws1, m, a. auto. }
      destruct FD as (ws1 & m & a & FE & (more & ->) & M0 & NA & GA). rewrite FE in H. cbn [bind] in H. rewrite NA in H.
      destruct (N.eqb_spec (a_std a) (a_std d)) as [ES|]; [|discriminate]. cbn [negb] in H.
      destruct (N.eqb_spec (a_checksum a) (a_checksum d)) as [EC|]; [|discriminate]. cbn [negb] in H.
      destruct (Nat.leb_spec (length kmap) k) as [|LM]; [discriminate|].
      destruct (read_deps intern unnamed rg loader (length deps) (ws ++ more) (replace kmap k m) r1) as [[[[ws2 ks2] km2] r2]|] eqn:RD;
        cbn [bind] in H; [|discriminate]. injection H as <- <- <- <-.
      destruct (proj1 (G2 loader _ _ r1 rest S1 B1) _ _ _ _ LD RD) as (A1 & A2 & A3 & (m2 & ->) & A5 & A6 & A7).
      split; [exact A1|]. split; [exact A2|]. split; [congruence|]. split; [exists (more ++ m2); now rewrite app_assoc|].
      split; [exact A5|]. split.
      * constructor; [|exact A6]. split; [exact M0|]. exists d, a, n. split; [exact ND|]. split.
        { rewrite nth_error_app1; [exact NA|]. apply nth_error_Some. congruence. }
        split; [exact GN|]. split; [exact GA|]. split; assumption.
      * intros x [<-|X]; [exact LM|]. rewrite replace_length in A7. now apply A7.
    + intros xs ws' ks F2 AV LT. inversion F2 as [|? x ? xs' DX F2' EQ1 EQ2]; subst.
      destruct DX as (d0 & ND0 & GD & SD & CD). rewrite ND in ND0. injection ND0 as <-.
      assert (NN : fst (fst x) = n) by (unfold goes_by in GD; congruence).
      assert (LM := LT k (or_introl eq_refl)).
      assert (LT' : forall m x, In x deps -> x < length (replace kmap k m)) by (intros m y Y; rewrite replace_length; apply LT; now right).
      inversion AV as [|? n0 s c ? m a ? ks' FC NA EA EB AV'|? dd s c ? m a ws1 ? ks' NC LE NA EA EB AV']; subst; cbn [fst snd] in *.
      * destruct FC as (M1 & (b & NB & GB) & FR).
        rewrite (search_first n0 (tl ws) 1 m M1); cbn [bind].
        -- rewrite NA, SD, CD, !N.eqb_refl. cbn [negb].
           destruct (Nat.leb_spec (length kmap) k) as [|_]; [lia|].
           destruct (proj2 (G2 loader ws (replace kmap k m) r1 rest S1 B1) xs' ws' ks' F2' AV' (LT' m)) as (r' & E' & A1 & A2 & A3).
           rewrite E'. cbn [bind]. exists r'. split; [reflexivity|]. split; [exact A1|]. split; [exact A2|congruence].
        -- exists b. split; [|exact GB]. rewrite nth_error_tl. replace (S (m - 1)) with m by lia. exact NB.
        -- intros j a' J NJ. apply (FR j a'); [lia|]. rewrite nth_error_tl in NJ. replace (S (j - 1)) with j in NJ by lia. exact NJ.
      * rewrite (search_none (Some dd) (tl ws) 1); cbn [bind].
        -- rewrite LE. cbn [bind]. rewrite NA, SD, CD, !N.eqb_refl. cbn [negb].
           destruct (Nat.leb_spec (length kmap) k) as [|_]; [lia|].
           destruct (proj2 (G2 loader ws1 (replace kmap k m) r1 rest S1 B1) xs' ws' ks' F2' AV' (LT' m)) as (r' & E' & A1 & A2 & A3).
           rewrite E'. cbn [bind]. exists r'. split; [reflexivity|]. split; [exact A1|]. split; [exact A2|congruence].
        -- intros j a' NJ. apply (NC (S j) a'); [lia|]. now rewrite nth_error_tl in NJ.
Qed.

(* ---- the unit ---- *)

Lemma replace_app {A} (l : list A) x y m : replace (l ++ x :: m) (length l) y = l ++ y :: m.
Proof. induction l as [|z l IH]; cbn; [reflexivity|now rewrite IH]. Qed.

Notation world0 := arenas.

Lemma world0_length rws : length (world0 rws) <> 0.
Proof. now destruct rws. Qed.

Definition empty_unit (std flags : N) : arena := Arena [] None 0 std 0 flags [].

Lemma place_len objs : forall z, length (place rg z objs) = length objs.
Proof. induction objs as [|o l IH]; intros z; cbn; [reflexivity|now rewrite IH]. Qed.

Lemma unit_ok key a fwd digest std :
  nth_error wws key = Some a -> dep_named key -> a_fwd a = Some fwd ->
  (forall k, In k (a_deps a) -> dep_named k) ->
  (forall o, In o (kept rg (a_objs a) fwd) -> well_typed rg o /\ object_fits rg ok wws wfiles o) ->
  a_live a = list_sum (map (units rg) (kept rg (a_objs a) fwd)) ->
  (N.of_nat (a_live a) < 2 ^ 27)%N -> (a_flags a < 2 ^ 32)%N -> (digest < 2 ^ 32)%N -> (std < 2 ^ 32)%N ->
  (Z.of_nat (1 + length (a_deps a) + 64 * length (a_objs a)) <= BOUND)%Z ->
  exists fs, write_unit names unnamed rg wfiles wws digest std key = Ok fs /\ Forall in_range fs /\
  forall loader digest' now rws rfiles rest, (Z.of_nat (length rfiles + length wfiles) < FILE_INVALID)%Z ->
  let own := length (world0 rws) in
  let empty := empty_unit std (a_flags a) in
  let kmap0 := replace (repeat 0 (fold_left Nat.max (a_deps a) key + 1)) key own in
  exists r1 f2 f3 w1 w2 w3,
    write_deps names unnamed rg wws (a_deps a) w1 = Ok (f2, w2) /\
    write_objects names rg wfiles wws fwd (place rg 0 (a_objs a)) w2 = Ok (f3, w3) /\
    length (w_seen w1) <= 1 /\ length (w_seen w2) <= 1 + length (a_deps a) /\
    sync wfiles w1 r1 /\ r_files r1 = rfiles /\
    r_buf r1 = encs f2 ++ encs f3 ++ enc (FUint END_OF_OBJECTS) ++ rest /\
    read_unit intern unnamed rg loader digest' now rws (start (encs fs ++ rest) rfiles) =
      (if negb (digest =? digest')%N then Fault
       else if (match rws with [] => std | _ => now end <? std)%N then Fault
       else if (65533 <=? N.of_nat own)%N then Fault
       else
         do! (ws, deps, kmap, r) <-
           read_deps intern unnamed rg loader (length (a_deps a)) (world0 rws ++ [empty]) kmap0 r1;
         do! (objs, r) <- read_objects intern rg (length (r_buf r)) ws own kmap (N.to_nat (pages (a_live a) / 16)) r;
         let x := Arena objs None 0 std 0 (a_flags a) deps in
         if negb (pages (extent rg x) =? pages (a_live a))%N then Fault
         else Ok (set_arena ws own x, own, r)).
Proof.
  intros NK DK FW DN OB LV LB FB DB SB BB.
  unfold write_unit. rewrite NK, FW.
  destruct DK as (K0 & a0 & n & NK' & GN & NOK & _ & _). rewrite NK in NK'. injection NK' as <-.
  unfold goes_by in GN. rewrite GN. cbn [bind].
  assert (LK : key < length wws) by (apply nth_error_Some; congruence).
  destruct (write_ident names n wctx0) as [f1 w1] eqn:W.
  assert (B0 : (Z.of_nat (length (w_seen wctx0)) < BOUND)%Z) by reflexivity.
  assert (G := fun r rest SY E => read_ident_ok names intern wfiles n wctx0 r rest f1 w1 W NOK SY B0 E).
  assert (SY0 : forall b rfiles, (Z.of_nat (length rfiles + length wfiles) < FILE_INVALID)%Z -> sync wfiles wctx0 (start b rfiles)).
  { intros b rf H. split; try reflexivity. exact H. }
  assert (RG : Forall in_range f1 /\ length (w_seen w1) <= 1).
  { destruct (G (start (encs f1 ++ []) []) [] (SY0 (encs f1 ++ []) [] wfiles_few) eq_refl) as (? & ? & ? & ? & ? & ? & ?). auto. }
  destruct RG as [R1 L1].
  destruct (read_deps_ok (a_deps a) w1 DN ltac:(lia)) as (f2 & w2 & E2 & R2 & L2 & _). rewrite E2. cbn [bind].
  assert (PL := place_len (a_objs a) 0).
  destruct (read_objects_ok [] 0 [] fwd (place rg 0 (a_objs a)) w2 OB ltac:(lia)) as (f3 & w3 & E3 & R3 & _). rewrite E3. cbn [bind].
  set (mx := fold_left Nat.max (a_deps a) key).
  assert (MX : key <= mx < length wws).
  { unfold mx. split; [exact (proj1 (fold_max_ge (a_deps a) key))|]. apply fold_max_le; [exact LK|].
    intros k K. destruct (DN k K) as (_ & d & ? & ND & _). apply nth_error_Some. congruence. }
  destruct (pages_bound _ LB) as [PB _].
  assert (LDB : (N.of_nat (length (a_deps a)) < 2 ^ 64)%N) by (unfold BOUND in BB; lia).
  eexists. split; [reflexivity|]. split.
  { repeat (constructor; [cbn [in_range]; lia|]). apply Forall_app. split; [exact R1|].
    repeat (constructor; [cbn [in_range]; lia|]). apply Forall_app. split; [exact R2|]. apply Forall_app. split; [exact R3|].
    constructor; [reflexivity|constructor]. }
  intros loader digest' now rws rfiles rest FF. set (own := length (world0 rws)).
  set (tail := encs f2 ++ encs f3 ++ enc (FUint END_OF_OBJECTS) ++ rest).
  set (mid := enc (FUint (N.of_nat mx)) ++ enc (FUint (N.of_nat (length (a_deps a)))) ++ tail).
  destruct (G (start (encs f1 ++ mid) rfiles) mid (SY0 _ _ FF) eq_refl) as (r0 & E0 & B0' & S0 & F0 & _ & _).
  exists (with_buf r0 tail), f2, f3, w1, w2, w3.
  split; [exact E2|]. split; [exact E3|]. split; [exact L1|]. split; [lia|]. split; [now apply sync_buf|].
  split; [exact F0|]. split; [reflexivity|].
  rewrite !encs_cons, !encs_app, !encs_cons, !encs_app, encs_one, <- !app_assoc.
  fold tail. fold mid.
  unfold read_unit. erewrite (get_u32_ok _ digest); [|exact DB|reflexivity]. cbn [bind].
  destruct (negb (digest =? digest')%N); [reflexivity|].
  erewrite (get_un_ok _ std); [|lia|reflexivity]. cbn [bind].
  destruct (match rws with [] => std | _ => now end <? std)%N; [reflexivity|].
  erewrite (get_un_ok _ (pages (a_live a))); [|lia|reflexivity]. cbn [bind].
  rewrite (N.mod_small (pages (a_live a))) by exact PB.
  rewrite pages_mod. change (0 =? 0)%N with true. cbn [negb].
  fold (world0 rws). fold own.
  destruct (65533 <=? N.of_nat own)%N; [reflexivity|].
  erewrite (get_un_ok _ (a_flags a)); [|lia|reflexivity]. cbn [bind].
  erewrite (get_un_ok _ (N.of_nat key)); [|lia|reflexivity]. cbn [bind].
  rewrite !with_buf_twice.
  change (with_buf (start _ rfiles) (encs f1 ++ mid)) with (start (encs f1 ++ mid) rfiles).
  rewrite E0. cbn [bind]. unfold mid in B0'.
  rewrite (get_un_ok r0 (N.of_nat mx) _ ltac:(lia) B0'). cbn [bind].
  rewrite !(N.mod_small (N.of_nat mx)), !(N.mod_small (N.of_nat key)) by lia. rewrite !Nnat.Nat2N.id.
  destruct (Nat.ltb_spec mx key) as [X|_]; [lia|].
  erewrite (get_un_ok _ (N.of_nat (length (a_deps a)))); [|exact LDB|reflexivity]. cbn [bind].
  rewrite with_buf_twice, Nnat.Nat2N.id. reflexivity.
Qed.

End Unit.
