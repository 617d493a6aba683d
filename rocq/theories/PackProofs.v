(* Proofs that what pack_func writes, jit_pack_fill reads back. *)
From Coq Require Import List NArith ZArith Arith Lia Bool.
From Verif Require Import Base FbufModel FbufProofs PackModel PackSpec.
Import ListNotations.
Local Open Scope N_scope.

Definition TOP : N := 4294967296.

(* The string table: every recorded string is at its offset. *)
Definition stored (tab : list N) (s : str) (o : N) : Prop :=
  0 < o < TOP /\ text s /\ exists pre post, tab = pre ++ s ++ 0 :: post /\ len pre = o.

Definition wok (w : pw) : Prop :=
  w_tab w <> [] /\ len (w_buf w) <= w_bufsz w /\
  (forall s o, In (s, o) (w_hash w) -> o < TOP) /\
  (len (w_tab w) < TOP -> forall s o, In (s, o) (w_hash w) -> stored (w_tab w) s o).

(* What the reader knows of the location last written. *)
Definition lrel (lw lr : loc) : Prop :=
  loc_invalid_p lw = false -> lr = Loc (l_line lw) (l_col lw) 0 0 (l_file lw) /\
    l_line lw < 1048576 /\ l_col lw < 4096.

Definition writes (f : pw -> res pw) : Prop :=
  forall w, wok w -> exists w' bs ext, f w = Ok w' /\
    w_buf w' = w_buf w ++ bs /\ w_tab w' = w_tab w ++ ext /\ wok w'.

Definition reads {X} (f : pw -> res pw) (g : list N -> rd -> res (X * rd)) (P : X -> Prop) : Prop :=
  forall w w' bs, wok w -> f w = Ok w' -> w_buf w' = w_buf w ++ bs -> len (w_tab w') < TOP ->
  forall more rest l, lrel (w_last w) l ->
    exists x l', g (w_tab w' ++ more) (bs ++ rest, l) = Ok (x, (rest, l')) /\ lrel (w_last w') l' /\ P x.

Definition puts {X} (f : pw -> res pw) (g : list N -> rd -> res (X * rd)) (P : X -> Prop) : Prop :=
  writes f /\ reads f g P.

Lemma len_nil : len [] = 0. Proof. reflexivity. Qed.
Lemma len_cons a l : len (a :: l) = len l + 1.
Proof. unfold len. cbn [length]. lia. Qed.

Lemma writes_then f1 f2 : writes f1 -> writes f2 -> writes (fun w => bind (f1 w) f2).
Proof.
  intros H1 H2 w W.
  destruct (H1 w W) as (w1 & b1 & e1 & E1 & B1 & T1 & W1).
  destruct (H2 w1 W1) as (w2 & b2 & e2 & E2 & B2 & T2 & W2).
  exists w2, (b1 ++ b2), (e1 ++ e2). rewrite E1. cbn [bind].
  rewrite B2, B1, T2, T1, !app_assoc. auto.
Qed.

Lemma puts_then {X Y} f1 f2 (g1 : list N -> rd -> res (X * rd))
  (k : list N -> X * rd -> res (Y * rd)) P1 P2 :
  puts f1 g1 P1 -> writes f2 ->
  (forall x, P1 x -> reads f2 (fun tab r => k tab (x, r)) P2) ->
  puts (fun w => bind (f1 w) f2) (fun tab r => bind (g1 tab r) (k tab)) P2.
Proof.
  intros [H1 R1] H2 R2. split; [now apply writes_then|].
  intros w w' bs W E B L more rest l Hl.
  destruct (H1 w W) as (w1 & b1 & e1 & E1 & B1 & T1 & W1).
  destruct (H2 w1 W1) as (w2 & b2 & e2 & E2 & B2 & T2 & W2).
  rewrite E1 in E. cbn [bind] in E. rewrite E2 in E. injection E as <-.
  assert (bs = b1 ++ b2) as ->.
  { rewrite B2, B1, <- app_assoc in B. now apply app_inv_head in B. }
  assert (L1 : len (w_tab w1) < TOP).
  { rewrite T2, len_app in L. lia. }
  destruct (R1 w w1 b1 W E1 B1 L1 (e2 ++ more) (b2 ++ rest) l Hl) as (x & l1 & G1 & Hl1 & Px).
  destruct (R2 x Px w1 w2 b2 W1 E2 B2 L more rest l1 Hl1) as (y & l2 & G2 & Hl2 & Py).
  exists y, l2. rewrite T2, <- !app_assoc. rewrite G1. cbn [bind].
  rewrite T2, <- app_assoc in G2. split; [exact G2|auto].
Qed.

Lemma reads_ret {X} (x : X) (P : X -> Prop) : P x -> reads (fun w => Ok w) (fun _ r => Ok (x, r)) P.
Proof.
  intros HP w w' bs W E B L more rest l Hl. injection E as <-.
  assert (bs = []) as ->. { rewrite <- (app_nil_r (w_buf w)) in B at 1. now apply app_inv_head in B. }
  exists x, l. auto.
Qed.
Lemma writes_ret : writes (fun w => Ok w).
Proof. intros w W. exists w, [], []. rewrite !app_nil_r. auto. Qed.

Lemma puts_ret {X} (x : X) (P : X -> Prop) : P x -> puts (fun w => Ok w) (fun _ r => Ok (x, r)) P.
Proof. split; [apply writes_ret|now apply reads_ret]. Qed.

(* The last write of a sequence, followed by building the result. *)
Lemma puts_map {X Y} f (g : list N -> rd -> res (X * rd)) (k : list N -> X * rd -> res (Y * rd)) P1 P2 :
  puts f g P1 -> (forall x, P1 x -> reads (fun w => Ok w) (fun tab r => k tab (x, r)) P2) ->
  puts f (fun tab r => bind (g tab r) (k tab)) P2.
Proof.
  intros H R.
  destruct (puts_then f (fun w => Ok w) g k P1 P2 H writes_ret R) as [W' R'].
  destruct H as [W0 _]. split; [exact W0|].
  intros w w' bs W E. apply R'; auto. now rewrite E.
Qed.

Lemma puts_writes {X} f (g : list N -> rd -> res (X * rd)) P : puts f g P -> writes f.
Proof. now intros [H _]. Qed.
Lemma puts_reads {X} f (g : list N -> rd -> res (X * rd)) P : puts f g P -> reads f g P.
Proof. now intros [_ H]. Qed.

Lemma puts_weaken {X} f (g : list N -> rd -> res (X * rd)) (P Q : X -> Prop) :
  (forall x, P x -> Q x) -> puts f g P -> puts f g Q.
Proof.
  intros HPQ [H R]. split; [exact H|]. intros w w' bs W E B L more rest l Hl.
  destruct (R w w' bs W E B L more rest l Hl) as (x & l' & G & Hl' & Px). eauto 6.
Qed.

(* ---- numbers ---- *)

Lemma store_grow w n bs : wok w -> len bs <= n ->
  exists w', store (pack_grow w n) bs = Ok w' /\ w_buf w' = w_buf w ++ bs /\ w_tab w' = w_tab w /\
    wok w' /\ w_last w' = w_last w.
Proof.
  intros (Wt & Wb & Wo & Wh) Hn. unfold store, pack_grow.
  destruct (N.ltb_spec (w_bufsz w) (len (w_buf w) + n)); cbn [w_bufsz w_buf w_tab w_hash w_last].
  - pose proof (N.le_max_l (w_bufsz w + n) (3 * w_bufsz w / 2)).
    destruct (N.ltb_spec (N.max (w_bufsz w + n) (3 * w_bufsz w / 2)) (len (w_buf w) + len bs)) as [A|A]; [lia|].
    eexists. split; [reflexivity|]. unfold wok. cbn [w_bufsz w_buf w_tab w_hash w_last].
    rewrite len_app. auto 8.
  - destruct (N.ltb_spec (w_bufsz w) (len (w_buf w) + len bs)) as [A|A]; [lia|].
    eexists. split; [reflexivity|]. unfold wok. cbn [w_bufsz w_buf w_tab w_hash w_last].
    rewrite len_app. auto 8.
Qed.

(* A write of fixed bytes. *)
Lemma puts_bytes {X} n bs (g : list N -> rd -> res (X * rd)) P :
  len bs <= n ->
  (forall tab rest l, exists x, g tab (bs ++ rest, l) = Ok (x, (rest, l)) /\ P x) ->
  puts (fun w => store (pack_grow w n) bs) g P.
Proof.
  intros Hn G. split.
  - intros w W. destruct (store_grow w n bs W Hn) as (w' & E & B & T & W' & _).
    exists w', bs, []. rewrite app_nil_r. auto.
  - intros w w' bs' W E B L more rest l Hl.
    destruct (store_grow w n bs W Hn) as (w1 & E1 & B1 & T1 & W1 & L1).
    rewrite E1 in E. injection E as <-. rewrite B1 in B. apply app_inv_head in B. subst bs'.
    destruct (G (w_tab w1 ++ more) rest l) as (x & Gx & Px).
    exists x, l. rewrite L1. auto.
Qed.

Lemma puts_uint u : u < P64 -> puts (fun w => pack_uint w u) (fun _ => unpack_uint) (eq u).
Proof.
  intros Hu. apply puts_bytes.
  - unfold len, encode_number. pose proof (leb_length_le 10 u). lia.
  - intros tab rest l. exists u. unfold unpack_uint, encode_number. cbn [fst snd].
    rewrite get_uint_ok by exact Hu. auto.
Qed.

Lemma puts_int v : (- 2 ^ 63 <= v < 2 ^ 63)%Z -> puts (fun w => pack_int w v) (fun _ => unpack_int) (eq v).
Proof.
  intros Hv. destruct (unzigzag_ok v Hv) as [Hz Hu].
  unfold pack_int, unpack_int.
  eapply puts_map; [apply puts_uint; exact Hz|].
  intros x <-. cbn [fst snd]. apply reads_ret. now rewrite Hu.
Qed.

Lemma puts_u8 u : u < 256 -> puts (fun w => pack_u8 w u) (fun _ => unpack_u8) (eq u).
Proof.
  intros Hu. apply puts_bytes; [reflexivity|].
  intros tab rest l. exists (u mod 256). rewrite N.mod_small by exact Hu. auto.
Qed.

Lemma puts_u16 u : u < 65536 -> puts (fun w => pack_u16 w u) (fun _ => unpack_u16) (eq u).
Proof.
  intros Hu. apply puts_bytes; [reflexivity|].
  intros tab rest l. eexists. split; [reflexivity|].
  cbn [fst snd]. rewrite land255, N.shiftr_div_pow2, N.shiftl_mul_pow2.
  rewrite (N.mod_small (u / 2 ^ 8)) by (change (2 ^ 8) with 256; apply N.div_lt_upper_bound; lia).
  rewrite lor_disjoint by (apply N.mod_lt; discriminate).
  pose proof (N.div_mod u (2 ^ 8)). lia.
Qed.

Lemma puts_reg r : reg_ok r -> puts (fun w => pack_reg w r) (fun _ => unpack_reg) (eq r).
Proof.
  intros Hr. unfold pack_reg, unpack_reg, REG_INVALID.
  eapply puts_map; [apply puts_uint|].
  - unfold P64. destruct Hr; destruct (N.eqb_spec r 65535); lia.
  - intros x <-. cbn [fst snd].
    assert ((if r =? 65535 then 0 else r + 1) <? 65535 - 1 = true) as ->.
    { apply N.ltb_lt. destruct Hr; destruct (N.eqb_spec r 65535); lia. }
    apply reads_ret. destruct (N.eqb_spec r 65535); [now subst|].
    destruct (N.eqb_spec (r + 1) 0); lia.
Qed.

(* ---- strings ---- *)

Lemma cstr_text s post : text s -> cstr (s ++ 0 :: post) = Some s.
Proof.
  induction s as [|c s IH]; intros H; cbn [cstr app]; [reflexivity|].
  inversion H as [|? ? Hc Hs]; subst. destruct (N.eqb_spec c 0); [lia|]. now rewrite IH.
Qed.

Lemma stored_app tab more s o : stored tab s o -> stored (tab ++ more) s o.
Proof.
  intros (Ho & Ht & pre & post & -> & Hp). split; [exact Ho|]. split; [exact Ht|].
  exists pre, (post ++ more). rewrite <- !app_assoc. auto.
Qed.

Lemma stored_cstr tab s o : stored tab s o -> cstr (skipn (N.to_nat o) tab) = Some s.
Proof.
  intros (Ho & Ht & pre & post & -> & Hp).
  rewrite skipn_pre by (unfold len in Hp; lia). now apply cstr_text.
Qed.

Lemma str_eqb_spec a b : reflect (a = b) (str_eqb a b).
Proof. unfold str_eqb. destruct (list_eq_dec N.eq_dec a b); now constructor. Qed.

Lemma find_str_in h s : find_str h s <> 0 -> In (s, find_str h s) h.
Proof.
  induction h as [|[k v] h IH]; cbn [find_str]; intros H; [congruence|].
  destruct (str_eqb_spec k s); [subst; now left|right; auto].
Qed.

(* pack_writer_get_string. *)
Lemma get_string_ok w s : wok w -> match s with Some s => text s | None => True end ->
  exists o w' ext, get_string w s = (o, w') /\ o < TOP /\
    w_buf w' = w_buf w /\ w_tab w' = w_tab w ++ ext /\ w_last w' = w_last w /\ wok w' /\
    (len (w_tab w') < TOP -> match s with Some s => stored (w_tab w') s o | None => o = 0 end).
Proof.
  intros W Hs. destruct s as [s|]; cbn [get_string].
  2:{ exists 0, w, []. rewrite app_nil_r. split; [reflexivity|]. split; [reflexivity|]. auto 7. }
  destruct W as (Wt & Wb & Wo & Wh).
  destruct (N.eqb_spec (find_str (w_hash w) s) 0) as [E|E]; cbn [negb].
  - eexists _, _, (s ++ [0]). split; [reflexivity|]. split; [apply N.mod_lt; discriminate|].
    cbn [w_buf w_tab w_last].
    assert (K : len (w_tab w ++ s ++ [0]) < TOP ->
                stored (w_tab w ++ s ++ [0]) s (len (w_tab w) mod 4294967296)).
    { intros L. rewrite len_app in L. rewrite N.mod_small by (unfold TOP in L; lia).
      split; [|split; [exact Hs|exists (w_tab w), []; auto]].
      split; [|lia]. destruct (w_tab w); [congruence|]. rewrite len_cons. lia. }
    split; [reflexivity|]. split; [reflexivity|]. split; [reflexivity|]. split; [|exact K].
    split; [|split; [|split]]; cbn [w_buf w_tab w_hash w_bufsz].
    + intros E'. apply app_eq_nil in E'. tauto.
    + exact Wb.
    + intros s' o' [H|H]; [injection H as <- <-; apply N.mod_lt; discriminate|eauto].
    + intros L s' o' [H|H].
      * injection H as <- <-. auto.
      * rewrite app_assoc in *. rewrite <- app_assoc in *. apply stored_app. apply Wh; [|exact H].
        rewrite len_app in L. lia.
  - exists (find_str (w_hash w) s), w, []. rewrite app_nil_r.
    apply find_str_in in E.
    split; [reflexivity|]. split; [eauto|]. unfold wok. auto 10.
Qed.

Definition opt_text (s : option str) : Prop := match s with Some s => text s | None => True end.

Lemma puts_str s : opt_text s -> puts (fun w => pack_str w s) unpack_str (eq s).
Proof.
  intros Hs. split.
  - intros w W. destruct (get_string_ok w s W Hs) as (o & w1 & ext & E & Ho & B & T & Ll & W1 & _).
    destruct (proj1 (puts_uint o ltac:(unfold TOP in Ho; unfold P64; lia)) w1 W1)
      as (w2 & bs & ext2 & E2 & B2 & T2 & W2).
    exists w2, bs, (ext ++ ext2). unfold pack_str. rewrite E, E2, B2, B, T2, T, app_assoc. auto.
  - intros w w' bs W E B L more rest l Hl.
    destruct (get_string_ok w s W Hs) as (o & w1 & ext & E1 & Ho & B1 & T1 & Ll & W1 & K).
    unfold pack_str in E. rewrite E1 in E.
    assert (Ho' : o < P64) by (unfold TOP in Ho; unfold P64; lia).
    destruct (proj1 (puts_uint o Ho') w1 W1) as (w2 & bs2 & ext2 & E2 & B2 & T2 & W2).
    assert (w2 = w') by congruence. subst w2.
    assert (L1 : len (w_tab w1) < TOP) by (rewrite T2, len_app in L; lia).
    rewrite <- B1 in B. rewrite <- Ll in Hl.
    destruct (proj2 (puts_uint o Ho') w1 w' bs W1 E B L more rest l Hl) as (x & l' & G & Hl' & <-).
    exists s, l'. split; [|auto].
    unfold unpack_str. rewrite G. cbn [bind fst snd].
    rewrite (N.mod_small o) by exact Ho.
    specialize (K L1). destruct s as [s|].
    + pose proof (stored_app (w_tab w1) (ext2 ++ more) s o K) as K'.
      rewrite app_assoc, <- T2 in K'. rewrite (stored_cstr _ _ _ K').
      destruct (N.eqb_spec o 0) as [->|_]; [|reflexivity].
      destruct K as ((K0 & _) & _). lia.
    + subst o. reflexivity.
Qed.

Lemma ident_new_ok s : name s -> ident_new (Some s) = Ok s.
Proof. intros [_ H]. destruct s; [congruence|reflexivity]. Qed.

(* ---- locations ---- *)

Lemma same_file_true a b : same_file a b = true -> a = b.
Proof.
  destruct a as [a|], b as [b|]; cbn [same_file]; try discriminate; [|reflexivity].
  destruct (str_eqb_spec a b); [congruence|discriminate].
Qed.

(* Replacing the remembered location after a write. *)
Lemma puts_last {X} (f : pw -> res pw) (g : list N -> rd -> res (X * rd)) lw (P : X -> Prop) :
  writes f ->
  (forall w w' bs, wok w -> f w = Ok w' -> w_buf w' = w_buf w ++ bs -> len (w_tab w') < TOP ->
   forall more rest l, lrel (w_last w) l ->
    exists x l', g (w_tab w' ++ more) (bs ++ rest, l) = Ok (x, (rest, l')) /\ lrel lw l' /\ P x) ->
  puts (fun w => do! w' <- f w; Ok (set_last w' lw)) g P.
Proof.
  intros Hf Hr. split.
  - intros w W. destruct (Hf w W) as (w' & bs & ext & E & B & T & W').
    exists (set_last w' lw), bs, ext. rewrite E. cbn [bind]. auto.
  - intros w w' bs W E B L more rest l Hl.
    destruct (Hf w W) as (w1 & bs1 & ext & E1 & B1 & T1 & W1).
    rewrite E1 in E. cbn [bind] in E. injection E as <-.
    exact (Hr w w1 bs W E1 B L more rest l Hl).
Qed.

Lemma writes_int v : writes (fun w => pack_int w v).
Proof.
  intros w W. unfold pack_int, pack_uint.
  destruct (store_grow w 10 (encode_number (zigzag v)) W) as (w' & E & B & T & W' & _).
  { unfold len, encode_number. pose proof (leb_length_le 10 (zigzag v)). lia. }
  exists w', (encode_number (zigzag v)), []. rewrite app_nil_r. auto.
Qed.

Definition full_loc (lo : loc) (w : pw) : res pw :=
  do! w <- pack_str w (l_file lo); do! w <- pack_uint w (l_line lo); pack_uint w (l_col lo).
Definition delta_loc (dl dc : Z) (w : pw) : res pw :=
  do! w <- pack_u8 w 0; do! w <- pack_int w dl; pack_int w dc.

Definition u3 (X : list N -> rd -> res (option str * rd)) (tab : list N) (r : rd) : res ((option str * N * N) * rd) :=
  do! a <- X tab r; do! b <- unpack_uint (snd a); do! c <- unpack_uint (snd b);
  Ok ((fst a, fst b, fst c), snd c).

Lemma full_ok lo : loc_ok lo -> puts (full_loc lo) (u3 unpack_str) (eq (l_file lo, l_line lo, l_col lo)).
Proof.
  intros (Hline & Hcol & Hf). unfold full_loc, u3.
  eapply puts_then; [apply puts_str; exact Hf| |].
  { apply writes_then; eapply puts_writes, puts_uint; unfold P64; lia. }
  intros x <-. cbn [fst snd]. apply puts_reads.
  eapply puts_then; [apply puts_uint; unfold P64; lia| |].
  { eapply puts_writes, puts_uint; unfold P64; lia. }
  intros x <-. cbn [fst snd]. apply puts_reads.
  eapply puts_map; [apply puts_uint; unfold P64; lia|].
  intros x <-. cbn [fst snd]. now apply reads_ret.
Qed.

Definition d3 (tab : list N) (r : rd) : res ((option str * Z * Z) * rd) :=
  do! a <- unpack_str tab r; do! b <- unpack_int (snd a); do! c <- unpack_int (snd b);
  Ok ((fst a, fst b, fst c), snd c).

Lemma puts_zero : puts (fun w => pack_u8 w 0) unpack_str (eq None).
Proof.
  apply puts_bytes; [reflexivity|]. intros tab rest l. exists None.
  split; [|reflexivity]. reflexivity.
Qed.

Lemma delta_ok dl dc : (- 2 ^ 63 <= dl < 2 ^ 63)%Z -> (- 2 ^ 63 <= dc < 2 ^ 63)%Z ->
  puts (delta_loc dl dc) d3 (eq (None, dl, dc)).
Proof.
  intros Hl Hc. unfold delta_loc, d3.
  eapply puts_then; [apply puts_zero| |].
  { apply writes_then; apply writes_int. }
  intros x <-. cbn [fst snd]. apply puts_reads.
  eapply puts_then; [apply puts_int; exact Hl|apply writes_int|].
  intros x <-. cbn [fst snd]. apply puts_reads.
  eapply puts_map; [apply puts_int; exact Hc|].
  intros x <-. cbn [fst snd]. now apply reads_ret.
Qed.

Lemma pack_loc_ok lo : loc_ok lo -> puts (fun w => pack_loc w lo) unpack_loc (loc_kept lo).
Proof.
  intros Hlo. pose proof Hlo as (Hline & Hcol & Hf).
  unfold pack_loc. apply puts_last.
  - intros w W.
    destruct (loc_invalid_p (w_last w) || negb (same_file (l_file lo) (l_file (w_last w)))) eqn:C.
    + exact (puts_writes _ _ _ (full_ok lo Hlo) w W).
    + cbv zeta.
      apply (writes_then (fun w => pack_u8 w 0) _ (puts_writes _ _ _ puts_zero)); [|exact W].
      apply writes_then; apply writes_int.
  - intros w w' bs W E B L more rest l Hl.
    destruct (loc_invalid_p (w_last w)) eqn:C1; [|destruct (same_file (l_file lo) (l_file (w_last w))) eqn:C2];
      cbn [orb negb] in E.
    2:{ (* relative to the last location *)
      apply same_file_true in C2. destruct (Hl C1) as (-> & HL & HC).
      set (dl := (Z.of_N (l_line lo) - Z.of_N (l_line (w_last w)))%Z) in *.
      set (dc := (Z.of_N (l_col lo) - Z.of_N (l_col (w_last w)))%Z) in *.
      destruct (puts_reads _ _ _ (delta_ok dl dc ltac:(lia) ltac:(lia)) w w' bs W E B L more rest _ Hl)
        as (x & l' & G & _ & <-).
      unfold d3 in G. unfold unpack_loc. cbn [fst snd] in *.
      apply bind_ok in G. destruct G as ((a & ra) & -> & G). cbn [bind fst snd] in *.
      apply bind_ok in G. destruct G as ((b & rb) & Gb & G). cbn [bind fst snd] in *.
      apply bind_ok in G. destruct G as ((c & rc) & Gc & G). cbn [bind fst snd] in *.
      injection G as -> -> -> ->. cbn [fst snd]. rewrite Gb. cbn [bind fst snd]. rewrite Gc. cbn [bind fst snd].
      cbn [l_line l_col l_dline l_dcol l_file].
      replace (Z.of_N (l_line (w_last w)) + dl)%Z with (Z.of_N (l_line lo)) by (unfold dl; lia).
      replace (Z.of_N (l_col (w_last w)) + dc)%Z with (Z.of_N (l_col lo)) by (unfold dc; lia).
      rewrite !Z.mod_small, !N2Z.id by lia. rewrite <- C2.
      eexists _, _. split; [reflexivity|]. split; [|now unfold loc_kept; destruct (l_file lo)].
      intros _. auto. }
    all: destruct (puts_reads _ _ _ (full_ok lo Hlo) w w' bs W E B L more rest l Hl)
        as (x & l' & G & _ & <-);
      unfold u3 in G; unfold unpack_loc; cbn [fst snd] in *;
      apply bind_ok in G; destruct G as ((a & ra) & -> & G); cbn [bind fst snd] in *;
      apply bind_ok in G; destruct G as ((b & rb) & Gb & G); cbn [bind fst snd] in *;
      apply bind_ok in G; destruct G as ((c & rc) & Gc & G); cbn [bind fst snd] in *;
      injection G as -> -> -> ->;
      destruct (l_file lo) as [file|] eqn:F; cbn [fst snd];
      [ rewrite Gb; cbn [bind fst snd]; rewrite Gc; cbn [bind fst snd];
        rewrite !N.mod_small by lia;
        eexists _, _; split; [reflexivity|];
        split; [intros _; rewrite F; auto|unfold loc_kept; now rewrite F]
      | unfold unpack_int; rewrite Gb; cbn [bind fst snd]; rewrite Gc; cbn [bind fst snd];
        eexists _, _; split; [reflexivity|];
        split; [|unfold loc_kept; now rewrite F];
        unfold lrel, loc_invalid_p; rewrite F, orb_true_r; discriminate ].
Qed.

(* ---- values and instructions ---- *)

Lemma to_u64_ok v : (- 2 ^ 63 <= v < 2 ^ 63)%Z -> to_u64 v < P64 /\ of_u64 (to_u64 v) = v.
Proof.
  intros Hv. unfold to_u64, of_u64, P64.
  assert (E : (v mod 18446744073709551616 = v \/ v mod 18446744073709551616 = v + 18446744073709551616)%Z).
  { destruct (Z.ltb_spec v 0).
    - right. rewrite <- (Z_mod_plus_full v 1), Z.mod_small; lia.
    - left. apply Z.mod_small. lia. }
  pose proof (Z.mod_pos_bound v 18446744073709551616 ltac:(lia)).
  set (m := (v mod 18446744073709551616)%Z) in *. clearbody m.
  split; [lia|]. destruct (N.ltb_spec (Z.to_N m) 9223372036854775808); rewrite Z2N.id by lia; lia.
Qed.

Lemma disp_ok v : (- 2 ^ 31 <= v < 2 ^ 31)%Z -> of_u32 (to_u64 v) = v.
Proof.
  intros Hv. unfold to_u64, of_u32.
  assert (E : (v mod 18446744073709551616 = v \/ v mod 18446744073709551616 = v + 18446744073709551616)%Z).
  { destruct (Z.ltb_spec v 0).
    - right. rewrite <- (Z_mod_plus_full v 1), Z.mod_small; lia.
    - left. apply Z.mod_small. lia. }
  pose proof (Z.mod_pos_bound v 18446744073709551616 ltac:(lia)).
  set (m := (v mod 18446744073709551616)%Z) in *. clearbody m.
  cbv zeta.
  assert (E2 : Z.to_N m mod 4294967296 = if (v <? 0)%Z then Z.to_N (v + 4294967296) else Z.to_N v).
  { destruct (Z.ltb_spec v 0).
    - assert (m = v + 18446744073709551616)%Z by lia. subst m.
      replace (Z.to_N (v + 18446744073709551616)) with (Z.to_N (v + 4294967296) + 4294967295 * 4294967296) by lia.
      rewrite N.mod_add by lia. apply N.mod_small. lia.
    - assert (m = v)%Z by lia. subst m. apply N.mod_small. lia. }
  rewrite E2. destruct (Z.ltb_spec v 0).
  - destruct (N.ltb_spec (Z.to_N (v + 4294967296)) 2147483648); rewrite Z2N.id by lia; lia.
  - destruct (N.ltb_spec (Z.to_N v) 2147483648); rewrite Z2N.id by lia; lia.
Qed.

Lemma pack_value_ok v : value_ok v -> puts (fun w => pack_value w v) unpack_value (value_kept v).
Proof.
  intros Hv. unfold unpack_value.
  assert (K : forall f (k : N), k < 256 -> writes f ->
     reads f (fun tab r => match k with
       | 0 => Ok (VInvalid, r)
       | 1 => do! x <- unpack_reg r; Ok (VReg (fst x), snd x)
       | 2 => do! x <- unpack_int r; Ok (VInt (fst x), snd x)
       | 3 => do! x <- unpack_uint r; Ok (VDouble (fst x), snd x)
       | 4 => do! x <- unpack_reg r; do! y <- unpack_uint (snd x);
              Ok (VAddrReg (fst x) (of_u32 (fst y)), snd y)
       | 5 => do! x <- unpack_uint r; Ok (VAddrAbs (of_u64 (fst x)), snd x)
       | 6 => do! x <- unpack_uint r; Ok (VAddrCpool (of_u64 (fst x)), snd x)
       | 7 => do! x <- unpack_uint r; Ok (VAddrCover (of_u64 (fst x)), snd x)
       | 8 => do! x <- unpack_uint r; Ok (VLabel (fst x mod 4294967296), snd x)
       | 9 => do! x <- unpack_str tab r;
              match fst x with
              | None => Ok (VHandle None, snd x)
              | Some s => do! n <- ident_new (Some s); Ok (VHandle (Some n), snd x)
              end
       | 10 => do! x <- unpack_u8 r; Ok (VExit (fst x), snd x)
       | 11 => do! x <- unpack_loc tab r; Ok (VLoc (fst x), snd x)
       | 13 => do! x <- unpack_str tab r;
               do! m <- ident_new (fst x);
               do! y <- unpack_uint (snd x);
               Ok (VLocus m (fst y), snd y)
       | _ => Fault
       end) (value_kept v) ->
     puts (fun w => do! w <- pack_u8 w k; f w) unpack_value (value_kept v)).
  { intros f k Hk Wf R. unfold unpack_value.
    eapply puts_then; [apply puts_u8; exact Hk|exact Wf|].
    intros x <-. exact R. }
  fold unpack_value.
  destruct v; cbn [value_ok kind pack_value] in *.
  - apply K; [lia|apply writes_ret|]. apply reads_ret. reflexivity.
  - apply K; [lia|eapply puts_writes, puts_reg; exact Hv|].
    apply puts_reads. eapply puts_map; [apply puts_reg; exact Hv|].
    intros x <-. cbn [fst snd]. now apply reads_ret.
  - apply K; [lia|apply writes_int|].
    apply puts_reads. eapply puts_map; [apply puts_int; exact Hv|].
    intros x <-. cbn [fst snd]. now apply reads_ret.
  - apply K; [lia|eapply puts_writes, puts_uint; exact Hv|].
    apply puts_reads. eapply puts_map; [apply puts_uint; exact Hv|].
    intros x <-. cbn [fst snd]. now apply reads_ret.
  - destruct Hv as [Hr Hd]. destruct (to_u64_ok disp ltac:(lia)) as [Hu _].
    apply K; [lia|apply writes_then; [eapply puts_writes, puts_reg; exact Hr|eapply puts_writes, puts_uint; exact Hu]|].
    apply puts_reads. eapply puts_then; [apply puts_reg; exact Hr|eapply puts_writes, puts_uint; exact Hu|].
    intros x <-. cbn [fst snd]. apply puts_reads. eapply puts_map; [apply puts_uint; exact Hu|].
    intros x <-. cbn [fst snd]. apply reads_ret. now rewrite disp_ok.
  - destruct (to_u64_ok v Hv) as [Hu Ho]. apply K; [lia|eapply puts_writes, puts_uint; exact Hu|].
    apply puts_reads. eapply puts_map; [apply puts_uint; exact Hu|].
    intros x <-. cbn [fst snd]. apply reads_ret. now rewrite Ho.
  - destruct (to_u64_ok v Hv) as [Hu Ho]. apply K; [lia|eapply puts_writes, puts_uint; exact Hu|].
    apply puts_reads. eapply puts_map; [apply puts_uint; exact Hu|].
    intros x <-. cbn [fst snd]. apply reads_ret. now rewrite Ho.
  - destruct (to_u64_ok v Hv) as [Hu Ho]. apply K; [lia|eapply puts_writes, puts_uint; exact Hu|].
    apply puts_reads. eapply puts_map; [apply puts_uint; exact Hu|].
    intros x <-. cbn [fst snd]. apply reads_ret. now rewrite Ho.
  - assert (Hu : l < P64) by (unfold P64; lia).
    apply K; [lia|eapply puts_writes, puts_uint; exact Hu|].
    apply puts_reads. eapply puts_map; [apply puts_uint; exact Hu|].
    intros x <-. cbn [fst snd]. apply reads_ret. now rewrite N.mod_small.
  - assert (Hs : opt_text h) by (destruct h; [apply Hv|exact Logic.I]).
    apply K; [lia|eapply puts_writes, puts_str; exact Hs|].
    apply puts_reads. eapply puts_map; [apply puts_str; exact Hs|].
    intros x <-. cbn [fst snd]. destruct h as [h|]; [|now apply reads_ret].
    rewrite ident_new_ok by exact Hv. cbn [bind]. now apply reads_ret.
  - apply K; [lia|eapply puts_writes, puts_u8; exact Hv|].
    apply puts_reads. eapply puts_map; [apply puts_u8; exact Hv|].
    intros x <-. cbn [fst snd]. now apply reads_ret.
  - apply K; [lia|eapply puts_writes, pack_loc_ok; exact Hv|].
    apply puts_reads. eapply puts_map; [apply pack_loc_ok; exact Hv|].
    intros x Hx. cbn [fst snd]. apply reads_ret. exists x. auto.
  - eapply puts_map; [apply puts_u8; lia|]. intros x <-. cbn [fst snd]. now apply reads_ret.
  - destruct Hv as [Hm Ho]. assert (Hs : opt_text (Some module)) by apply Hm.
    apply K; [lia|apply writes_then; [eapply puts_writes, puts_str; exact Hs|eapply puts_writes, puts_uint; exact Ho]|].
    apply puts_reads. eapply puts_then; [apply puts_str; exact Hs|eapply puts_writes, puts_uint; exact Ho|].
    intros x <-. cbn [fst snd]. rewrite ident_new_ok by exact Hm. cbn [bind].
    apply puts_reads. eapply puts_map; [apply puts_uint; exact Ho|].
    intros x <-. cbn [fst snd]. now apply reads_ret.
Qed.

Lemma enc_ok op size target cc : op < 256 -> size < 8 -> target < 2 -> cc < 16 ->
  let enc := N.lor (N.lor (N.lor (N.shiftl op 8) (N.shiftl size 5)) (N.shiftl target 4)) cc in
  enc < 65536 /\ N.shiftr enc 8 = op /\ N.land (N.shiftr enc 5) 7 = size /\
  N.land (N.shiftr enc 4) 1 = target /\ N.land enc 15 = cc.
Proof.
  intros Ho Hs Ht Hc enc.
  assert (E : enc = cc + 16 * target + 32 * size + 256 * op).
  { unfold enc. rewrite !N.shiftl_mul_pow2.
    rewrite (N.lor_comm (op * 2 ^ 8)).
    rewrite (lor_disjoint (size * 2 ^ 5) op 8) by (change (2 ^ 8) with 256; change (2 ^ 5) with 32; lia).
    rewrite (N.lor_comm _ (target * 2 ^ 4)).
    replace (size * 2 ^ 5 + op * 2 ^ 8) with ((size + 8 * op) * 2 ^ 5) by (change (2 ^ 8) with 256; change (2 ^ 5) with 32; lia).
    rewrite (lor_disjoint (target * 2 ^ 4)) by (change (2 ^ 4) with 16; change (2 ^ 5) with 32; lia).
    rewrite N.lor_comm.
    replace (target * 2 ^ 4 + (size + 8 * op) * 2 ^ 5) with ((target + 2 * size + 16 * op) * 2 ^ 4)
      by (change (2 ^ 4) with 16; change (2 ^ 5) with 32; lia).
    rewrite lor_disjoint by (change (2 ^ 4) with 16; lia). change (2 ^ 4) with 16. lia. }
  clearbody enc. subst enc.
  rewrite !N.shiftr_div_pow2.
  change 7 with (N.ones 3). change 1 with (N.ones 1). change 15 with (N.ones 4).
  rewrite !N.land_ones.
  change (2 ^ 8) with 256. change (2 ^ 5) with 32. change (2 ^ 4) with 16. change (2 ^ 3) with 8. change (2 ^ 1) with 2.
  repeat apply conj; Zify.zify; Z.to_euclidean_division_equations; lia.
Qed.

Lemma pack_ir_ok i : ir_ok i -> puts (fun w => pack_ir w i) unpack_ir (ir_kept i).
Proof.
  intros (Ho & Hs & Ht & Hc & Hr & H1 & H2).
  destruct (enc_ok _ _ _ _ Ho Hs Ht Hc) as (He & E1 & E2 & E3 & E4).
  unfold pack_ir, unpack_ir. cbv zeta.
  set (enc := N.lor _ (i_cc i)) in *. clearbody enc.
  assert (W2 := puts_writes _ _ _ (pack_value_ok _ H2)).
  assert (W1 := writes_then _ _ (puts_writes _ _ _ (pack_value_ok _ H1)) W2).
  assert (W0 := writes_then _ _ (puts_writes _ _ _ (puts_reg _ Hr)) W1).
  eapply puts_then; [apply puts_u16; exact He|exact W0|].
  intros x <-. cbn [fst snd]. apply puts_reads.
  eapply puts_then; [apply puts_reg; exact Hr|exact W1|].
  intros x <-. cbn [fst snd]. apply puts_reads.
  eapply puts_then; [apply pack_value_ok; exact H1|exact W2|].
  intros a Ha. cbn [fst snd]. apply puts_reads.
  eapply puts_map; [apply pack_value_ok; exact H2|].
  intros b Hb. cbn [fst snd]. apply reads_ret.
  unfold ir_kept. cbn [i_op i_size i_target i_cc i_result i_arg1 i_arg2]. auto 8.
Qed.

Lemma pack_irs_ok l : Forall ir_ok l ->
  puts (fun w => pack_irs w l) (fun tab => unpack_irs tab (length l)) (Forall2 ir_kept l).
Proof.
  induction l as [|i l IH]; intros H; cbn [pack_irs unpack_irs length].
  - apply puts_ret. constructor.
  - inversion H as [|? ? Hi Hl]; subst. specialize (IH Hl).
    eapply puts_then; [apply pack_ir_ok; exact Hi|exact (puts_writes _ _ _ IH)|].
    intros x Hx. cbn [fst snd]. apply puts_reads. eapply puts_map; [exact IH|].
    intros y Hy. cbn [fst snd]. apply reads_ret. now constructor.
Qed.

Lemma pack_vars_ok l : Forall (fun v => name (fst v) /\ snd v < 2 ^ 32) l ->
  puts (fun w => pack_vars w l) (fun tab => unpack_vars tab (length l)) (eq l).
Proof.
  induction l as [|[n o] l IH]; intros H; cbn [pack_vars unpack_vars length].
  - now apply puts_ret.
  - inversion H as [|? ? [Hn Ho] Hl]; subst. cbn [fst snd] in *. specialize (IH Hl).
    assert (Ho' : o < P64) by (unfold P64; lia).
    assert (W1 := writes_then _ _ (puts_writes _ _ _ (puts_uint _ Ho')) (puts_writes _ _ _ IH)).
    eapply puts_then; [apply (puts_str (Some n)); apply Hn|exact W1|].
    intros x <-. cbn [fst snd]. rewrite ident_new_ok by exact Hn. cbn [bind].
    apply puts_reads. eapply puts_then; [apply puts_uint; exact Ho'|exact (puts_writes _ _ _ IH)|].
    intros x <-. cbn [fst snd]. apply puts_reads. eapply puts_map; [exact IH|].
    intros x <-. cbn [fst snd]. apply reads_ret. now rewrite N.mod_small.
Qed.

Definition unpack_tail (tab cpool : list N) (r : rd) : res (func * rd) :=
  do! nirs <- unpack_uint r;
  do! nregs <- unpack_uint (snd nirs);
  do! nvars <- unpack_uint (snd nregs);
  do! cpoolsz <- unpack_uint (snd nvars);
  do! spec <- unpack_uint (snd cpoolsz);
  do! framesz <- unpack_uint (snd spec);
  do! vars <- unpack_vars tab (N.to_nat (u32 (fst nvars))) (snd framesz);
  do! m <- unpack_str tab (snd vars);
  do! module <- ident_new (fst m);
  do! off <- unpack_uint (snd m);
  do! irs <- unpack_irs tab (N.to_nat (u32 (fst nirs))) (snd off);
  Ok (Func (u32 (fst nregs)) (fst vars) (firstn (N.to_nat (u32 (fst cpoolsz))) cpool)
           (fst spec) (u32 (fst framesz)) module (fst off) (fst irs), snd irs).

Lemma unpack_func_tail tab ubuf cpool x r :
  unpack_tail tab cpool (ubuf, LOC_INVALID) = Ok (x, r) -> unpack_func tab ubuf cpool = Ok x.
Proof.
  unfold unpack_tail, unpack_func. intros H.
  repeat (apply bind_ok in H; let a := fresh "a" in let E := fresh "E" in
          destruct H as (a & E & H); rewrite E; cbn [bind]).
  injection H as <- _. reflexivity.
Qed.

Definition pack_rest (f : func) (w : pw) : res pw :=
  do! w <- pack_uint w (N.of_nat (length (f_irs f)));
  do! w <- pack_uint w (f_nregs f);
  do! w <- pack_uint w (N.of_nat (length (f_vars f)));
  do! w <- pack_uint w (len (f_cpool f));
  do! w <- pack_uint w (f_spec f);
  do! w <- pack_uint w (f_framesz f);
  do! w <- pack_vars w (f_vars f);
  do! w <- pack_str w (Some (f_module f));
  do! w <- pack_uint w (f_offset f);
  pack_irs w (f_irs f).

Lemma u32_small x : x < 2 ^ 32 -> u32 x = x.
Proof. intros H. unfold u32. now apply N.mod_small. Qed.

Lemma pack_rest_ok f cpool : func_ok f ->
  puts (pack_rest f) (fun tab => unpack_tail tab (f_cpool f ++ cpool)) (func_kept f).
Proof.
  intros (H1 & H2 & H3 & H4 & H5 & H6 & H7 & H8 & H9 & H10).
  assert (S : forall x, x < 2 ^ 32 -> x < P64) by (unfold P64; intros; lia).
  unfold pack_rest, unpack_tail.
  assert (Wi := puts_writes _ _ _ (pack_irs_ok _ H10)).
  assert (W9 := writes_then _ _ (puts_writes _ _ _ (puts_uint _ H8)) Wi).
  assert (W8 := writes_then _ _ (puts_writes _ _ _ (puts_str (Some (f_module f)) (proj1 H7))) W9).
  assert (W7 := writes_then _ _ (puts_writes _ _ _ (pack_vars_ok _ H2)) W8).
  assert (W6 := writes_then _ _ (puts_writes _ _ _ (puts_uint _ (S _ H6))) W7).
  assert (W5 := writes_then _ _ (puts_writes _ _ _ (puts_uint _ H5)) W6).
  assert (W4 := writes_then _ _ (puts_writes _ _ _ (puts_uint _ (S _ H4))) W5).
  assert (W3 := writes_then _ _ (puts_writes _ _ _ (puts_uint _ (S _ H3))) W4).
  assert (W2 := writes_then _ _ (puts_writes _ _ _ (puts_uint _ (S _ H1))) W3).
  eapply puts_then; [apply puts_uint; exact (S _ H9)|exact W2|].
  intros x <-; cbn [fst snd]. apply puts_reads.
  eapply puts_then; [apply puts_uint; exact (S _ H1)|exact W3|].
  intros x <-; cbn [fst snd]. apply puts_reads.
  eapply puts_then; [apply puts_uint; exact (S _ H3)|exact W4|].
  intros x <-; cbn [fst snd]. apply puts_reads.
  eapply puts_then; [apply puts_uint; exact (S _ H4)|exact W5|].
  intros x <-; cbn [fst snd]. apply puts_reads.
  eapply puts_then; [apply puts_uint; exact H5|exact W6|].
  intros x <-; cbn [fst snd]. apply puts_reads.
  eapply puts_then; [apply puts_uint; exact (S _ H6)|exact W7|].
  intros x <-; cbn [fst snd]. apply puts_reads.
  rewrite !u32_small by assumption.
  unfold len. rewrite !Nat2N.id.
  eapply puts_then; [apply pack_vars_ok; exact H2|exact W8|].
  intros x <-; cbn [fst snd]. apply puts_reads.
  eapply puts_then; [apply (puts_str (Some (f_module f))); exact (proj1 H7)|exact W9|].
  intros x <-; cbn [fst snd]. rewrite ident_new_ok by exact H7. cbn [bind]. apply puts_reads.
  eapply puts_then; [apply puts_uint; exact H8|exact Wi|].
  intros x <-; cbn [fst snd]. apply puts_reads.
  eapply puts_map; [apply pack_irs_ok; exact H10|].
  intros x Hx; cbn [fst snd]. apply reads_ret.
  rewrite firstn_pre by reflexivity.
  unfold func_kept. cbn [f_nregs f_vars f_cpool f_spec f_framesz f_module f_offset f_irs]. auto 10.
Qed.
