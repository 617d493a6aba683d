(* C16, C18: integers in library files, and the files themselves. *)
From Coq Require Import List NArith ZArith Arith Bool Lia ZifyNat ZifyN ZifyBool.
From Verif Require Import Base AdlerModel AdlerSpec AdlerProofs AdlerProps FbufModel FbufSpec FbufProofs.
Import ListNotations.
Local Open Scope N_scope.

(* ---- C16 ---- *)

(* Every unsigned 64-bit integer is read back, and the bytes after it are left
   where they are. *)
Theorem C16_unsigned_round_trip : forall u rest, u < 2 ^ 64 ->
  get_uint (leb 10 u ++ rest) = Ok (u, rest).
Proof. exact get_uint_ok. Qed.
Print Assumptions C16_unsigned_round_trip.

(* So is every signed one. *)
Theorem C16_signed_round_trip : forall v rest, (- 2 ^ 63 <= v < 2 ^ 63)%Z ->
  read_field KInt (leb 10 (zigzag v) ++ rest) = Ok (FInt v, rest).
Proof. intros v rest R. exact (read_field_ok (FInt v) rest R). Qed.
Print Assumptions C16_signed_round_trip.

(* An integer takes the fewest 7-bit groups that hold it, at most ten bytes: the
   room that is reserved for it. *)
Theorem C16_size : forall u, u < 2 ^ 64 ->
  let k := N.of_nat (length (leb 10 u)) in
  1 <= k <= 10 /\ u < 2 ^ (7 * k) /\ (k = 1 \/ 2 ^ (7 * (k - 1)) <= u).
Proof.
  intros u U k. pose proof (leb_length_le 10 u) as L.
  destruct (leb_length 9 u) as (H1 & H2 & H3).
  { eapply N.lt_le_trans; [exact U|]. apply N.pow_le_mono_r; [discriminate|cbn; lia]. }
  unfold k. split; [lia|]. split; assumption.
Qed.
Print Assumptions C16_size.

(* Any sequence of fields of any kinds, written through the buffer, is what the
   blocks handed to the compressor hold, and reading returns it. *)
Theorem C16_sequences : forall z a xs, z <> ZFastlz -> Forall in_range xs ->
  exists f f', write_fields (fbuf_open_out z a) xs = Ok f /\
    fbuf_maybe_flush f 61440 true = Ok f' /\
    read_fields (map kind_of xs) (concat (map fst (f_blocks f'))) = Ok (xs, []).
Proof.
  intros z a xs Hz R.
  destruct (write_fields_ok z a Hz xs _ [] (open_inv z a) R) as (f & E & I). cbn [app] in I.
  exists f. rewrite (flush_ok z a f _ 61440 true Hz I) by (unfold BIG; lia).
  eexists. split; [exact E|]. split; [reflexivity|].
  assert (D : concat (map fst (f_blocks (if BIG <? len (f_wbuf f) + 61440 then flushed f a true else f))) = concat (map enc xs)).
  { destruct I as (_ & _ & _ & Ea & _ & We & _). destruct (N.ltb_spec BIG (len (f_wbuf f) + 61440)) as [L|L].
    - cbn [flushed f_blocks]. rewrite concat_snoc. now symmetry.
    - rewrite Ea. assert (W : f_wbuf f = []). { destruct (f_wbuf f); [reflexivity|]. unfold len, BIG in L. cbn [length] in L. lia. }
      rewrite W. now rewrite app_nil_r. }
  rewrite D, <- (app_nil_r (concat (map enc xs))). now apply read_fields_ok.
Qed.
Print Assumptions C16_sequences.

Example C16_example :
  leb 10 (2 ^ 64 - 1) = [255; 255; 255; 255; 255; 255; 255; 255; 255; 1] /\
  leb 10 (zigzag (-1)) = [1] /\ length (leb 10 (zigzag (- 2 ^ 63))) = 10%nat /\
  read_fields (map kind_of [FInt (-77); FUint 300; FU16 513])
    (leb 10 (zigzag (-77)) ++ leb 10 300 ++ le_bytes 2 513) = Ok ([FInt (-77); FUint 300; FU16 513], []).
Proof. vm_compute. auto. Qed.

(* ---- C18 ---- *)

(* Whatever the writes, the blocks given to the compressor hold between one byte
   and 60 KiB, only the last is marked as the last, and together they are the
   written bytes. *)
Theorem C18_blocks : forall z a xs, z <> ZFastlz -> Forall in_range xs ->
  exists f f', write_fields (fbuf_open_out z a) xs = Ok f /\
    fbuf_maybe_flush f 61440 true = Ok f' /\ blocks_ok (f_blocks f') /\
    (Forall (fun x => exists bs, x = FRaw bs) xs ->
     concat (map fst (f_blocks f')) = concat (map raw_bytes xs)).
Proof.
  intros z a xs Hz R.
  destruct (write_fields_ok z a Hz xs _ [] (open_inv z a) R) as (f & E & I). cbn [app] in I.
  exists f. rewrite (flush_ok z a f _ 61440 true Hz I) by (unfold BIG; lia).
  eexists. split; [exact E|]. split; [reflexivity|].
  assert (Raw : Forall (fun x => exists bs, x = FRaw bs) xs -> concat (map enc xs) = concat (map raw_bytes xs)).
  { clear. induction xs as [|x xs IH]; intros F; [reflexivity|]. cbn [map concat].
    rewrite (IH (Forall_inv_tail F)). destruct (Forall_inv F) as [bs ->]. reflexivity. }
  destruct I as (_ & _ & Ba & Ea & W & We & _ & Bl & _).
  destruct (N.ltb_spec BIG (len (f_wbuf f) + 61440)) as [L|L].
  - cbn [flushed f_blocks]. rewrite concat_snoc, <- Ea. split; [|exact Raw].
    rewrite Ea in Ba. apply Forall_app in Ba. destruct Ba as [Bb Bw]. split.
    + right. exists (f_blocks f), (f_wbuf f). split; [reflexivity|]. eapply Forall_impl; [|exact Bl]. cbn. tauto.
    + apply Forall_app. split.
      * clear - Bl Bb. induction (f_blocks f) as [|b bs IH]; [constructor|]. cbn [map concat] in Bb.
        apply Forall_app in Bb. destruct Bb as [B1 B2]. constructor; [|apply IH; [exact B2|exact (Forall_inv_tail Bl)]].
        split; [exact B1|]. exact (proj2 (Forall_inv Bl)).
      * constructor; [|constructor]. cbn [fst]. split; [exact Bw|]. unfold len, BIG in *. lia.
  - assert (W0 : f_wbuf f = []). { destruct (f_wbuf f); [reflexivity|]. unfold len, BIG in L. cbn [length] in L. lia. }
    specialize (We W0). rewrite We in *. rewrite W0 in Ea. cbn [map concat app] in *. split.
    + split; [now left|constructor].
    + intros F. rewrite <- Raw by exact F. now symmetry.
Qed.
Print Assumptions C18_blocks.

Lemma enc_width x : len (enc x) <= width x.
Proof.
  pose proof (fun v => leb_length_le 10 v) as K.
  destruct x; cbn [enc width]; unfold len; try (rewrite le_bytes_len; cbn; lia); try (specialize (K u); lia).
  - specialize (K (zigzag v)). lia.
  - lia.
Qed.

Lemma enc_widths : forall xs, len (concat (map enc xs)) <= fold_right N.add 0 (map width xs).
Proof.
  induction xs as [|x xs IH]; cbn [map concat fold_right]; [unfold len; cbn; lia|].
  rewrite len_app. pose proof (enc_width x). lia.
Qed.

Lemma all_bytes xs : Forall in_range xs -> Forall is_byte (concat (map enc xs)).
Proof.
  induction xs as [|x xs IH]; intros R; [constructor|]. cbn [map concat]. apply Forall_app.
  split; [apply enc_bytes, (Forall_inv R)|apply IH, (Forall_inv_tail R)].
Qed.

Lemma adler_P32 l : adler l < P32.
Proof. destruct (sums_bound l). unfold adler, P32. lia. Qed.

Lemma ok_pair_inj {A B} (a a' : A) (b b' : B) : Ok (a, b) = Ok (a', b') -> a = a' /\ b = b'.
Proof. intros H. injection H as H1 H2. auto. Qed.

(* The file of a sequence of fields. *)
Lemma file_shape c z a xs : z <> ZFastlz -> Forall in_range xs ->
  exists bs, blocks_ok bs /\ concat (map fst bs) = concat (map enc xs) /\
    file_of c z a xs =
      Ok ([70; 66; 85; 70; zip_code z; algo_code a; 20; 0] ++ be32 (len (concat (map enc xs)) mod P64) ++
          be32 (match a with CsNone => 0 | CsAdler _ => adler (concat (map enc xs)) end) ++
          be32 (20 + len (payload c z bs)) ++ payload c z bs,
          match a with CsNone => 0 | CsAdler _ => adler (concat (map enc xs)) end).
Proof.
  intros Hz R. destruct (write_fields_ok z a Hz xs _ [] (open_inv z a) R) as (f & E & I). cbn [app] in I.
  unfold file_of. rewrite E. cbn [bind]. exact (close_ok z a f _ c Hz I).
Qed.

Lemma sum_ok a d : (match a with CsNone => 0 | CsAdler _ => adler d end) < P32 /\
  finish a (match a with CsNone => adler_init | CsAdler _ => steps adler_init d end) =
  match a with CsNone => 0 | CsAdler _ => adler d end.
Proof.
  destruct a; [split; reflexivity|]. split; [apply adler_P32|]. cbn [finish]. rewrite steps_spec.
  unfold adler. apply finish_spec; apply N.mod_lt; discriminate.
Qed.

(* What is written is read back, with the same checksum, whatever the writes,
   the compressor (as long as it is lossless) and the checksum implementations
   of the writing and the reading machine, for files below 4 GiB. *)
Theorem C18_reread : forall c z aw ar xs,
  z <> ZFastlz -> (z = ZOther -> lossless c) -> algo_code aw = algo_code ar ->
  Forall in_range xs -> fold_right N.add 0 (map width xs) < 2 ^ 32 ->
  exists file sum, file_of c z aw xs = Ok (file, sum) /\
    (N.of_nat (length file) < 2 ^ 32 ->
     reread c ar (map kind_of xs) file = Ok (xs, [], sum)).
Proof.
  intros c z aw ar xs Hz Hc Ha R Hw. destruct (file_shape c z aw xs Hz R) as (bs & Bo & Bc & E).
  rewrite E. eexists _, _. split; [reflexivity|]. intros Hl.
  set (all := concat (map enc xs)) in *. set (sum := match aw with CsNone => 0 | CsAdler _ => adler all end) in *.
  set (body := payload c z bs) in *.
  assert (Hall : len all < P32) by (pose proof (enc_widths xs); unfold P32; change (2 ^ 32) with 4294967296 in Hw; fold all in H; lia).
  assert (Hbody : 20 + len body < P32).
  { rewrite !app_length in Hl. rewrite !be32_len in Hl. cbn [length] in Hl. change (2 ^ 32) with P32 in Hl. unfold len. lia. }
  rewrite (N.mod_small (len all)) by (unfold P64, P32 in *; lia).
  assert (Sum : sum < P32) by apply sum_ok.
  assert (Same : forall d, (match aw with CsNone => 0 | CsAdler _ => adler d end) = match ar with CsNone => 0 | CsAdler _ => adler d end).
  { intros d. destruct aw, ar; try reflexivity; discriminate. }
  unfold reread. rewrite Ha.
  pose proof (open_in_ok c ar (zip_code z) (len all) sum body [] all Hall Sum Hbody) as O. rewrite app_nil_r in O.
  rewrite O.
  - cbn [bind]. rewrite <- (app_nil_r all). unfold all at 1. rewrite read_fields_ok by exact R. cbn [bind].
    unfold fbuf_close_in. rewrite app_nil_r, (proj2 (sum_ok ar all)), <- Same. fold sum. rewrite N.eqb_refl. reflexivity.
  - destruct z; [left|congruence|right].
    + split; [reflexivity|]. unfold body. cbn [payload]. rewrite Bc. auto.
    + split; [now left|]. split; [|reflexivity]. unfold body. cbn [payload]. unfold len. rewrite <- Bc. now apply Hc.
  - now apply all_bytes.
Qed.
Print Assumptions C18_reread.

(* Reading raw bytes in pieces of any sizes returns the bytes in order. *)
Theorem C18_read_sizes : forall data sizes rest,
  fold_right Nat.add O sizes = length data ->
  exists ps, read_fields (map KRaw sizes) (data ++ rest) = Ok (map FRaw ps, rest) /\
    concat ps = data /\ map (@length N) ps = sizes.
Proof.
  intros data sizes rest. revert data. induction sizes as [|n sizes IH]; intros data H; cbn [map read_fields fold_right] in *.
  - destruct data; [|discriminate]. exists []. auto.
  - assert (Hn : (n <= length data)%nat) by lia.
    destruct (IH (skipn n data)) as (ps & E & C & L); [rewrite skipn_length; lia|].
    exists (firstn n data :: ps). cbn [read_field]. destruct (Nat.ltb_spec (length (data ++ rest)) n) as [?|_]; [rewrite app_length in *; lia|].
    cbn [bind]. rewrite skipn_app, firstn_app. replace (n - length data)%nat with O by lia. cbn [skipn firstn]. rewrite app_nil_r.
    rewrite E. cbn [bind map concat]. rewrite C, L, firstn_skipn, firstn_length, Nat.min_l by exact Hn. auto.
Qed.
Print Assumptions C18_read_sizes.

(* An uncompressed file with one byte of its contents changed is rejected when
   the reader closes it. *)
Theorem C18_corruption_detected : forall c i j xs file sum body',
  Forall in_range xs -> fold_right N.add 0 (map width xs) + 20 < 2 ^ 32 ->
  file_of c ZNone (CsAdler i) xs = Ok (file, sum) ->
  one_byte_changed (skipn 20 file) body' ->
  Forall is_byte body' ->
  exists data cs expect, fbuf_open_in c (CsAdler j) (firstn 20 file ++ body') = Ok (data, cs, expect) /\
    fbuf_close_in (CsAdler j) cs expect = Fault.
Proof.
  intros c i j xs file sum body' R Hw E Ch Bb. assert (Hz : ZNone <> ZFastlz) by discriminate.
  destruct (file_shape c ZNone (CsAdler i) xs Hz R) as (bs & Bo & Bc & E').
  rewrite E' in E. apply ok_pair_inj in E. destruct E as [<- <-]. cbn [payload] in *. rewrite Bc in *. set (all := concat (map enc xs)) in *.
  set (h := [70; 66; 85; 70; zip_code ZNone; algo_code (CsAdler i); 20; 0]) in *.
  assert (Hlen : len all + 20 < P32) by (pose proof (enc_widths xs); fold all in H; unfold P32; change (2 ^ 32) with 4294967296 in Hw; lia).
  rewrite (N.mod_small (len all)) in * by (unfold P64, P32 in *; lia).
  assert (Sp : h ++ be32 (len all) ++ be32 (adler all) ++ be32 (20 + len all) ++ all =
               (h ++ be32 (len all) ++ be32 (adler all) ++ be32 (20 + len all)) ++ all) by now rewrite <- !app_assoc.
  rewrite Sp in *. rewrite (skipn_pre _ all 20) in Ch by reflexivity. rewrite (firstn_pre _ all 20) by reflexivity.
  rewrite <- !app_assoc.
  assert (Len : len body' = len all).
  { destruct Ch as (p & b & b' & s & -> & -> & _). unfold len. rewrite !app_length. cbn. reflexivity. }
  rewrite <- Len. eexists _, _, _. split.
  - pose proof (open_in_ok c (CsAdler j) 45 (len body') (adler all) body' [] body') as O. rewrite app_nil_r in O.
    apply O; [lia|apply adler_P32|lia|left; auto|exact Bb].
  - unfold fbuf_close_in. rewrite (proj2 (sum_ok (CsAdler j) body')).
    destruct (N.eqb_spec (adler body') (adler all)) as [Ea|_]; [|reflexivity].
    exfalso. symmetry in Ea. revert Ea. now apply C17_detects_one_byte.
Qed.
Print Assumptions C18_corruption_detected.

(* A file that lost its tail is rejected when it is opened. *)
Theorem C18_truncation_detected : forall c z aw ar xs file sum n,
  z <> ZFastlz -> Forall in_range xs ->
  file_of c z aw xs = Ok (file, sum) -> N.of_nat (length file) < 2 ^ 32 ->
  (n < length file)%nat -> fbuf_open_in c ar (firstn n file) = Fault.
Proof.
  intros c z aw ar xs file sum n Hz R E Hl Hn. destruct (file_shape c z aw xs Hz R) as (bs & Bo & Bc & E').
  rewrite E' in E. apply ok_pair_inj in E. destruct E as [<- <-]. set (body := payload c z bs) in *. set (total := len _ mod P64) in *.
  set (sum := match aw with CsNone => 0 | CsAdler _ => _ end) in *.
  set (h := [70; 66; 85; 70; zip_code z; algo_code aw; 20; 0] ++ be32 total ++ be32 sum ++ be32 (20 + len body)).
  assert (Ef : [70; 66; 85; 70; zip_code z; algo_code aw; 20; 0] ++ be32 total ++ be32 sum ++ be32 (20 + len body) ++ body = h ++ body)
    by (unfold h; now rewrite <- !app_assoc).
  rewrite Ef in *. assert (Hh : length h = 20%nat) by reflexivity.
  rewrite app_length, Hh in Hl, Hn. change (2 ^ 32) with P32 in Hl.
  assert (Lf : len (firstn n (h ++ body)) = N.of_nat n).
  { unfold len. rewrite firstn_length, app_length, Hh, Nat.min_l by lia. reflexivity. }
  unfold fbuf_open_in. rewrite Lf. destruct (N.ltb_spec (N.of_nat n) 16) as [_|L16]; [reflexivity|].
  destruct (negb _); [reflexivity|]. destruct (negb _); [reflexivity|]. destruct (negb _); [reflexivity|].
  destruct (N.ltb_spec (N.of_nat n) 20) as [_|L20]; [reflexivity|].
  assert (F : firstn 4 (skipn 16 (firstn n (h ++ body))) = be32 (20 + len body)).
  { rewrite firstn_app, Hh. rewrite (firstn_all2 (n:=n) h) by lia. rewrite skipn_app, Hh. cbn [Nat.sub]. reflexivity. }
  rewrite F, unbe32_ok by (unfold len; lia).
  destruct (N.ltb_spec (N.of_nat n) (20 + len body)) as [_|?]; [reflexivity|unfold len in *; lia].
Qed.
Print Assumptions C18_truncation_detected.

(* ---- where the statement fails ---- *)

Definition id_codec : codec := Codec (fun bs => concat (map fst bs)) (fun p _ => Some p).
Lemma id_lossless : lossless id_codec. Proof. intros bs _. reflexivity. Qed.

(* With the FASTLZ format a short block is padded with zeros, and the zeros are
   part of the contents: they come back in the middle of the file when a large
   write follows fewer than 16 pending bytes. *)
Theorem C18_fastlz_padding_refuted : exists xs,
  Forall in_range xs /\ fold_right N.add 0 (map width xs) < 2 ^ 32 /\
  exists file sum, file_of id_codec ZFastlz CsNone xs = Ok (file, sum) /\
    N.of_nat (length file) < 2 ^ 32 /\
    exists ys rest sum', reread id_codec CsNone (map kind_of xs) file = Ok (ys, rest, sum') /\
      nth 0 ys (FU8 0) = nth 0 xs (FU8 0) /\ nth 1 ys (FU8 0) <> nth 1 xs (FU8 0).
Proof.
  remember (N.to_nat 61440) as n eqn:En. assert (Hn : N.of_nat n = 61440) by (rewrite En; apply N2Nat.id). clear En.
  exists [FU8 1; FRaw (repeat 7 n)].
  assert (By : Forall is_byte (repeat 7 n)).
  { apply Forall_forall. intros x Hx. apply repeat_spec in Hx. subst x. reflexivity. }
  assert (Ln : len (repeat 7 n) = 61440) by (unfold len; now rewrite repeat_length).
  split.
  { constructor; [reflexivity|]. constructor; [|constructor]. split; [exact By|]. unfold len in Ln. rewrite Ln. discriminate. }
  split. { cbn [map width fold_right]. unfold len in Ln. rewrite Ln. reflexivity. }
  destruct n as [|[|n]]; try discriminate Hn.
  set (big := repeat 7 (S (S n))) in *.
  set (data := (1 :: repeat 0 15) ++ big).
  assert (Ld : len data = 61456) by (unfold data; rewrite len_app, Ln; reflexivity).
  assert (E : file_of id_codec ZFastlz CsNone [FU8 1; FRaw big] =
    Ok ([70; 66; 85; 70; 70; 45; 20; 0] ++ be32 (len data) ++ be32 0 ++ be32 (20 + len data) ++ data, 0)).
  { unfold file_of. cbn [write_fields write_field]. change (fbuf_maybe_flush (fbuf_open_out ZFastlz CsNone) 1 false) with (Ok (fbuf_open_out ZFastlz CsNone)).
    cbn [bind]. change (put_bytes (fbuf_open_out ZFastlz CsNone) (le_bytes 1 1)) with (Ok (Fbuf ZFastlz CsNone adler_init [1] 0 [])).
    cbn [bind]. rewrite Ln. unfold fbuf_maybe_flush at 1. cbn [f_wbuf f_zip f_algo f_cs f_wtotal f_blocks].
    change (BLOCK_SIZE <? 61440) with false. change (BLOCK_SIZE <? len [1] + 61440) with true. cbn [checksum_update bind].
    unfold put_bytes. cbn [f_wbuf f_zip f_algo f_cs f_wtotal f_blocks]. rewrite Ln.
    change (SPILL_SIZE <? len [] + 61440) with false. cbn [bind app].
    unfold fbuf_close_out, fbuf_maybe_flush. cbn [f_wbuf f_zip f_algo f_cs f_wtotal f_blocks]. rewrite Ln.
    change (BLOCK_SIZE <? BLOCK_SIZE) with false. change (BLOCK_SIZE <? 61440 + BLOCK_SIZE) with true. cbv iota.
    assert (L16 : (16 - length big)%nat = O) by (unfold len in Ln; lia). rewrite L16. cbn [repeat]. rewrite app_nil_r.
    cbn [checksum_update bind f_wbuf f_zip f_algo f_cs f_wtotal f_blocks app payload id_codec pack map fst concat finish]. rewrite app_nil_r.
    cbv zeta. change (1 :: repeat 0 (16 - length [1]) ++ big) with data. rewrite Ld, Ln. reflexivity. }
  rewrite E. eexists _, _. split; [reflexivity|]. split.
  { rewrite !app_length, !be32_len. unfold len in Ld. change (2 ^ 32) with 4294967296. cbn [length]. lia. }
  assert (Bd : Forall is_byte data).
  { unfold data. apply Forall_app. split; [|exact By]. repeat constructor. }
  unfold reread. pose proof (open_in_ok id_codec CsNone 70 (len data) 0 data [] data) as O. rewrite app_nil_r in O.
  change (algo_code CsNone) with 45 in O. rewrite O; [| rewrite Ld; reflexivity | reflexivity | rewrite Ld; reflexivity
    | right; split; [now right|split; reflexivity] | exact Bd].
  cbn [bind map kind_of read_fields read_field get_le data app]. unfold data. cbn [app repeat].
  destruct (Nat.ltb_spec (length (0 :: 0 :: 0 :: 0 :: 0 :: 0 :: 0 :: 0 :: 0 :: 0 :: 0 :: 0 :: 0 :: 0 :: 0 :: big)) (length big)) as [L|L];
    [cbn [length] in L; lia|].
  cbn [bind]. unfold fbuf_close_in. change (finish CsNone adler_init =? 0) with true. cbn [bind].
  eexists _, _, _. split; [reflexivity|]. split; [reflexivity|]. cbn [nth]. intros H.
  apply (f_equal (fun x => nth 0 (raw_bytes x) 9)) in H. unfold big in H.
  cbn [raw_bytes repeat length firstn nth] in H. discriminate H.
Qed.
Print Assumptions C18_fastlz_padding_refuted.

(* The lengths in the header have 32 bits: the contents of a file of 4 GiB or more
   are lost without an error while writing. *)
Theorem C18_4gib_refuted : exists xs,
  Forall in_range xs /\
  exists file sum, file_of id_codec ZNone CsNone xs = Ok (file, sum) /\
    reread id_codec CsNone (map kind_of xs) file = Fault.
Proof.
  remember (N.to_nat (2 ^ 32)) as n eqn:Hn. exists (repeat (FRaw [0]) n).
  assert (R : Forall in_range (repeat (FRaw [0]) n)).
  { apply Forall_forall. intros x Hx. apply repeat_spec in Hx. subst x. split; [repeat constructor|discriminate]. }
  split; [exact R|]. assert (Hz : ZNone <> ZFastlz) by discriminate.
  destruct (file_shape id_codec ZNone CsNone _ Hz R) as (bs & Bo & Bc & E). rewrite E. eexists _, _. split; [reflexivity|].
  cbn [payload]. rewrite Bc. clear E Bo Bc bs.
  assert (L : len (concat (map enc (repeat (FRaw [0]) n))) = 2 ^ 32).
  { replace (2 ^ 32) with (N.of_nat n) by (rewrite Hn; apply N2Nat.id). clear. unfold len. f_equal.
    induction n as [|n IH]; [reflexivity|]. cbn [repeat map enc concat app length]. now rewrite IH. }
  set (all := concat _) in *. rewrite L.
  assert (Hd : be32 (2 ^ 32 mod P64) = [0; 0; 0; 0]) by reflexivity. rewrite Hd. clear Hd.
  assert (Hd : be32 (20 + 2 ^ 32) = [0; 0; 0; 20]) by reflexivity. rewrite Hd. clear Hd.
  change (be32 0) with [0; 0; 0; 0].
  assert (Hf : fbuf_open_in id_codec CsNone
     ([70; 66; 85; 70; zip_code ZNone; algo_code CsNone; 20; 0] ++ [0;0;0;0] ++ [0;0;0;0] ++ [0;0;0;20] ++ all) = Ok ([], adler_init, 0)).
  { unfold fbuf_open_in.
    assert (Lf : len ([70; 66; 85; 70; zip_code ZNone; algo_code CsNone; 20; 0] ++ [0;0;0;0] ++ [0;0;0;0] ++ [0;0;0;20] ++ all) = 20 + 2 ^ 32).
    { rewrite !len_app, L. reflexivity. }
    rewrite Lf. clear Lf. change (20 + 2 ^ 32) with 4294967316. reflexivity. }
  unfold reread. rewrite Hf. cbn [bind].
  destruct n as [|n']; [exfalso; apply (f_equal N.of_nat) in Hn; rewrite N2Nat.id in Hn; discriminate|].
  cbn [repeat map kind_of read_fields read_field length Nat.ltb Nat.leb bind]. reflexivity.
Qed.
Print Assumptions C18_4gib_refuted.

(* A small file. *)
Example C18_example :
  let xs := [FRaw [5; 6; 7]; FUint (2 ^ 63); FInt (-3); FU32 77] in
  match file_of id_codec ZNone (CsAdler Avx2) xs with
  | Ok (file, sum) =>
      N.of_nat (length file) < 2 ^ 32 /\
      reread id_codec (CsAdler Scalar32) (map kind_of xs) file = Ok (xs, [], sum)
  | Fault => False
  end.
Proof. vm_compute. auto. Qed.

(* A file of two blocks, the cut before a small field that does not fit: two bytes
   are still free in the first block. *)
Example C18_example_blocks : forall i,
  let xs := [FRaw (repeat 5 (N.to_nat 61438)); FU32 77] in
  Forall in_range xs /\ fold_right N.add 0 (map width xs) + 20 < 2 ^ 32 /\
  exists f, write_fields (fbuf_open_out ZNone (CsAdler i)) xs = Ok f /\
    map (fun b => N.of_nat (length (fst b))) (f_blocks f) = [61438] /\ f_wbuf f = [77; 0; 0; 0].
Proof.
  intros i xs. unfold xs. remember (N.to_nat 61438) as n eqn:En.
  assert (Hn : N.of_nat n = 61438) by (rewrite En; apply N2Nat.id). clear En xs.
  assert (By : Forall is_byte (repeat 5 n)).
  { apply Forall_forall. intros x Hx. apply repeat_spec in Hx. subst x. reflexivity. }
  assert (Ln : len (repeat 5 n) = 61438) by (unfold len; now rewrite repeat_length).
  set (big := repeat 5 n) in *. clearbody big. split.
  { constructor; [|repeat constructor]. split; [exact By|]. unfold len in Ln. rewrite Ln. discriminate. }
  split. { cbn [map width fold_right]. unfold len in Ln. rewrite Ln. reflexivity. }
  cbn [write_fields write_field]. rewrite Ln.
  change (fbuf_maybe_flush (fbuf_open_out ZNone (CsAdler i)) 61438 false) with (Ok (fbuf_open_out ZNone (CsAdler i))).
  cbn [bind]. unfold put_bytes at 1, fbuf_open_out. cbn [f_wbuf f_zip f_algo f_cs f_wtotal f_blocks]. rewrite Ln.
  change (SPILL_SIZE <? len [] + 61438) with false. cbn [bind app]. unfold fbuf_maybe_flush.
  cbn [f_wbuf f_zip f_algo f_cs f_wtotal f_blocks]. rewrite Ln.
  change (BLOCK_SIZE <? 4) with false. change (BLOCK_SIZE <? 61438 + 4) with true. cbv iota zeta.
  rewrite update_ok' by (auto using init_good). cbn [bind]. unfold put_bytes. cbn [f_wbuf f_zip f_algo f_cs f_wtotal f_blocks].
  change (SPILL_SIZE <? len [] + len (le_bytes 4 77)) with false. cbv iota. cbn [bind].
  eexists. split; [reflexivity|]. cbn [f_blocks f_wbuf map fst app]. split; [|reflexivity].
  unfold len in Ln. now rewrite Ln.
Qed.
