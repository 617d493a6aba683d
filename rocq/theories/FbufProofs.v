(* Proofs about the library file format. *)
From Coq Require Import List NArith ZArith Arith Bool Lia ZifyNat ZifyN ZifyBool.
From Verif Require Import Base AdlerModel AdlerSpec AdlerProofs FbufModel FbufSpec.
Import ListNotations.
Local Open Scope N_scope.

(* ---- bits ---- *)

Lemma lor_disjoint a b s : a < 2 ^ s -> N.lor a (b * 2 ^ s) = a + b * 2 ^ s.
Proof.
  intros A. symmetry. assert (L : N.land a (b * 2 ^ s) = 0).
  { apply N.bits_inj. intros n. rewrite N.land_spec, N.bits_0.
    destruct (N.lt_ge_cases n s) as [H|H].
    - rewrite N.mul_pow2_bits_low by assumption. apply Bool.andb_false_r.
    - replace a with (a mod 2 ^ s) by (now apply N.mod_small).
      rewrite N.mod_pow2_bits_high by assumption. reflexivity. }
  rewrite <- N.lxor_lor by exact L. now apply N.add_nocarry_lxor.
Qed.

Lemma land127 v : N.land v 127 = v mod 2 ^ 7.
Proof. change 127 with (N.ones 7). apply N.land_ones. Qed.
Lemma land255 v : N.land v 255 = v mod 2 ^ 8.
Proof. change 255 with (N.ones 8). apply N.land_ones. Qed.

Lemma land128_small v : v < 128 -> N.land v 128 = 0.
Proof.
  intros H. apply N.bits_inj. intros n. rewrite N.land_spec, N.bits_0.
  change 128 with (2 ^ 7). rewrite N.pow2_bits_eqb. destruct (N.eqb_spec 7 n) as [<-|].
  - replace v with (v mod 2 ^ 7) by (now apply N.mod_small). now rewrite N.mod_pow2_bits_high.
  - apply Bool.andb_false_r.
Qed.

Lemma enc_cont v : v < 128 -> N.lor v 128 = v + 128.
Proof. intros H. apply (lor_disjoint v 1 7). exact H. Qed.

Lemma land128_cont v : v < 128 -> N.land (v + 128) 128 = 128.
Proof.
  intros H. rewrite <- enc_cont by assumption. rewrite N.land_lor_distr_l, land128_small by assumption. reflexivity.
Qed.
Lemma land127_cont v : v < 128 -> N.land (v + 128) 127 = v.
Proof.
  intros H. rewrite land127. change (2 ^ 7) with 128. replace (v + 128) with (v + 1 * 128) by lia.
  rewrite N.mod_add by discriminate. now apply N.mod_small.
Qed.
Lemma land127_small v : v < 128 -> N.land v 127 = v.
Proof. intros H. rewrite land127. now apply N.mod_small. Qed.

(* ---- variable-length integers ---- *)

Lemma split7 v : v = v mod 128 + N.shiftr v 7 * 128.
Proof.
  rewrite N.shiftr_div_pow2. change (2 ^ 7) with 128. pose proof (N.div_mod v 128 ltac:(discriminate)). lia.
Qed.

Lemma get_uint_loop_ok rest : forall fuel v acc s,
  v <> 0 -> v < 2 ^ (7 * N.of_nat fuel) -> v * 2 ^ s < P64 -> acc < 2 ^ s ->
  get_uint_loop (leb fuel v ++ rest) acc s = Ok (acc + v * 2 ^ s, rest).
Proof.
  induction fuel as [|fuel IH]; intros v acc s V F B A.
  { change (2 ^ (7 * N.of_nat 0)) with 1 in F. lia. }
  cbn [leb]. set (lo := v mod 128). assert (L : lo < 128) by (apply N.mod_lt; discriminate).
  pose proof (split7 v) as Sp. fold lo in Sp. rewrite land127. change (v mod 2 ^ 7) with lo.
  set (hi := N.shiftr v 7) in *.
  assert (Hs : (64 <=? s) = false).
  { apply N.leb_gt. assert (2 ^ s < 2 ^ 64).
    { change (2 ^ 64) with P64. nia. } apply N.pow_lt_mono_r_iff in H; lia. }
  assert (Hlo : lo * 2 ^ s < P64) by nia.
  destruct (N.eqb_spec hi 0) as [E|E].
  - cbn [app get_uint_loop]. rewrite Hs, land127_small, land128_small by assumption.
    rewrite N.shiftl_mul_pow2, N.mod_small, lor_disjoint by assumption.
    cbn. repeat f_equal. nia.
  - rewrite enc_cont by assumption. cbn [app get_uint_loop]. rewrite Hs, land127_cont, land128_cont by assumption.
    rewrite N.shiftl_mul_pow2, N.mod_small, lor_disjoint by assumption.
    change (128 =? 0) with false. cbv iota.
    assert (P : 2 ^ (s + 7) = 2 ^ s * 128) by (rewrite N.pow_add_r; reflexivity).
    rewrite IH; [| exact E | | |].
    + rewrite P. f_equal. f_equal. nia.
    + assert (Q : 2 ^ (7 * N.of_nat (S fuel)) = 128 * 2 ^ (7 * N.of_nat fuel)).
      { replace (7 * N.of_nat (S fuel)) with (7 + 7 * N.of_nat fuel) by lia. rewrite N.pow_add_r. reflexivity. }
      rewrite Q in F. nia.
    + rewrite P. nia.
    + rewrite P. nia.
Qed.

Lemma get_uint_ok u rest : u < P64 -> get_uint (leb 10 u ++ rest) = Ok (u, rest).
Proof.
  intros U. change (leb 10 u) with (let enc := N.land u 127 in let val := N.shiftr u 7 in
    if val =? 0 then [enc] else N.lor enc 128 :: leb 9 val). cbv zeta.
  set (lo := u mod 128). assert (L : lo < 128) by (apply N.mod_lt; discriminate).
  pose proof (split7 u) as Sp. fold lo in Sp. rewrite land127. change (u mod 2 ^ 7) with lo.
  set (hi := N.shiftr u 7) in *. destruct (N.eqb_spec hi 0) as [E|E].
  - cbn [app get_uint]. rewrite land128_small by assumption. cbn. f_equal. f_equal. lia.
  - rewrite enc_cont by assumption. cbn [app get_uint]. rewrite land128_cont, land127_cont by assumption.
    change (128 =? 0) with false. cbv iota. rewrite get_uint_loop_ok.
    + f_equal. f_equal. change (2 ^ 7) with 128. lia.
    + exact E.
    + change (2 ^ (7 * N.of_nat 9)) with 9223372036854775808. unfold P64 in U. lia.
    + change (2 ^ 7) with 128. lia.
    + exact L.
Qed.

Lemma leb_bytes : forall fuel v, Forall is_byte (leb fuel v).
Proof.
  induction fuel as [|fuel IH]; intros v; cbn [leb]; [constructor|].
  assert (L : N.land v 127 < 128) by (rewrite land127; apply N.mod_lt; discriminate).
  destruct (N.shiftr v 7 =? 0); constructor; auto; try (rewrite enc_cont by assumption); unfold is_byte; lia.
Qed.

Lemma leb_length_le : forall fuel v, (length (leb fuel v) <= fuel)%nat.
Proof.
  induction fuel as [|fuel IH]; intros v; cbn [leb]; [cbn; lia|].
  destruct (N.shiftr v 7 =? 0); cbn [length]; [lia|]. specialize (IH (N.shiftr v 7)). lia.
Qed.

(* The number of bytes: the least k with u < 2^(7k), at least one. *)
Lemma leb_length : forall fuel v, v < 2 ^ (7 * N.of_nat (S fuel)) ->
  let k := N.of_nat (length (leb (S fuel) v)) in
  1 <= k /\ v < 2 ^ (7 * k) /\ (k = 1 \/ 2 ^ (7 * (k - 1)) <= v).
Proof.
  induction fuel as [|fuel IH]; intros v V; cbn [leb]; pose proof (split7 v) as Sp;
    assert (L : v mod 128 < 128) by (apply N.mod_lt; discriminate).
  - change (2 ^ (7 * N.of_nat 1)) with 128 in V.
    destruct (N.eqb_spec (N.shiftr v 7) 0); cbn; lia.
  - destruct (N.eqb_spec (N.shiftr v 7) 0) as [E|E].
    + cbn [length]. cbv zeta. change (2 ^ (7 * N.of_nat 1)) with 128. lia.
    + cbn [length]. cbn [leb] in IH. specialize (IH (N.shiftr v 7)). cbv zeta in *.
      assert (Q : forall f, 2 ^ (7 * N.of_nat (S f)) = 128 * 2 ^ (7 * N.of_nat f)).
      { intros f. replace (7 * N.of_nat (S f)) with (7 + 7 * N.of_nat f) by lia. rewrite N.pow_add_r. reflexivity. }
      rewrite Q in V. destruct IH as (I1 & I2 & I3); [lia|].
      match goal with |- context [length ?l] => set (k := length l) in * end. rewrite Q.
      split; [lia|]. split; [lia|]. right.
      replace (7 * (N.of_nat (S k) - 1)) with (7 * N.of_nat k) by lia.
      destruct I3 as [I3|I3].
      * rewrite I3. change (2 ^ (7 * 1)) with 128. lia.
      * replace (7 * N.of_nat k) with (7 + 7 * (N.of_nat k - 1)) by lia.
        rewrite N.pow_add_r. change (2 ^ 7) with 128. lia.
Qed.

Lemma xor_ones x : x < P64 -> N.lxor x (P64 - 1) = P64 - 1 - x.
Proof.
  intros H. change (P64 - 1) with (N.ones 64). change (N.lxor x (N.ones 64)) with (N.lnot x 64).
  destruct (N.eq_dec x 0) as [->|Z]; [reflexivity|]. apply N.lnot_sub_low. apply N.log2_lt_pow2; [lia|exact H].
Qed.

Lemma zigzag_value v : (- 2 ^ 63 <= v < 2 ^ 63)%Z ->
  zigzag v = Z.to_N (if v <? 0 then -2 * v - 1 else 2 * v)%Z.
Proof.
  intros R. change (- 2 ^ 63 <= v < 2 ^ 63)%Z with (-9223372036854775808 <= v < 9223372036854775808)%Z in R.
  unfold zigzag, to_u64. rewrite Z.shiftr_div_pow2 by lia. change (2 ^ 63)%Z with 9223372036854775808%Z.
  rewrite N.shiftl_mul_pow2. change (2 ^ 1) with 2. destruct (Z.ltb_spec v 0) as [L|L].
  - assert (D : (v / 9223372036854775808 = -1)%Z) by (symmetry; apply (Z.div_unique v _ (-1) (v + 9223372036854775808)); lia).
    rewrite D. change (Z.to_N (-1 mod 18446744073709551616)) with (P64 - 1).
    assert (M : (v mod 18446744073709551616 = v + 18446744073709551616)%Z) by (symmetry; apply (Z.mod_unique v _ (-1)); lia).
    rewrite M. set (w := Z.to_N (v + 18446744073709551616)).
    assert (E : w * 2 mod P64 = w * 2 - P64).
    { replace (w * 2) with (w * 2 - P64 + 1 * P64) at 1 by (unfold P64; lia).
      rewrite N.mod_add by discriminate. apply N.mod_small. unfold P64. lia. }
    rewrite E, xor_ones by (unfold P64; lia). unfold P64. lia.
  - rewrite Z.div_small, Z.mod_small by lia. change (Z.to_N (0 mod 18446744073709551616)) with 0.
    rewrite N.lxor_0_r, N.mod_small by (unfold P64; lia). lia.
Qed.

Lemma unzigzag_ok v : (- 2 ^ 63 <= v < 2 ^ 63)%Z -> zigzag v < P64 /\ unzigzag (zigzag v) = v.
Proof.
  intros R. rewrite zigzag_value by exact R.
  change (- 2 ^ 63 <= v < 2 ^ 63)%Z with (-9223372036854775808 <= v < 9223372036854775808)%Z in R.
  split; [unfold P64; destruct (Z.ltb_spec v 0); lia|]. unfold unzigzag.
  rewrite N.shiftr_div_pow2. change (2 ^ 1) with 2. change (N.land ?x 1) with (N.land x (N.ones 1)).
  rewrite N.land_ones. change (2 ^ 1) with 2. destruct (Z.ltb_spec v 0) as [L|L].
  - replace (Z.to_N (-2 * v - 1)) with (1 + Z.to_N (- v - 1) * 2) by lia.
    rewrite N.mod_add, N.div_add by discriminate. change (1 / 2) with 0. change (1 mod 2) with 1.
    change ((P64 - 1) mod P64) with (P64 - 1). rewrite xor_ones by (unfold P64; lia).
    unfold of_u64, P64. destruct (N.ltb_spec (18446744073709551616 - 1 - (0 + Z.to_N (- v - 1))) 9223372036854775808); lia.
  - replace (Z.to_N (2 * v)) with (0 + Z.to_N v * 2) by lia.
    rewrite N.mod_add, N.div_add by discriminate. change (0 / 2) with 0. change (0 mod 2) with 0.
    change ((P64 - 0) mod P64) with 0. rewrite N.lxor_0_r. unfold of_u64.
    destruct (N.ltb_spec (0 + Z.to_N v) 9223372036854775808); lia.
Qed.

(* ---- fixed-length integers ---- *)

Lemma get_le_ok rest : forall n u s, u < 2 ^ (8 * N.of_nat n) ->
  get_le n (le_bytes n u ++ rest) s = Ok (u * 2 ^ s, rest).
Proof.
  induction n as [|n IH]; intros u s U; cbn [le_bytes get_le app].
  - change (2 ^ (8 * N.of_nat 0)) with 1 in U. replace u with 0 by lia. reflexivity.
  - assert (Q : 2 ^ (8 * N.of_nat (S n)) = 256 * 2 ^ (8 * N.of_nat n)).
    { replace (8 * N.of_nat (S n)) with (8 + 8 * N.of_nat n) by lia. rewrite N.pow_add_r. reflexivity. }
    rewrite Q in U. rewrite IH.
    + cbn [bind]. rewrite land255, N.shiftl_mul_pow2, N.shiftr_div_pow2. change (2 ^ 8) with 256.
      replace (2 ^ (s + 8)) with (2 ^ s * 256) by (rewrite N.pow_add_r; reflexivity).
      rewrite (N.mul_comm (2 ^ s) 256), N.mul_assoc.
      assert (E : N.lor (u mod 256 * 2 ^ s) (u / 256 * 256 * 2 ^ s) = N.lor (u mod 256) (u / 256 * 2 ^ 8) * 2 ^ s).
      { change (2 ^ 8) with 256. rewrite <- !(N.shiftl_mul_pow2 _ s), N.shiftl_lor. reflexivity. }
      rewrite E, lor_disjoint by (apply N.mod_lt; discriminate). change (2 ^ 8) with 256.
      pose proof (N.div_mod u 256 ltac:(discriminate)) as D.
      replace (u mod 256 + u / 256 * 256) with u by lia. reflexivity.
    + rewrite N.shiftr_div_pow2. change (2 ^ 8) with 256. apply N.div_lt_upper_bound; [discriminate|exact U].
Qed.

Lemma le_bytes_len : forall n u, length (le_bytes n u) = n.
Proof. induction n; intros; cbn; auto. Qed.
Lemma le_bytes_bytes : forall n u, Forall is_byte (le_bytes n u).
Proof.
  induction n as [|n IH]; intros u; cbn [le_bytes]; constructor; auto.
  rewrite land255. unfold is_byte. apply N.mod_lt. discriminate.
Qed.

(* ---- the bytes of a field ---- *)

Definition enc (x : field) : list N :=
  match x with
  | FU8 u => le_bytes 1 u | FU16 u => le_bytes 2 u | FU32 u => le_bytes 4 u | FU64 u => le_bytes 8 u
  | FUint u => leb 10 u | FInt v => leb 10 (zigzag v) | FRaw bs => bs
  end.

Lemma enc_bytes x : in_range x -> Forall is_byte (enc x).
Proof. destruct x; cbn [enc in_range]; intros H; auto using le_bytes_bytes, leb_bytes; apply H. Qed.

Lemma read_field_ok x rest : in_range x -> read_field (kind_of x) (enc x ++ rest) = Ok (x, rest).
Proof.
  destruct x as [u|u|u|u|u|v|bs]; intros R; cbn [kind_of read_field enc in_range] in *.
  - rewrite (get_le_ok rest 1 u 0 R). cbn [bind]. now rewrite N.mul_1_r.
  - rewrite (get_le_ok rest 2 u 0 R). cbn [bind]. now rewrite N.mul_1_r.
  - rewrite (get_le_ok rest 4 u 0 R). cbn [bind]. now rewrite N.mul_1_r.
  - rewrite (get_le_ok rest 8 u 0 R). cbn [bind]. now rewrite N.mul_1_r.
  - rewrite (get_uint_ok u rest R). reflexivity.
  - destruct (unzigzag_ok v R) as [B E]. rewrite (get_uint_ok _ rest B). cbn [bind]. now rewrite E.
  - destruct (Nat.ltb_spec (length (bs ++ rest)) (length bs)) as [L|L]; [rewrite app_length in L; lia|].
    rewrite firstn_app, skipn_app, Nat.sub_diag, firstn_all, skipn_all. cbn. now rewrite app_nil_r.
Qed.

Lemma read_fields_ok rest : forall xs, Forall in_range xs ->
  read_fields (map kind_of xs) (concat (map enc xs) ++ rest) = Ok (xs, rest).
Proof.
  induction xs as [|x xs IH]; intros R; cbn [map read_fields concat app]; [reflexivity|].
  rewrite <- app_assoc, read_field_ok by exact (Forall_inv R). cbn [bind].
  rewrite (IH (Forall_inv_tail R)). reflexivity.
Qed.

(* ---- buffering ---- *)

Definition BIG : N := 61440.
Lemma BLOCK_BIG : BLOCK_SIZE = BIG. Proof. reflexivity. Qed.

Lemma update_ok' a st d : good st -> Forall is_byte d ->
  checksum_update a st d = Ok (match a with CsNone => st | CsAdler _ => steps st d end).
Proof. intros G B. destruct a as [|i]; cbn [checksum_update]; [reflexivity|]. now apply update_ok. Qed.

(* The state after the bytes [all] have been written, unless blocks are padded. *)
Definition finv (z : zip) (a : algo) (f : fbuf) (all : list N) : Prop :=
  f_zip f = z /\ f_algo f = a /\ Forall is_byte all /\
  all = concat (map fst (f_blocks f)) ++ f_wbuf f /\
  len (f_wbuf f) <= BIG /\
  (f_wbuf f = [] -> f_blocks f = []) /\
  f_wtotal f = len (concat (map fst (f_blocks f))) /\
  Forall (fun b => snd b = false /\ 0 < len (fst b) <= BIG) (f_blocks f) /\
  f_cs f = match a with CsNone => adler_init | CsAdler _ => steps adler_init (concat (map fst (f_blocks f))) end.

Lemma init_good : good adler_init. Proof. split; reflexivity. Qed.
Lemma cs_good a (l : list N) : good (match a with CsNone => adler_init | CsAdler _ => steps adler_init l end).
Proof. destruct a; [apply init_good|apply steps_good]. Qed.

Lemma len_app a b : len (a ++ b) = len a + len b.
Proof. unfold len. rewrite app_length. lia. Qed.

Lemma concat_snoc (bs : list (list N * bool)) w e : concat (map fst (bs ++ [(w, e)])) = concat (map fst bs) ++ w.
Proof. rewrite map_app, concat_app. cbn. now rewrite app_nil_r. Qed.

Definition flushed (f : fbuf) (a : algo) (last : bool) : fbuf :=
  Fbuf (f_zip f) (f_algo f) (match a with CsNone => adler_init | CsAdler _ => steps adler_init (concat (map fst (f_blocks f)) ++ f_wbuf f) end)
       [] (f_wtotal f + len (f_wbuf f)) (f_blocks f ++ [(f_wbuf f, last)]).

Lemma flush_ok z a f all more last : z <> ZFastlz -> finv z a f all -> more <= BIG ->
  fbuf_maybe_flush f more last = Ok (if BIG <? len (f_wbuf f) + more then flushed f a last else f).
Proof.
  intros Hz (Z & A & B & E & W & We & T & Bl & C) M. unfold fbuf_maybe_flush. rewrite BLOCK_BIG.
  destruct (N.ltb_spec BIG more) as [?|_]; [lia|]. destruct (N.ltb_spec BIG (len (f_wbuf f) + more)) as [L|L]; [|reflexivity].
  rewrite A, Z, C.
  assert (Hw : match z with ZFastlz => f_wbuf f ++ repeat 0 (16 - length (f_wbuf f)) | _ => f_wbuf f end = f_wbuf f)
    by (destruct z; congruence).
  rewrite Hw. rewrite update_ok'.
  - cbn [bind]. unfold flushed. rewrite Z, A. destruct a; [reflexivity|]. now rewrite steps_app.
  - apply cs_good.
  - rewrite E in B. apply Forall_app in B. apply B.
Qed.

Lemma write_bytes_ok z a f all more bs : z <> ZFastlz -> finv z a f all -> more <= BIG -> len bs <= more ->
  (bs = [] -> more = 0) -> Forall is_byte bs ->
  exists f', (do! f <- fbuf_maybe_flush f more false; put_bytes f bs) = Ok f' /\ finv z a f' (all ++ bs).
Proof.
  intros Hz I M Lb Nb B. rewrite (flush_ok z a f all more false Hz I M). cbn [bind].
  destruct I as (Z & A & Ba & E & W & We & T & Bl & C).
  destruct (N.ltb_spec BIG (len (f_wbuf f) + more)) as [L|L].
  - unfold flushed, put_bytes. cbn [f_wbuf f_zip f_algo f_cs f_wtotal f_blocks app].
    destruct (N.ltb_spec SPILL_SIZE (len [] + len bs)) as [?|_].
    { unfold SPILL_SIZE, len in *. cbn [length] in *. unfold BIG in M. lia. }
    eexists. split; [reflexivity|]. unfold finv. cbn [f_wbuf f_zip f_algo f_cs f_wtotal f_blocks].
    rewrite concat_snoc, <- E. do 2 (split; [assumption|]). split; [now apply Forall_app|].
    split; [reflexivity|]. split; [lia|]. split.
    { intros ->. specialize (Nb eq_refl). subst more. unfold len in *. cbn [length] in *. lia. }
    split; [rewrite T, <- len_app, <- E; reflexivity|]. split; [|reflexivity].
    apply Forall_app. split; [exact Bl|]. constructor; [|constructor]. cbn [fst snd]. split; [reflexivity|lia].
  - unfold put_bytes. destruct (N.ltb_spec SPILL_SIZE (len (f_wbuf f) + len bs)) as [?|_].
    { unfold SPILL_SIZE, BIG in *. lia. }
    eexists. split; [reflexivity|]. unfold finv. cbn [f_wbuf f_zip f_algo f_cs f_wtotal f_blocks].
    do 2 (split; [assumption|]). split; [now apply Forall_app|]. split; [rewrite E, app_assoc; reflexivity|].
    rewrite len_app. split; [lia|]. split.
    { intros H. apply app_eq_nil in H. apply We, H. }
    split; [exact T|]. split; [exact Bl|exact C].
Qed.

Lemma leb_nonempty fuel v : leb (S fuel) v <> [].
Proof. cbn [leb]. destruct (_ =? 0); discriminate. Qed.

Lemma write_field_ok z a f all x : z <> ZFastlz -> finv z a f all -> in_range x ->
  exists f', write_field f x = Ok f' /\ finv z a f' (all ++ enc x).
Proof.
  intros Hz I R. assert (K : forall v, len (leb 10 v) <= 10).
  { intros v. pose proof (leb_length_le 10 v). unfold len. lia. }
  destruct x as [u|u|u|u|u|v|bs]; cbn [write_field enc];
    apply (write_bytes_ok z a f all); auto using le_bytes_bytes, leb_bytes;
    try (unfold BIG; lia); try (unfold len; rewrite le_bytes_len; cbn; lia); try discriminate;
    try (intros H; now apply leb_nonempty in H).
  - destruct R as [_ R]. exact R.
  - intros ->. reflexivity.
  - apply R.
Qed.

Lemma write_fields_ok z a : z <> ZFastlz -> forall xs f all, finv z a f all -> Forall in_range xs ->
  exists f', write_fields f xs = Ok f' /\ finv z a f' (all ++ concat (map enc xs)).
Proof.
  intros Hz. induction xs as [|x xs IH]; intros f all I R; cbn [write_fields map concat].
  - exists f. rewrite app_nil_r. auto.
  - destruct (write_field_ok z a f all x Hz I (Forall_inv R)) as (f1 & E1 & I1). rewrite E1. cbn [bind].
    destruct (IH f1 _ I1 (Forall_inv_tail R)) as (f2 & E2 & I2). exists f2. rewrite app_assoc. auto.
Qed.

Lemma open_inv z a : finv z a (fbuf_open_out z a) [].
Proof.
  unfold finv, fbuf_open_out. cbn. do 2 (split; [reflexivity|]). split; [constructor|]. split; [reflexivity|].
  split; [unfold BIG, len; cbn; lia|]. split; [reflexivity|]. split; [reflexivity|]. split; [constructor|].
  destruct a; reflexivity.
Qed.

(* What closing does: the blocks, the total and the sum. *)
Lemma close_ok z a f all c : z <> ZFastlz -> finv z a f all ->
  exists bs, blocks_ok bs /\ concat (map fst bs) = all /\
    fbuf_close_out c f =
      Ok ([70; 66; 85; 70; zip_code z; algo_code a; 20; 0] ++ be32 (len all mod P64) ++
          be32 (match a with CsNone => 0 | CsAdler _ => adler all end) ++
          be32 (20 + len (payload c z bs)) ++ payload c z bs,
          match a with CsNone => 0 | CsAdler _ => adler all end).
Proof.
  intros Hz I. assert (M : BLOCK_SIZE <= BIG) by (rewrite BLOCK_BIG; lia).
  unfold fbuf_close_out. rewrite (flush_ok z a f all BLOCK_SIZE true Hz I M). cbn [bind].
  destruct I as (Z & A & Ba & E & W & We & T & Bl & C).
  assert (Fin : forall d, finish a (match a with CsNone => adler_init | CsAdler _ => steps adler_init d end) =
                       match a with CsNone => 0 | CsAdler _ => adler d end).
  { intros d. destruct a; [reflexivity|]. cbn [finish]. rewrite steps_spec. unfold adler.
    apply finish_spec; apply N.mod_lt; discriminate. }
  rewrite BLOCK_BIG. destruct (N.ltb_spec BIG (len (f_wbuf f) + BIG)) as [L|L].
  - exists (f_blocks f ++ [(f_wbuf f, true)]). split; [|split].
    + rewrite E in Ba. apply Forall_app in Ba. destruct Ba as [Bb Bw]. split.
      * right. exists (f_blocks f), (f_wbuf f). split; [reflexivity|]. eapply Forall_impl; [|exact Bl]. cbn. tauto.
      * apply Forall_app. split.
        -- clear - Bl Bb. induction (f_blocks f) as [|b bs IH]; [constructor|]. cbn [map concat] in Bb.
           apply Forall_app in Bb. destruct Bb as [B1 B2]. constructor; [|apply IH; [exact B2|exact (Forall_inv_tail Bl)]].
           split; [exact B1|]. exact (proj2 (Forall_inv Bl)).
        -- constructor; [|constructor]. cbn [fst]. split; [exact Bw|]. unfold len, BIG in *. lia.
    + rewrite concat_snoc. now symmetry.
    + unfold flushed. cbn [f_zip f_algo f_cs f_wtotal f_blocks]. rewrite Z, A, T, <- len_app, <- E, Fin. reflexivity.
  - assert (W0 : f_wbuf f = []). { destruct (f_wbuf f); [reflexivity|]. unfold len in L. cbn [length] in L. lia. }
    specialize (We W0). exists []. split; [|split].
    + split; [now left|constructor].
    + rewrite We, W0 in E. now subst.
    + rewrite We in *. cbn in T. rewrite Z, A, T, C. cbn [map concat]. rewrite Fin.
      rewrite W0 in E. cbn [app map concat] in E. subst all. reflexivity.
Qed.

(* ---- the header ---- *)

Lemma be32_len u : length (be32 u) = 4%nat. Proof. reflexivity. Qed.

Lemma unbe32_ok u : u < P32 -> unbe32 (be32 u) = u.
Proof.
  intros U. unfold unbe32, be32. cbn [nth]. rewrite !land255, !N.shiftl_mul_pow2, N.shiftr_shiftr, !N.shiftr_div_pow2.
  change (16 + 8) with 24. change (2 ^ 8) with 256. change (2 ^ 16) with 65536. change (2 ^ 24) with 16777216.
  rewrite (N.lor_comm (u / 16777216 mod 256 * 256)), (N.lor_comm (u / 256 mod 256 * 256)).
  rewrite !(lor_disjoint _ _ 8) by (apply N.mod_lt; discriminate). change (2 ^ 8) with 256.
  rewrite N.lor_comm, (lor_disjoint _ _ 16).
  - change (2 ^ 16) with 65536. rewrite N.mod_small; unfold P32 in *; lia.
  - change (2 ^ 16) with 65536. lia.
Qed.

Lemma firstn_pre {A} (a b : list A) n : length a = n -> firstn n (a ++ b) = a.
Proof. intros <-. rewrite firstn_app, Nat.sub_diag, firstn_all. cbn. apply app_nil_r. Qed.
Lemma skipn_pre {A} (a b : list A) n : length a = n -> skipn n (a ++ b) = b.
Proof. intros <-. rewrite skipn_app, Nat.sub_diag, skipn_all. reflexivity. Qed.

(* Opening a file with a well-formed header. *)
Lemma open_in_ok c a zc total sum body extra d :
  total < P32 -> sum < P32 -> 20 + len body < P32 ->
  (zc = 45 /\ len body = total /\ d = body \/ (zc = 90 \/ zc = 70) /\ unpack c body total = Some d /\ len d = total) ->
  Forall is_byte d ->
  fbuf_open_in c a ([70; 66; 85; 70; zc; algo_code a; 20; 0] ++ be32 total ++ be32 sum ++ be32 (20 + len body) ++ body ++ extra)
  = Ok (d, match a with CsNone => adler_init | CsAdler _ => steps adler_init d end, sum).
Proof.
  intros Ht Hs Hb Hd Bd. unfold fbuf_open_in.
  set (file := _ ++ _). assert (Hl : len file = 20 + len body + len extra).
  { unfold file. rewrite !len_app. unfold len. rewrite !be32_len. cbn [length]. lia. }
  rewrite Hl. destruct (N.ltb_spec (20 + len body + len extra) 16) as [?|_]; [lia|].
  assert (F16 : firstn 16 file = [70; 66; 85; 70; zc; algo_code a; 20; 0] ++ be32 total ++ be32 sum).
  { unfold file. replace ([70; 66; 85; 70; zc; algo_code a; 20; 0] ++ be32 total ++ be32 sum ++ be32 (20 + len body) ++ body ++ extra)
      with (([70; 66; 85; 70; zc; algo_code a; 20; 0] ++ be32 total ++ be32 sum) ++ be32 (20 + len body) ++ body ++ extra)
      by (now rewrite <- !app_assoc). apply firstn_pre. reflexivity. }
  rewrite F16. assert (S16 : skipn 16 file = be32 (20 + len body) ++ body ++ extra).
  { unfold file. replace ([70; 66; 85; 70; zc; algo_code a; 20; 0] ++ be32 total ++ be32 sum ++ be32 (20 + len body) ++ body ++ extra)
      with (([70; 66; 85; 70; zc; algo_code a; 20; 0] ++ be32 total ++ be32 sum) ++ be32 (20 + len body) ++ body ++ extra)
      by (now rewrite <- !app_assoc). apply skipn_pre. reflexivity. }
  assert (S20 : skipn 20 file = body ++ extra).
  { unfold file. replace ([70; 66; 85; 70; zc; algo_code a; 20; 0] ++ be32 total ++ be32 sum ++ be32 (20 + len body) ++ body ++ extra)
      with (([70; 66; 85; 70; zc; algo_code a; 20; 0] ++ be32 total ++ be32 sum ++ be32 (20 + len body)) ++ body ++ extra)
      by (now rewrite <- !app_assoc). apply skipn_pre. reflexivity. }
  rewrite S16, S20, (firstn_pre (be32 (20 + len body))) by reflexivity. rewrite (unbe32_ok (20 + len body)) by exact Hb.
  clearbody file. cbn [firstn app nth].
  assert (Eq : (if list_eq_dec N.eq_dec [70; 66; 85; 70] [70; 66; 85; 70] then true else false) = true) by reflexivity.
  rewrite Eq. cbn [negb]. rewrite N.eqb_refl. cbn [negb].
  assert (Sk8 : forall h l, length h = 8%nat -> unbe32 (h ++ l) = unbe32 (h ++ l)) by reflexivity. clear Sk8.
  change (skipn 8 (70 :: 66 :: 85 :: 70 :: zc :: algo_code a :: 20 :: 0 :: be32 total ++ be32 sum)) with (be32 total ++ be32 sum).
  change (skipn 12 (70 :: 66 :: 85 :: 70 :: zc :: algo_code a :: 20 :: 0 :: be32 total ++ be32 sum)) with (be32 sum).
  change (unbe32 (be32 total ++ be32 sum)) with (unbe32 (be32 total)). rewrite !unbe32_ok by assumption.
  change (20 =? 20) with true. cbn [negb].
  destruct (N.ltb_spec (20 + len body + len extra) 20) as [?|_]; [lia|].
  destruct (N.ltb_spec (20 + len body + len extra) (20 + len body)) as [?|_]; [lia|].
  destruct (N.ltb_spec (20 + len body) 20) as [?|_]; [lia|].
  assert (Fb : firstn (N.to_nat (20 + len body - 20)) (body ++ extra) = body).
  { apply firstn_pre. unfold len. lia. }
  rewrite Fb. destruct Hd as [(-> & Lb & ->)|(Hz & U & Ld)].
  - change (45 =? 45) with true. cbv iota. destruct (N.ltb_spec (len body) total) as [?|_]; [lia|]. cbn [bind].
    replace (firstn (N.to_nat total) body) with body by (symmetry; apply firstn_all2; unfold len in Lb; lia).
    rewrite update_ok' by (auto using init_good). reflexivity.
  - assert (Z1 : (zc =? 45) = false) by (destruct Hz as [-> | ->]; reflexivity).
    assert (Z2 : (zc =? 90) || (zc =? 70) = true) by (destruct Hz as [-> | ->]; reflexivity).
    rewrite Z1, Z2, U. rewrite (proj2 (N.eqb_eq _ _) Ld). cbn [bind].
    rewrite update_ok' by (auto using init_good). reflexivity.
Qed.
