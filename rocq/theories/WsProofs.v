(* Frames survive sending, cutting into pieces and parsing. *)
From Coq Require Import List ZArith Bool Lia.
From Verif Require Import Base WsSpec WsModel.
Import ListNotations.
Local Open Scope Z_scope.

Lemma lor_shift a b n : 0 <= n -> 0 <= a < 2 ^ n -> Z.lor (Z.shiftl b n) a = b * 2 ^ n + a.
Proof.
  intros Hn Ha.
  assert (L : Z.land (Z.shiftl b n) a = 0).
  { apply Z.bits_inj'. intros k Hk. rewrite Z.land_spec, Z.bits_0.
    destruct (Z.lt_ge_cases k n).
    - rewrite Z.shiftl_spec_low by lia. reflexivity.
    - replace (Z.testbit a k) with false; [apply andb_false_r|]. symmetry.
      destruct (Z.eq_dec a 0) as [->|N]; [apply Z.bits_0|].
      apply Z.bits_above_log2; [lia|]. apply Z.log2_lt_pow2; [lia|].
      pose proof (Z.pow_le_mono_r 2 n k ltac:(lia) ltac:(lia)). lia. }
  rewrite <- Z.lxor_lor by exact L. rewrite <- Z.add_nocarry_lxor by exact L.
  rewrite Z.shiftl_mul_pow2 by lia. reflexivity.
Qed.

Lemma land_mod u k : 0 <= k -> Z.land u (2 ^ k - 1) = u mod 2 ^ k.
Proof. intros H. rewrite <- Z.land_ones by exact H. rewrite Z.ones_equiv. f_equal; lia. Qed.
Lemma land255 u : Z.land u 255 = u mod 256.
Proof. exact (land_mod u 8 ltac:(lia)). Qed.
Lemma land127 u : Z.land u 127 = u mod 128.
Proof. exact (land_mod u 7 ltac:(lia)). Qed.
Lemma land15 u : Z.land u 15 = u mod 16.
Proof. exact (land_mod u 4 ltac:(lia)). Qed.
Lemma byte_mod u : byte (u mod 256).
Proof. unfold byte. apply Z.mod_pos_bound. lia. Qed.

Lemma pack16_eq u : pack16 u = [(u / 256) mod 256; u mod 256].
Proof. unfold pack16. rewrite !land255, Z.shiftr_div_pow2 by lia. reflexivity. Qed.
Lemma pack32_eq u : pack32 u = [(u / 2 ^ 24) mod 256; (u / 2 ^ 16) mod 256; (u / 256) mod 256; u mod 256].
Proof.
  unfold pack32. rewrite !pack16_eq, Z.shiftr_div_pow2 by lia. cbn [app].
  rewrite Z.div_div by lia. reflexivity.
Qed.
Lemma pack64_eq u : pack64 u =
  [(u / 2 ^ 56) mod 256; (u / 2 ^ 48) mod 256; (u / 2 ^ 40) mod 256; (u / 2 ^ 32) mod 256;
   (u / 2 ^ 24) mod 256; (u / 2 ^ 16) mod 256; (u / 256) mod 256; u mod 256].
Proof.
  unfold pack64. rewrite !pack32_eq, Z.shiftr_div_pow2 by lia. cbn [app].
  rewrite !Z.div_div by lia. reflexivity.
Qed.
Lemma pack16_bytes u : Forall byte (pack16 u).
Proof. rewrite pack16_eq. repeat constructor; apply Z.mod_pos_bound; lia. Qed.
Lemma pack32_bytes u : Forall byte (pack32 u).
Proof. unfold pack32. apply Forall_app. split; apply pack16_bytes. Qed.
Lemma pack64_bytes u : Forall byte (pack64 u).
Proof. unfold pack64. apply Forall_app. split; apply pack32_bytes. Qed.
Lemma digits u k : 0 <= k -> u mod (2 ^ k * 256) = (u / 2 ^ k) mod 256 * 2 ^ k + u mod 2 ^ k.
Proof.
  intros H. assert (0 < 2 ^ k) by (apply Z.pow_pos_nonneg; lia). rewrite Z.rem_mul_r by lia. lia.
Qed.
Lemma pack16_value u : 0 <= u < 65536 -> big_endian (pack16 u) = u.
Proof.
  intros H. rewrite pack16_eq. cbn [big_endian length]. change (256 ^ Z.of_nat 1) with 256. change (256 ^ Z.of_nat 0) with 1.
  pose proof (digits u 8 ltac:(lia)) as D. change (2 ^ 8) with 256 in D. change (256 * 256) with 65536 in D.
  rewrite Z.mod_small in D by exact H. lia.
Qed.
Lemma pack64_value u : 0 <= u < 2 ^ 64 -> big_endian (pack64 u) = u.
Proof.
  intros H. rewrite pack64_eq. cbn [big_endian length].
  change (256 ^ Z.of_nat 7) with (2 ^ 56). change (256 ^ Z.of_nat 6) with (2 ^ 48). change (256 ^ Z.of_nat 5) with (2 ^ 40).
  change (256 ^ Z.of_nat 4) with (2 ^ 32). change (256 ^ Z.of_nat 3) with (2 ^ 24). change (256 ^ Z.of_nat 2) with (2 ^ 16).
  change (256 ^ Z.of_nat 1) with 256. change (256 ^ Z.of_nat 0) with 1.
  pose proof (digits u 56 ltac:(lia)) as D7. change (2 ^ 56 * 256) with (2 ^ 64) in D7. rewrite Z.mod_small in D7 by exact H.
  pose proof (digits u 48 ltac:(lia)) as D6. change (2 ^ 48 * 256) with (2 ^ 56) in D6.
  pose proof (digits u 40 ltac:(lia)) as D5. change (2 ^ 40 * 256) with (2 ^ 48) in D5.
  pose proof (digits u 32 ltac:(lia)) as D4. change (2 ^ 32 * 256) with (2 ^ 40) in D4.
  pose proof (digits u 24 ltac:(lia)) as D3. change (2 ^ 24 * 256) with (2 ^ 32) in D3.
  pose proof (digits u 16 ltac:(lia)) as D2. change (2 ^ 16 * 256) with (2 ^ 24) in D2.
  pose proof (digits u 8 ltac:(lia)) as D1. change (2 ^ 8 * 256) with (2 ^ 16) in D1. change (2 ^ 8) with 256 in D1.
  lia.
Qed.

Lemma unpack16_value a b l : byte b -> unpack16 (a :: b :: l) = a * 256 + b.
Proof. unfold byte. intros H. unfold unpack16. cbn [nth]. rewrite lor_shift by lia. reflexivity. Qed.
Lemma unpack32_value a b c d l : byte b -> byte c -> byte d ->
  unpack32 (a :: b :: c :: d :: l) = (a * 256 + b) * 65536 + (c * 256 + d).
Proof.
  intros. unfold unpack32. cbn [skipn]. rewrite !unpack16_value by assumption. unfold byte in *.
  rewrite lor_shift by lia. reflexivity.
Qed.
Lemma unpack64_value bs l : length bs = 8%nat -> Forall byte bs -> unpack64 (bs ++ l) = big_endian bs.
Proof.
  intros L F. do 8 (destruct bs as [|? bs]; [discriminate L|]). destruct bs; [|discriminate L].
  repeat match goal with H : Forall _ (_ :: _) |- _ => inversion_clear H end.
  unfold unpack64. cbn [app skipn]. rewrite !unpack32_value by assumption.
  unfold byte in *. rewrite lor_shift by lia.
  cbn [big_endian length].
  change (256 ^ Z.of_nat 7) with (2 ^ 56). change (256 ^ Z.of_nat 6) with (2 ^ 48). change (256 ^ Z.of_nat 5) with (2 ^ 40).
  change (256 ^ Z.of_nat 4) with (2 ^ 32). change (256 ^ Z.of_nat 3) with (2 ^ 24). change (256 ^ Z.of_nat 2) with (2 ^ 16).
  change (256 ^ Z.of_nat 1) with 256. change (256 ^ Z.of_nat 0) with 1. lia.
Qed.
Lemma unpack16_field bs l : length bs = 2%nat -> Forall byte bs -> unpack16 (bs ++ l) = big_endian bs.
Proof.
  intros L F. do 2 (destruct bs as [|? bs]; [discriminate L|]). destruct bs; [|discriminate L].
  repeat match goal with H : Forall _ (_ :: _) |- _ => inversion_clear H end.
  cbn [app]. rewrite unpack16_value by assumption. cbn [big_endian length].
  change (256 ^ Z.of_nat 1) with 256. change (256 ^ Z.of_nat 0) with 1. lia.
Qed.

(* Masking *)
Lemma xor_key_spec key data : forall i, xor_key i key data =
  map (fun j => Z.lxor (nth (j - i) data 0) (nth (j mod 4) key 0)) (seq i (length data)).
Proof.
  induction data as [|b data IH]; intros i; cbn [xor_key length seq map]; [reflexivity|].
  rewrite Nat.sub_diag. cbn [nth]. f_equal. rewrite IH. apply map_ext_in. intros j Hj. apply in_seq in Hj.
  replace (j - i)%nat with (S (j - S i)) by lia. reflexivity.
Qed.
Lemma xor_key_masked key data : xor_key 0 key data = masked_with key data.
Proof.
  rewrite xor_key_spec. unfold masked_with. apply map_ext. intros j. rewrite Nat.sub_0_r. reflexivity.
Qed.
Lemma xor_key_twice key data : forall i, xor_key i key (xor_key i key data) = data.
Proof.
  induction data as [|b data IH]; intros i; cbn [xor_key]; [reflexivity|]. rewrite IH. f_equal.
  rewrite Z.lxor_assoc, Z.lxor_nilpotent. apply Z.lxor_0_r.
Qed.
Lemma xor_key_length key data : forall i, length (xor_key i key data) = length data.
Proof. induction data as [|b data IH]; intros i; cbn [xor_key length]; auto. Qed.
Lemma xor_key_app key l data : forall i, length key = 4%nat -> xor_key i (key ++ l) data = xor_key i key data.
Proof.
  induction data as [|b data IH]; intros i L; cbn [xor_key]; [reflexivity|]. rewrite IH by exact L.
  rewrite app_nth1; [reflexivity|]. rewrite L. apply Nat.mod_upper_bound. lia.
Qed.

(* Sending *)
Definition tx_ok (w : web_socket) : Prop := 0 <= tx_rptr w /\ tx_rptr w + len (tx w) <= tx_size w.
Lemma len_app {A} (a b : list A) : len (a ++ b) = len a + len b.
Proof. unfold len. rewrite app_length. lia. Qed.
Lemma len_pos {A} (a : list A) : 0 <= len a.
Proof. unfold len. lia. Qed.

(* What sending leaves alone *)
Definition same_rx (w w' : web_socket) : Prop :=
  mask w' = mask w /\ closing w' = closing w /\ rx_size w' = rx_size w /\ rx_rptr w' = rx_rptr w /\
  unread w' = unread w /\ events w' = events w /\ keys w' = keys w /\ tx_rptr w' = tx_rptr w.
Lemma queue_ok w data : tx_ok w ->
  exists w', ws_queue_buf w data = Ok w' /\ tx w' = tx w ++ data /\ tx_ok w' /\ same_rx w w' /\ nkeys w' = nkeys w.
Proof.
  intros (R & T). unfold ws_queue_buf.
  set (size := if tx_size w <? _ then _ else _).
  assert (tx_rptr w + len (tx w) + len data <= size).
  { unfold size. destruct (Z.ltb_spec (tx_size w) (tx_rptr w + len (tx w) + len data)); pose proof (len_pos data); lia. }
  destruct (Z.ltb_spec size (tx_rptr w + len (tx w) + len data)); [lia|].
  eexists. split; [reflexivity|]. cbn. split; [reflexivity|]. split; [split; cbn; [exact R|rewrite len_app; lia]|].
  split; [|reflexivity]. repeat split.
Qed.
Lemma same_rx_trans a b c : same_rx a b -> same_rx b c -> same_rx a c.
Proof.
  intros (A1 & A2 & A3 & A4 & A5 & A6 & A7 & A8) (B1 & B2 & B3 & B4 & B5 & B6 & B7 & B8). unfold same_rx.
  rewrite B1, B2, B3, B4, B5, B6, B7, B8. repeat split; assumption.
Qed.

Lemma lor128 x : 0 <= x < 128 -> Z.lor 128 x = 128 + x.
Proof. intros H. change 128 with (Z.shiftl 1 7) at 1. rewrite lor_shift by lia. reflexivity. Qed.
Lemma lor128_code k : Z.lor 128 (code k) = 128 + code k.
Proof. destruct k; reflexivity. Qed.

Lemma send_ok w k data : tx_ok w -> Forall byte data -> len data < 2 ^ 64 ->
  exists w' key f bs, ws_send w (code k) data = Ok w' /\ tx w' = tx w ++ bs /\ tx_ok w' /\ same_rx w w' /\
    frame key k data bs /\ (key <> None <-> mask w = true) /\
    length_field (len data) f /\ shortest (len data) f /\
    exists h, bs = (128 + code k) :: (match key with None => hd 0 f | Some _ => 128 + hd 0 f end) :: tl f ++ h.
Proof.
  intros T B LT. unfold ws_send. pose proof (len_pos data) as LP.
  set (size0 := if len data <? 126 then _ else _).
  assert (S0 : 0 <= size0 < 128).
  { unfold size0. destruct (Z.ltb_spec (len data) 126); [lia|]. destruct (Z.leb_spec (len data) 65535); lia. }
  set (ext := if size0 =? 126 then pack16 (len data) else if size0 =? 127 then pack64 (len data) else []).
  assert (LF : length_field (len data) (size0 :: ext) /\ shortest (len data) (size0 :: ext)).
  { unfold ext, size0. destruct (Z.ltb_spec (len data) 126) as [L1|L1].
    - destruct (Z.eqb_spec (len data) 126); [lia|]. destruct (Z.eqb_spec (len data) 127); [lia|].
      split; [apply Len7; lia|]. split; cbn; intros; lia.
    - destruct (Z.leb_spec (len data) 65535) as [L2|L2].
      + change (126 =? 126) with true. cbn iota. split.
        * rewrite <- (pack16_value (len data)) at 1 by lia. apply Len16; [rewrite pack16_eq; reflexivity|apply pack16_bytes].
        * rewrite pack16_eq. split; cbn; intros; lia.
      + change (127 =? 126) with false. change (127 =? 127) with true. cbn iota. split.
        * rewrite <- (pack64_value (len data)) at 1 by lia. apply Len64; [rewrite pack64_eq; reflexivity|apply pack64_bytes].
        * split; intros; lia. }
  destruct LF as (LF & SH).
  destruct (queue_ok w [Z.lor 128 (code k); Z.lor (if mask w then 128 else 0) (Z.land size0 127)] T)
    as (w1 & E1 & X1 & T1 & R1 & N1).
  rewrite E1. cbn [bind].
  assert (E2 : exists w2, (if size0 =? 126 then ws_queue_buf w1 (pack16 (len data))
            else if size0 =? 127 then ws_queue_buf w1 (pack64 (len data)) else Ok w1) = Ok w2 /\
            tx w2 = tx w1 ++ ext /\ tx_ok w2 /\ same_rx w1 w2 /\ nkeys w2 = nkeys w1).
  { unfold ext. destruct (size0 =? 126); [apply queue_ok; exact T1|].
    destruct (size0 =? 127); [apply queue_ok; exact T1|]. exists w1. rewrite app_nil_r.
    split; [reflexivity|]. split; [reflexivity|]. split; [exact T1|]. split; [|reflexivity]. repeat split. }
  destruct E2 as (w2 & E2 & X2 & T2 & R2 & N2). rewrite E2. cbn [bind].
  assert (M2 : mask w2 = mask w) by (pose proof (same_rx_trans _ _ _ R1 R2) as R; apply R).
  rewrite M2.
  assert (HD : tx w2 = tx w ++ [128 + code k; (if mask w then 128 else 0) + size0] ++ ext).
  { rewrite X2, X1, lor128_code, land127, (Z.mod_small size0) by lia. rewrite <- app_assoc. cbn [app].
    destruct (mask w); [rewrite lor128 by lia; reflexivity|rewrite Z.lor_0_l; reflexivity]. }
  destruct (mask w) eqn:M.
  - destruct (queue_ok w2 (pack32 (keys w2 (nkeys w2))) T2) as (w3 & E3 & X3 & T3 & R3 & N3). rewrite E3. cbn [bind].
    destruct (queue_ok w3 (xor_key 0 (pack32 (keys w2 (nkeys w2))) data) T3) as (w4 & E4 & X4 & T4 & R4 & N4). rewrite E4. cbn [bind].
    pose proof (same_rx_trans _ _ _ R1 (same_rx_trans _ _ _ R2 (same_rx_trans _ _ _ R3 R4))) as R.
    set (key := pack32 (keys w2 (nkeys w2))) in *.
    exists (WS (mask w4) (closing w4) (tx_size w4) (tx_rptr w4) (tx w4) (rx_size w4) (rx_rptr w4) (unread w4)
              (keys w4) (S (nkeys w4)) (events w4)), (Some key), (size0 :: ext),
      ([128 + code k; 128 + size0] ++ ext ++ key ++ masked_with key data).
    split; [reflexivity|]. cbn [tx]. split.
    { rewrite X4, X3, HD, xor_key_masked. rewrite <- !app_assoc. reflexivity. }
    split; [exact T4|]. split; [exact R|]. split.
    { apply Masked; [exact LF|exact B|unfold key; rewrite pack32_eq; reflexivity|apply pack32_bytes]. }
    split; [split; [reflexivity|discriminate]|]. split; [exact LF|]. split; [exact SH|].
    exists (key ++ masked_with key data). reflexivity.
  - assert (E3 : exists w3, (if 0 <? len data then ws_queue_buf w2 data else Ok w2) = Ok w3 /\
              tx w3 = tx w2 ++ data /\ tx_ok w3 /\ same_rx w2 w3).
    { destruct (Z.ltb_spec 0 (len data)).
      - destruct (queue_ok w2 data T2) as (w3 & A & B' & C & D & _). exists w3. auto.
      - destruct data as [|? ?]; [|unfold len in *; cbn [length] in *; lia]. exists w2. rewrite app_nil_r.
        split; [reflexivity|]. split; [reflexivity|]. split; [exact T2|]. repeat split. }
    destruct E3 as (w3 & E3 & X3 & T3 & R3). rewrite E3.
    pose proof (same_rx_trans _ _ _ R1 (same_rx_trans _ _ _ R2 R3)) as R.
    exists w3, None, (size0 :: ext), ([128 + code k; size0] ++ ext ++ data).
    split; [reflexivity|]. split.
    { rewrite X3, HD. rewrite Z.add_0_l. rewrite <- !app_assoc. reflexivity. }
    split; [exact T3|]. split; [exact R|]. split; [apply Plain; [exact LF|exact B]|].
    split; [split; [intros X; contradiction X; reflexivity|discriminate]|]. split; [exact LF|]. split; [exact SH|].
    exists data. reflexivity.
Qed.

(* Receiving one frame *)
Lemma frame_parts key k payload bs : frame key k payload bs ->
  exists l0 ext ks body,
    bs = (128 + code k) :: ((match key with None => 0 | Some _ => 128 end) + l0) :: ext ++ ks ++ body /\
    length_field (len payload) (l0 :: ext) /\ Forall byte payload /\
    length ks = (match key with None => 0 | Some _ => 4 end)%nat /\
    length body = length payload /\
    (match key with None => body | Some _ => xor_key 0 ks body end) = payload.
Proof.
  intros H. destruct H as [k payload l0 ext LF B|k payload l0 ext key LF B LK BK].
  - exists l0, ext, [], payload. repeat split; auto.
  - exists l0, ext, key, (masked_with key payload). rewrite <- xor_key_masked, xor_key_length, xor_key_twice.
    repeat split; auto.
Qed.

Lemma field_parts n l0 ext : length_field n (l0 :: ext) ->
  0 <= l0 < 128 /\ 0 <= n /\
  len ext = (if l0 =? 126 then 2 else if l0 =? 127 then 8 else 0) /\
  (n < 2 ^ 31 -> forall x, (if l0 =? 127 then to_int (unpack64 (ext ++ x))
       else if l0 =? 126 then unpack16 (ext ++ x) else l0) = n).
Proof.
  intros H. inversion H as [m L|bs L B|bs L B]; subst.
  - destruct (Z.eqb_spec l0 126); [lia|]. destruct (Z.eqb_spec l0 127); [lia|]. repeat split; try lia. 
  - assert (P : 0 <= big_endian ext).
    { do 2 (destruct ext as [|? ext]; [discriminate L|]). destruct ext; [|discriminate L].
      repeat match goal with H : Forall _ (_ :: _) |- _ => inversion_clear H end. unfold byte in *. cbn. lia. }
    change (126 =? 126) with true. change (126 =? 127) with false. cbn iota.
    split; [lia|]. split; [exact P|]. split; [unfold len; rewrite L; reflexivity|].
    intros _ x. apply unpack16_field; assumption.
  - assert (P : 0 <= big_endian ext).
    { clear H. revert B. clear. induction ext as [|b ext IH]; intros B; cbn [big_endian]; [lia|].
      inversion_clear B. specialize (IH H0). unfold byte in H.
      assert (0 <= 256 ^ Z.of_nat (length ext)) by (apply Z.pow_nonneg; lia). nia. }
    change (127 =? 126) with false. change (127 =? 127) with true. cbn iota.
    split; [lia|]. split; [exact P|]. split; [unfold len; rewrite L; reflexivity|].
    intros S x. rewrite unpack64_value by assumption. unfold to_int.
    rewrite Z.mod_small by lia. destruct (Z.ltb_spec (big_endian ext) (2 ^ 31)); lia.
Qed.

Lemma app_split (p q a c : list Z) : p ++ q = a ++ c -> (length a <= length p)%nat ->
  exists x, p = a ++ x /\ c = x ++ q.
Proof.
  revert a. induction p as [|y p IH]; intros a E L.
  - destruct a; [|cbn in L; lia]. exists []. cbn in *. auto.
  - destruct a as [|z a]; [exists (y :: p); cbn in *; auto|].
    cbn [app] in E. injection E as -> E. destruct (IH a E ltac:(cbn in L; lia)) as (x & -> & ->).
    exists x. auto.
Qed.

Lemma first_byte k l : Z.testbit (nth 0 ((128 + code k) :: l) 0) 7 = true /\
  Z.land (nth 0 ((128 + code k) :: l) 0) 15 = code k.
Proof. destruct k; split; reflexivity. Qed.
Lemma second_byte (mk : bool) l0 : 0 <= l0 < 128 ->
  Z.testbit ((if mk then 128 else 0) + l0) 7 = mk /\ Z.land ((if mk then 128 else 0) + l0) 127 = l0.
Proof.
  intros H. rewrite land127. split.
  - destruct mk.
    + apply Z.testbit_true; [lia|]. change (2 ^ 7) with 128. replace ((128 + l0) / 128) with 1; [reflexivity|].
      apply Z.div_unique with l0; lia.
    + apply Z.testbit_false; [lia|]. change (2 ^ 7) with 128. rewrite Z.div_small by lia. reflexivity.
  - destruct mk.
    + symmetry. apply Z.mod_unique with 1; lia.
    + apply Z.mod_small. lia.
Qed.

Lemma frame_prefix w m p q : carried m -> moderate m -> m_bytes m = p ++ q -> q <> [] -> unread w = p ->
  ws_frame w = Ok None.
Proof.
  intros C (MD & _) E Q U. unfold ws_frame. rewrite U.
  destruct (frame_parts _ _ _ _ C) as (l0 & ext & ks & body & EB & LF & _ & LK & LB & _).
  destruct (field_parts _ _ _ LF) as (L0 & NN & LE & FL).
  set (mk := match m_key m with None => false | Some _ => true end).
  assert (MK : (match m_key m with None => 0 | Some _ => 128 end) = (if mk then 128 else 0)) by (unfold mk; destruct (m_key m); reflexivity).
  assert (LK' : len ks = if mk then 4 else 0) by (unfold mk, len; rewrite LK; destruct (m_key m); reflexivity).
  destruct (Z.ltb_spec (len p) 2); [reflexivity|].
  destruct p as [|b0 [|b1 p]]; try (unfold len in *; cbn [length] in *; lia).
  rewrite EB, MK in E. cbn [app] in E. injection E as <- <- E.
  destruct (second_byte mk l0 L0) as (S1 & S2). cbn [nth]. rewrite S1, S2.
  destruct (Z.ltb_spec (len ((128 + code (m_kind m)) :: ((if mk then 128 else 0) + l0) :: p))
    (2 + (if mk then 4 else 0) + (if l0 =? 126 then 2 else if l0 =? 127 then 8 else 0))) as [|G]; [reflexivity|].
  rewrite <- LE in *. unfold len in *. cbn [length] in G.
  destruct (app_split p q ext (ks ++ body) (eq_sym E)) as (x & -> & E2); [destruct mk; lia|].
  cbn [skipn]. rewrite (FL MD).
  assert (T : (length x + length q = length ks + length body)%nat).
  { rewrite <- !app_length, E2. reflexivity. }
  assert (0 < length q)%nat by (destruct q; [contradiction Q; reflexivity|cbn; lia]).
  cbn [length]. rewrite app_length in *. unfold to_size. rewrite Z.mod_small.
  - match goal with |- (if ?a <? ?b then _ else _) = _ => destruct (Z.ltb_spec a b); [reflexivity|] end. destruct mk; lia.
  - destruct (l0 =? 126); [|destruct (l0 =? 127)]; destruct mk; lia.
Qed.

Definition answer (m : message) : list event :=
  match m_kind m with
  | Text => [EText (m_payload m)] | Binary => [EBinary (m_payload m)] | Pong => [EPong (m_payload m)]
  | Close | Ping => []
  end.

(* What handling messages does *)
Definition handled (w : web_socket) (ms : list message) (w' : web_socket) : Prop :=
  events w' = events w ++ concat (map answer ms) /\
  closing w' = closing w || closes ms /\
  (exists ps, tx w' = tx w ++ wire ps /\ Forall carried ps /\ Forall (fun p => m_kind p = Pong) ps /\
     map m_payload ps = pinged ms /\ Forall (fun p => m_key p <> None <-> mask w = true) ps) /\
  mask w' = mask w /\ rx_size w' = rx_size w /\ tx_rptr w' = tx_rptr w.
Lemma handled_nil w : handled w [] w.
Proof.
  unfold handled, closes. cbn. rewrite app_nil_r, orb_false_r. repeat split. exists []. cbn. rewrite app_nil_r.
  repeat split; constructor.
Qed.
Lemma handled_app w1 a w2 b w3 : handled w1 a w2 -> handled w2 b w3 -> handled w1 (a ++ b) w3.
Proof.
  intros (E1 & C1 & (p1 & T1 & F1 & K1 & P1 & M1) & A1 & R1 & X1) (E2 & C2 & (p2 & T2 & F2 & K2 & P2 & M2) & A2 & R2 & X2).
  unfold handled. rewrite E2, E1, C2, C1, T2, T1, A2, R2, X2. unfold closes, pinged, wire in *.
  rewrite existsb_app, !map_app, !concat_app, <- app_assoc, orb_assoc. repeat split; auto.
  exists (p1 ++ p2). rewrite !map_app, concat_app, <- app_assoc, P1, P2. rewrite A1 in M2.
  repeat split; apply Forall_app; split; assumption.
Qed.

Lemma c_string_id s : ~ In 0 s -> c_string s = s.
Proof.
  induction s as [|c s IH]; intros H; cbn [c_string]; [reflexivity|].
  destruct (Z.eqb_spec c 0) as [->|N]; [contradiction H; left; reflexivity|].
  f_equal. apply IH. intros X. apply H. right. exact X.
Qed.

Lemma frame_full w m rest : carried m -> moderate m -> unread w = m_bytes m ++ rest -> tx_ok w ->
  rx_rptr w + len (unread w) < rx_size w -> (m_kind m = Text -> rest = []) ->
  exists w', ws_frame w = Ok (Some w') /\ handled w [m] w' /\ unread w' = rest /\ tx_ok w' /\
    rx_rptr w' = rx_rptr w + len (m_bytes m).
Proof.
  intros C (MD & NT) U TX RX TR. unfold ws_frame. rewrite U.
  destruct (frame_parts _ _ _ _ C) as (l0 & ext & ks & body & EB & LF & BP & LK & LB & XP).
  destruct (field_parts _ _ _ LF) as (L0 & NN & LE & FL).
  set (mk := match m_key m with None => false | Some _ => true end).
  assert (MK : (match m_key m with None => 0 | Some _ => 128 end) = (if mk then 128 else 0)) by (unfold mk; destruct (m_key m); reflexivity).
  assert (LK' : len ks = if mk then 4 else 0) by (unfold mk, len; rewrite LK; destruct (m_key m); reflexivity).
  assert (XP' : (if mk then xor_key 0 ks body else body) = m_payload m).
  { rewrite <- XP. unfold mk. destruct (m_key m); reflexivity. }
  assert (LBS : len (m_bytes m) = 2 + len ext + len ks + len body).
  { rewrite EB. unfold len. cbn [length]. rewrite !app_length. lia. }
  assert (LBY : len body = len (m_payload m)) by (unfold len; rewrite LB; reflexivity).
  rewrite len_app. pose proof (len_pos rest) as LR. pose proof (len_pos ext) as LX. pose proof (len_pos ks) as LKP.
  pose proof (len_pos body) as LBP.
  destruct (Z.ltb_spec (len (m_bytes m) + len rest) 2) as [X|_]; [lia|].
  destruct (first_byte (m_kind m) ((if mk then 128 else 0) + l0 :: (ext ++ ks ++ body) ++ rest)) as (F1 & F2).
  destruct (second_byte mk l0 L0) as (S1 & S2).
  assert (EF : m_bytes m ++ rest = (128 + code (m_kind m)) :: ((if mk then 128 else 0) + l0) :: (ext ++ ks ++ body) ++ rest).
  { rewrite EB, MK. reflexivity. }
  rewrite EF. cbn [nth] in F1, F2 |- *. rewrite F1, F2, S1, S2.
  rewrite <- LE, <- LK'.
  destruct (Z.ltb_spec (len (m_bytes m) + len rest) (2 + len ks + len ext)) as [X|_]; [lia|].
  cbn [skipn]. rewrite <- !app_assoc. fold (len (m_payload m)) in MD. rewrite (FL MD).
  unfold to_size. rewrite Z.mod_small by (destruct mk; destruct (l0 =? 126); [|destruct (l0 =? 127)| |destruct (l0 =? 127)]; lia).
  destruct (Z.ltb_spec (len (m_bytes m) + len rest) (len (m_payload m) + (2 + len ks + len ext))) as [X|_]; [lia|].
  cbn [negb]. destruct (Z.ltb_spec (len (m_payload m)) 0) as [X|_]; [lia|].
  set (all := (128 + code (m_kind m)) :: ((if mk then 128 else 0) + l0) :: ext ++ ks ++ body ++ rest).
  assert (A1 : all = ([128 + code (m_kind m); (if mk then 128 else 0) + l0] ++ ext ++ ks) ++ body ++ rest).
  { unfold all. cbn [app]. rewrite <- !app_assoc. reflexivity. }
  assert (A2 : all = ([128 + code (m_kind m); (if mk then 128 else 0) + l0] ++ ext) ++ ks ++ body ++ rest).
  { unfold all. cbn [app]. reflexivity. }
  assert (A3 : all = ([128 + code (m_kind m); (if mk then 128 else 0) + l0] ++ ext ++ ks ++ body) ++ rest).
  { unfold all. cbn [app]. rewrite <- !app_assoc. reflexivity. }
  assert (SK : forall (a b : list Z) n, n = len a -> skipn (Z.to_nat n) (a ++ b) = b).
  { intros a b n ->. unfold len. rewrite Nat2Z.id, skipn_app, skipn_all, Nat.sub_diag. reflexivity. }
  assert (RAW : firstn (Z.to_nat (len (m_payload m))) (skipn (Z.to_nat (2 + len ks + len ext)) all) = body).
  { rewrite A1, SK; [|rewrite !len_app; change (len [_; _]) with 2; lia].
    rewrite <- LBY. unfold len. rewrite Nat2Z.id, firstn_app, firstn_all, Nat.sub_diag. cbn [firstn]. apply app_nil_r. }
  assert (RST : skipn (Z.to_nat (len (m_payload m) + (2 + len ks + len ext))) all = rest).
  { rewrite A3. apply SK. rewrite !len_app. change (len [_; _]) with 2. lia. }
  rewrite RAW, RST.
  assert (PAY : (if mk then xor_key 0 (skipn (Z.to_nat (2 + len ks + len ext - 4)) all) body else body) = m_payload m).
  { destruct mk eqn:EMK; [|exact XP']. rewrite A2, SK; [|rewrite !len_app; change (len [_; _]) with 2; lia].
    rewrite xor_key_app; [exact XP'|]. rewrite LK. unfold mk in EMK. destruct (m_key m); [reflexivity|discriminate]. }
  rewrite PAY.
  assert (LB2 : len (m_payload m) + (2 + len ks + len ext) = len (m_bytes m)) by lia. rewrite LB2.
  assert (H0 : forall ev cl, ev = answer m -> cl = closing w || closes [m] -> pinged [m] = [] ->
    handled w [m] (consume w (len (m_bytes m)) rest cl ev)).
  { intros ev cl -> -> PI. unfold handled. cbn [consume events closing tx mask rx_size tx_rptr map concat].
    rewrite app_nil_r. repeat split. exists []. rewrite PI. cbn. rewrite app_nil_r. repeat split; constructor. }
  destruct (m_kind m) eqn:K; cbn [code]; 
    repeat match goal with |- context [?a =? ?b] => change (a =? b) with false; cbn iota
                        | |- context [?a =? ?b] => change (a =? b) with true; cbn iota end.
  - rewrite (TR eq_refl) in *. destruct (Z.ltb_spec (rx_rptr w + len (m_bytes m)) (rx_size w)) as [_|X].
    2:{ rewrite U, len_app in RX. change (len (@nil Z)) with 0 in RX. lia. }
    rewrite (c_string_id _ (NT eq_refl)). eexists. split; [reflexivity|].
    split; [apply H0; unfold answer, closes, pinged; cbn; rewrite K; rewrite ?orb_false_r; reflexivity|].
    split; [reflexivity|]. split; [exact TX|]. reflexivity.
  - eexists. split; [reflexivity|].
    split; [apply H0; unfold answer, closes, pinged; cbn; rewrite K; rewrite ?orb_false_r; reflexivity|].
    split; [reflexivity|]. split; [exact TX|]. reflexivity.
  - eexists. split; [reflexivity|].
    split; [apply H0; unfold answer, closes, pinged; cbn; rewrite K; rewrite ?orb_true_r; reflexivity|].
    split; [reflexivity|]. split; [exact TX|]. reflexivity.
  - destruct (send_ok w Pong (m_payload m) TX BP ltac:(lia)) as (w1 & key & f & bs & ES & TS & TO & SR & FR & KY & _).
    change 10 with (code Pong). rewrite ES. cbn [bind]. eexists. split; [reflexivity|].
    destruct SR as (R1 & R2 & R3 & R4 & R5 & R6 & R7 & R8).
    split.
    { unfold handled, answer, closes, pinged. cbn. rewrite K, R1, R2, R3, R6, R8, orb_false_r. cbn [app]. rewrite !app_nil_r. repeat split.
      exists [Msg key Pong (m_payload m) bs]. unfold wire. cbn. rewrite app_nil_r.
      split; [exact TS|]. split; [constructor; [exact FR|constructor]|]. split; [constructor; [reflexivity|constructor]|].
      split; [reflexivity|]. constructor; [exact KY|constructor]. }
    split; [reflexivity|]. split; [exact TO|]. cbn. rewrite R4. reflexivity.
  - eexists. split; [reflexivity|].
    split; [apply H0; unfold answer, closes, pinged; cbn; rewrite K; rewrite ?orb_false_r; reflexivity|].
    split; [reflexivity|]. split; [exact TX|]. reflexivity.
Qed.

Lemma wire_cons m ms : wire (m :: ms) = m_bytes m ++ wire ms.
Proof. reflexivity. Qed.
Lemma wire_app a b : wire (a ++ b) = wire a ++ wire b.
Proof. unfold wire. rewrite map_app, concat_app. reflexivity. Qed.
Lemma bytes_two m : carried m -> (2 <= length (m_bytes m))%nat.
Proof. intros C. destruct (frame_parts _ _ _ _ C) as (l0 & ext & ks & body & -> & _). cbn [length]. lia. Qed.

(* The buffer holds less than the next frame. *)
Definition short (u : list Z) (ms : list message) : Prop :=
  match ms with [] => u = [] | m :: _ => (length u < length (m_bytes m))%nat end.
Definition texts_whole (ms : list message) (u : list Z) : Prop :=
  forall before t rest, ms = before ++ t :: rest -> m_kind t = Text ->
  (length (wire (before ++ [t])) <= length u)%nat -> u = wire (before ++ [t]).

Lemma frames_ok ms : forall fuel w q, Forall carried ms -> Forall moderate ms ->
  unread w ++ q = wire ms -> tx_ok w -> rx_rptr w + len (unread w) < rx_size w -> 0 <= rx_rptr w ->
  texts_whole ms (unread w) -> (length (unread w) < fuel)%nat ->
  exists f1 f2 w', ms = f1 ++ f2 /\ ws_frames fuel w = Ok w' /\ handled w f1 w' /\ tx_ok w' /\
    unread w' ++ q = wire f2 /\ short (unread w') f2 /\
    rx_rptr w' + len (unread w') < rx_size w' /\ 0 <= rx_rptr w'.
Proof.
  induction ms as [|m ms IH]; intros fuel w q C M E TX RX RP TW FU; (destruct fuel as [|fuel]; [lia|]); cbn [ws_frames].
  - unfold wire in E. cbn in E. apply app_eq_nil in E. destruct E as (E & ->).
    assert (F : ws_frame w = Ok None).
    { unfold ws_frame. rewrite E. reflexivity. }
    rewrite F. cbn [bind]. exists [], [], w. rewrite E. repeat split; auto; try apply handled_nil; try apply TX.
    rewrite E in RX. exact RX.
  - inversion C as [|? ? C1 C2]; subst. inversion M as [|? ? M1 M2]; subst. rewrite wire_cons in E.
    destruct (Nat.lt_ge_cases (length (unread w)) (length (m_bytes m))) as [L|L].
    + destruct (app_split (m_bytes m) (wire ms) (unread w) q (eq_sym E) ltac:(lia)) as (x & EB & EQ).
      assert (XN : x <> []).
      { intros ->. rewrite EB, app_nil_r in L. lia. }
      rewrite (frame_prefix w m (unread w) x C1 M1 EB XN eq_refl). cbn [bind].
      exists [], (m :: ms), w. split; [reflexivity|]. split; [reflexivity|]. split; [apply handled_nil|]. split; [exact TX|].
      split; [exact E|]. split; [exact L|]. split; assumption.
    + destruct (app_split (unread w) q (m_bytes m) (wire ms) E L) as (x & EU & EW).
      assert (TR : m_kind m = Text -> x = []).
      { intros K. specialize (TW [] m ms eq_refl K). cbn [app] in TW. unfold wire in TW. cbn in TW. rewrite app_nil_r in TW.
        specialize (TW L). rewrite EU in TW. rewrite <- (app_nil_r (m_bytes m)) in TW at 2.
        apply app_inv_head in TW. exact TW. }
      destruct (frame_full w m x C1 M1 EU TX RX TR) as (w' & F & H & U & T & R).
      rewrite F. cbn [bind].
      assert (RX' : rx_rptr w' + len (unread w') < rx_size w').
      { rewrite U, R. replace (rx_size w') with (rx_size w) by (symmetry; apply H). rewrite EU, len_app in RX. lia. }
      pose proof (len_pos (m_bytes m)).
      destruct x as [|b x].
      * rewrite U. eexists [m], ms, _. split; [reflexivity|]. split; [reflexivity|].
        split; [exact H|]. split; [exact T|]. cbn [unread rx_rptr rx_size]. split; [symmetry; exact EW|].
        split; [destruct ms as [|m2 ms]; [reflexivity|]; inversion C2; subst; cbn [short length]; pose proof (bytes_two m2 ltac:(assumption)); lia|].
        change (len (@nil Z)) with 0. rewrite U, R in RX'. change (len (@nil Z)) with 0 in RX'. lia.
      * rewrite U. destruct (IH fuel w' q C2 M2) as (f1 & f2 & w2 & E2 & F2 & H2 & T2 & U2 & S2 & R2 & P2).
        -- rewrite U. symmetry. exact EW.
        -- exact T.
        -- exact RX'.
        -- rewrite R. lia.
        -- intros before t rest -> K LT. specialize (TW (m :: before) t rest eq_refl K). cbn [app] in TW.
           rewrite wire_cons, EU, !app_length, U in *. specialize (TW ltac:(lia)). apply app_inv_head in TW. exact TW.
        -- rewrite U. rewrite EU, app_length in FU. pose proof (bytes_two m C1). lia.
        -- exists (m :: f1), f2, w2. split; [rewrite E2; reflexivity|]. split; [exact F2|].
           split; [exact (handled_app _ [m] _ f1 _ H H2)|]. auto.
Qed.

(* Receiving pieces *)
Definition data_of (rs : list received) : list (list Z) :=
  concat (map (fun r => match r with Data bs => [bs] | _ => [] end) rs).
Definition rx_ok (w : web_socket) : Prop := 0 <= rx_rptr w /\ rx_rptr w + len (unread w) <= rx_size w.

Lemma grow_ok w : rx_ok w ->
  rx_ok (ws_grow w) /\ 1023 <= room (ws_grow w) /\ unread (ws_grow w) = unread w /\ rx_rptr (ws_grow w) = rx_rptr w /\
  tx (ws_grow w) = tx w /\ tx_rptr (ws_grow w) = tx_rptr w /\ tx_size (ws_grow w) = tx_size w /\ mask (ws_grow w) = mask w /\
  events (ws_grow w) = events w /\ closing (ws_grow w) = closing w.
Proof.
  intros (A & B). unfold ws_grow, room, rx_ok.
  destruct (Z.ltb_spec (rx_size w - (rx_rptr w + len (unread w))) 1024); cbn; repeat split; try assumption; lia.
Qed.

(* As [handled], whatever became of the size of the buffer *)
Definition dealt (w : web_socket) (ms : list message) (w' : web_socket) : Prop :=
  events w' = events w ++ concat (map answer ms) /\
  closing w' = closing w || closes ms /\
  (exists ps, tx w' = tx w ++ wire ps /\ Forall carried ps /\ Forall (fun p => m_kind p = Pong) ps /\
     map m_payload ps = pinged ms /\ Forall (fun p => m_key p <> None <-> mask w = true) ps) /\
  mask w' = mask w.
Lemma dealt_nil w w' : events w' = events w -> closing w' = closing w -> tx w' = tx w -> mask w' = mask w -> dealt w [] w'.
Proof.
  intros E C T M. unfold dealt, closes. cbn. rewrite app_nil_r, orb_false_r. repeat split; auto.
  exists []. cbn. rewrite app_nil_r. repeat split; auto.
Qed.
Lemma dealt_app w1 a w2 b w3 : dealt w1 a w2 -> dealt w2 b w3 -> dealt w1 (a ++ b) w3.
Proof.
  intros (E1 & C1 & (p1 & T1 & F1 & K1 & P1 & M1) & A1) (E2 & C2 & (p2 & T2 & F2 & K2 & P2 & M2) & A2).
  unfold dealt. rewrite E2, E1, C2, C1, T2, T1, A2. unfold closes, pinged, wire in *.
  rewrite existsb_app, !map_app, !concat_app, <- app_assoc, orb_assoc. repeat split; auto.
  exists (p1 ++ p2). rewrite !map_app, concat_app, <- app_assoc, P1, P2. rewrite A1 in M2.
  repeat split; apply Forall_app; split; assumption.
Qed.

Definition aligned (ms : list message) (u : list Z) (pieces : list (list Z)) : Prop :=
  forall before t rest, ms = before ++ t :: rest -> m_kind t = Text ->
  exists p1 p2, pieces = p1 ++ p2 /\ u ++ concat p1 = wire (before ++ [t]).

Lemma poll_ok rs : forall w ms, Forall carried ms -> Forall moderate ms ->
  (forall r, In r rs -> r <> Closed) -> recv_legal w rs ->
  unread w ++ concat (data_of rs) = wire ms -> short (unread w) ms ->
  tx_ok w -> rx_ok w -> aligned ms (unread w) (data_of rs) ->
  exists w', ws_poll w rs = Ok w' /\ dealt w ms w' /\ unread w' = [].
Proof.
  induction rs as [|r rs IH]; intros w ms C M NC LG E SH TX RX AL; cbn [ws_poll].
  - unfold data_of in E. cbn in E. rewrite app_nil_r in E. exists w. split; [reflexivity|].
    destruct ms as [|m ms].
    + split; [apply dealt_nil; reflexivity|exact SH].
    + cbn [short] in SH. rewrite E, wire_cons, app_length in SH. lia.
  - cbn [recv_legal] in LG. destruct LG as (L1 & LG).
    destruct (grow_ok w RX) as (RX1 & ROOM & U1 & RP1 & T1 & TR1 & TS1 & M1 & E1 & C1).
    unfold ws_recv in *. destruct r as [| |bs].
    + cbn [bind]. destruct (IH (ws_grow w) ms C M) as (w' & P & D & U).
      * intros r H. apply NC. right. exact H.
      * exact LG.
      * rewrite U1. exact E.
      * rewrite U1. exact SH.
      * unfold tx_ok in *. rewrite T1, TR1, TS1. exact TX.
      * exact RX1.
      * rewrite U1. exact AL.
      * exists w'. split; [exact P|]. split; [|exact U].
        exact (dealt_app w [] (ws_grow w) ms w' (dealt_nil w (ws_grow w) E1 C1 T1 M1) D).
    + contradiction (NC Closed (or_introl eq_refl) eq_refl).
    + destruct bs as [|b bs]; [change (len (@nil Z)) with 0 in L1; lia|].
      set (w1 := WS _ _ _ _ _ _ _ _ _ _ _) in *.
      assert (UW : unread w1 = unread w ++ b :: bs) by (unfold w1; cbn [unread]; rewrite U1; reflexivity).
      assert (RW : rx_rptr w1 + len (unread w1) < rx_size w1).
      { rewrite UW. unfold w1. cbn [rx_rptr rx_size]. unfold room in L1. rewrite U1 in L1. rewrite len_app. lia. }
      destruct (Z.ltb_spec (rx_size w1) (rx_rptr w1 + len (unread w1))) as [X|_]; [lia|].
      change (data_of (Data (b :: bs) :: rs)) with ((b :: bs) :: data_of rs) in *. cbn [concat] in E.
      destruct (frames_ok ms (S (length (unread w1))) w1 (concat (data_of rs)) C M) as (f1 & f2 & w2 & EM & F2 & H2 & T2 & U2 & S2 & R2 & P2).
      * rewrite UW, <- app_assoc. exact E.
      * unfold tx_ok, w1 in *. cbn. rewrite T1, TR1, TS1. exact TX.
      * exact RW.
      * unfold w1. cbn. destruct RX1. assumption.
      * intros before t rest EM K LT. destruct (AL before t rest EM K) as (p1 & p2 & EP & EC).
        destruct p1 as [|y p1].
        { exfalso. cbn in EC. rewrite app_nil_r in EC. rewrite EM in SH. rewrite EC in SH.
          clear - SH. destruct before as [|m0 before]; cbn [app short] in SH; rewrite ?wire_cons in SH;
            [unfold wire in SH; cbn in SH; rewrite app_nil_r in SH; lia|].
          rewrite app_length in SH. lia. }
        injection EP as <- EP. cbn [concat] in EC. rewrite app_assoc, <- UW in EC.
        assert (Z0 : concat p1 = []).
        { assert (X : length (unread w1 ++ concat p1) = length (wire (before ++ [t]))) by (rewrite EC; reflexivity).
          rewrite app_length in X. destruct (concat p1); [reflexivity|cbn [length] in X; lia]. }
        rewrite Z0, app_nil_r in EC. exact EC.
      * lia.
      * rewrite F2 in *. cbn [bind].
        rewrite EM in C, M. apply Forall_app in C. apply Forall_app in M. destruct C as (_ & C). destruct M as (_ & M).
        destruct (IH w2 f2 C M) as (w' & P & D & U).
        -- intros r H. apply NC. right. exact H.
        -- exact LG.
        -- exact U2.
        -- exact S2.
        -- exact T2.
        -- split; [exact P2|]. lia.
        -- intros before t rest EF K. destruct (AL (f1 ++ before) t rest ltac:(rewrite EM, EF, <- app_assoc; reflexivity) K) as (p1 & p2 & EP & EC).
           destruct p1 as [|y p1].
           { exfalso. cbn in EC. rewrite app_nil_r in EC. rewrite EM, EF in SH. rewrite EC in SH. clear - SH.
             rewrite app_assoc in SH. destruct (f1 ++ before) as [|m0 l]; cbn [app short] in SH; rewrite ?wire_cons in SH;
               [unfold wire in SH; cbn in SH; rewrite app_nil_r in SH; lia|].
             rewrite app_length in SH. lia. }
           injection EP as <- EP. cbn [concat] in EC. rewrite app_assoc, <- UW in EC.
           exists p1, p2. split; [exact EP|]. 
           assert (X : unread w1 = wire f1 ++ unread w2).
           { apply (app_inv_tail (concat (data_of rs))). rewrite <- app_assoc, U2, <- wire_app, <- EM, <- E, UW, <- app_assoc. reflexivity. }
           rewrite X, <- !app_assoc, wire_app in EC. apply app_inv_head in EC. exact EC.
        -- exists w'. split; [exact P|]. split; [|exact U]. rewrite EM. apply (dealt_app w f1 w2 f2 w'); [|exact D].
           destruct H2 as (A1 & A2 & A3 & A4 & _). unfold dealt.
           unfold w1 in A1, A2, A3, A4. cbn in A1, A2, A3, A4. rewrite E1 in A1. rewrite C1 in A2. rewrite T1, M1 in A3. rewrite M1 in A4.
           auto.
Qed.

(* Flushing *)
Lemma sum_nonneg l : Forall (fun n => 0 < n) l -> 0 <= fold_right Z.add 0 l.
Proof. induction 1; cbn [fold_right]; lia. Qed.
Lemma flush_loop_ok sends : forall w w' out, flush_loop w sends = (w', out) -> tx_ok w ->
  out ++ tx w' = tx w /\ tx_ok w' /\ unread w' = unread w /\ events w' = events w /\ mask w' = mask w /\
  rx_rptr w' = rx_rptr w /\ rx_size w' = rx_size w /\
  (Forall (fun n => 0 < n) sends -> closing w' = closing w /\
     (len (tx w) <= fold_right Z.add 0 sends -> tx w' = [])).
Proof.
  induction sends as [|n sends IH]; intros w w' out E T; cbn [flush_loop] in E.
  - destruct (tx w) eqn:X; injection E as <- <-; rewrite ?X; repeat split; auto; try apply T; cbn [fold_right] in *;
      unfold len in *; cbn [length] in *; intros; lia.
  - destruct (tx w) as [|b l] eqn:X.
    { injection E as <- <-. rewrite X. repeat split; auto; apply T. }
    destruct (Z.eqb_spec n 0) as [->|N0].
    { injection E as <- <-. rewrite X. repeat split; auto; try apply T; inversion H; lia. }
    destruct (Z.ltb_spec n 0).
    { injection E as <- <-. unfold tx_ok in *. rewrite X in T. cbn.
      repeat split; auto; try apply T; inversion H0; lia. }
    rewrite <- X in E |- *.
    destruct (flush_loop _ sends) as (w2 & o2) eqn:F. injection E as <- <-.
    destruct (IH _ _ _ F) as (A & B & C & D & G & H1 & H2 & K).
    { unfold tx_ok in *. cbn. split; [pose proof (len_pos (firstn (Z.to_nat n) (tx w))); lia|].
      rewrite <- (firstn_skipn (Z.to_nat n) (tx w)), len_app in T at 1. lia. }
    cbn in A, C, D, G, H1, H2, K. split.
    { rewrite <- app_assoc, A. apply firstn_skipn. }
    split; [exact B|]. repeat split; auto.
    + inversion H0; subst. apply K. assumption.
    + intros L. inversion H0; subst. apply K; [assumption|]. cbn [fold_right] in L.
      pose proof (sum_nonneg sends ltac:(assumption)). unfold len in *. rewrite skipn_length. lia.
Qed.
Lemma flush_ok w sends w' out : ws_flush w sends = (w', out) -> tx_ok w ->
  out ++ tx w' = tx w /\ tx_ok w' /\ unread w' = unread w /\ events w' = events w /\ mask w' = mask w /\
  (Forall (fun n => 0 < n) sends -> closing w' = closing w /\
     (len (tx w) <= fold_right Z.add 0 sends -> tx w' = [])).
Proof.
  intros E T. unfold ws_flush in E. destruct (flush_loop w sends) as (w1 & o) eqn:F.
  destruct (flush_loop_ok sends w w1 o F T) as (A & B & C & D & G & _ & _ & K).
  destruct (tx w1) as [|b l] eqn:X; injection E as <- <-.
  - split; [exact A|]. split; [|split; [exact C|split; [exact D|split; [exact G|]]]].
    + unfold tx_ok in *. destruct B as (B1 & B2). cbn. rewrite X in B2. change (len (@nil Z)) with 0 in *. lia.
    + intros P. split; [apply K; exact P|reflexivity].
  - rewrite X. split; [exact A|]. split; [exact B|]. split; [exact C|]. split; [exact D|]. split; [exact G|]. exact K.
Qed.

(* Several messages sent one after another *)
Fixpoint ws_sends (w : web_socket) (l : list (kind * list Z)) : res web_socket :=
  match l with
  | [] => Ok w
  | (k, data) :: l => do! w <- ws_send w (code k) data; ws_sends w l
  end.
Lemma sends_ok l : forall w, tx_ok w -> Forall (fun m => Forall byte (snd m) /\ len (snd m) < 2 ^ 64) l ->
  exists w' ms, ws_sends w l = Ok w' /\ tx w' = tx w ++ wire ms /\ tx_ok w' /\ same_rx w w' /\
    Forall carried ms /\ map (fun m => (m_kind m, m_payload m)) ms = l /\
    Forall (fun m => m_key m <> None <-> mask w = true) ms.
Proof.
  induction l as [|[k data] l IH]; intros w T F; cbn [ws_sends].
  - exists w, []. unfold wire. cbn. rewrite app_nil_r. repeat split; auto; apply T.
  - inversion F as [|? ? (B & L) F']; subst. cbn [snd] in *.
    destruct (send_ok w k data T B L) as (w1 & key & f & bs & E & X & T1 & R & FR & KY & _).
    rewrite E. cbn [bind]. destruct (IH w1 T1 F') as (w2 & ms & E2 & X2 & T2 & R2 & C2 & M2 & K2).
    exists w2, (Msg key k data bs :: ms). split; [exact E2|]. rewrite wire_cons, app_assoc, X2, X. split; [reflexivity|].
    split; [exact T2|]. split; [exact (same_rx_trans _ _ _ R R2)|]. split; [constructor; [exact FR|exact C2]|].
    cbn. rewrite M2. split; [reflexivity|]. constructor; [exact KY|].
    replace (mask w) with (mask w1) by apply R. exact K2.
Qed.
