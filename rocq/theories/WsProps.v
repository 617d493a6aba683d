(* C89: messages over a WebSocket arrive as they were sent, however the stream is cut. *)
From Coq Require Import List ZArith Bool Lia.
From Verif Require Import Base WsSpec WsModel WsProofs.
Import ListNotations.
Local Open Scope Z_scope.

(* What is queued is a sequence of frames that carry the messages, each with the shortest
   length field, masked exactly on a masking socket. *)
Theorem C89_sent : forall w k data, tx_ok w -> Forall byte data -> len data < 2 ^ 64 ->
  exists w' key bs f h, ws_send w (code k) data = Ok w' /\ tx w' = tx w ++ bs /\
    frame key k data bs /\ (key <> None <-> mask w = true) /\
    length_field (len data) f /\ shortest (len data) f /\
    bs = (128 + code k) :: (match key with None => hd 0 f | Some _ => 128 + hd 0 f end) :: tl f ++ h /\
    tx_ok w' /\ same_rx w w'.
Proof.
  intros w k data T B L. destruct (send_ok w k data T B L) as (w' & key & f & bs & E & X & T' & R & FR & KY & LF & SH & h & EH).
  exists w', key, bs, f, h. repeat (split; [assumption|]). assumption.
Qed.

(* Flushing puts the queued bytes on the wire in order, whatever the results of send, and all
   of them if send keeps taking bytes. *)
Theorem C89_flushed : forall w sends w' out, tx_ok w -> ws_flush w sends = (w', out) ->
  out ++ tx w' = tx w /\ tx_ok w' /\ unread w' = unread w /\ events w' = events w /\
  (Forall (fun n => 0 < n) sends -> closing w' = closing w /\
     (len (tx w) <= fold_right Z.add 0 sends -> tx w' = [])).
Proof.
  intros w sends w' out T E. destruct (flush_ok w sends w' out E T) as (A & B & C & D & _ & K). auto.
Qed.

(* The handler is called once for each message, in order and with its payload; every ping is
   answered by a pong with the same payload; the socket is closing exactly if a close came.
   Missing: pieces that go on after the end of a text, and payloads of 2 GiB or more. *)
Theorem C89_received_partial : forall m keys ms rs,
  Forall carried ms -> Forall moderate ms ->
  (forall r, In r rs -> r <> Closed) -> recv_legal (ws_new m keys) rs ->
  concat (data_of rs) = wire ms -> texts_end_pieces ms (data_of rs) ->
  exists w ps, ws_poll (ws_new m keys) rs = Ok w /\
    events w = concat (map answer ms) /\ closing w = closes ms /\ unread w = [] /\
    tx w = wire ps /\ Forall carried ps /\ Forall (fun p => m_kind p = Pong) ps /\
    map m_payload ps = pinged ms.
Proof.
  intros m keys ms rs C M NC LG E AL.
  destruct (poll_ok rs (ws_new m keys) ms C M NC LG) as (w & P & (EV & CL & (ps & T & F & K & PL & _) & _) & U).
  - exact E.
  - destruct ms as [|m0 ms]; [reflexivity|]. cbn. inversion C; subst. pose proof (bytes_two m0 ltac:(assumption)). lia.
  - split; reflexivity || (cbn; lia).
  - split; cbn; lia.
  - exact AL.
  - exists w, ps. repeat split; auto.
Qed.

(* Pieces of at most 1023 bytes are always what recv may return. *)
Lemma small_legal_from rs : forall w ms, Forall carried ms -> Forall moderate ms ->
  Forall (fun r => match r with Again => True | Closed => False | Data bs => 1 <= len bs <= 1023 end) rs ->
  unread w ++ concat (data_of rs) = wire ms -> short (unread w) ms ->
  tx_ok w -> rx_ok w -> aligned ms (unread w) (data_of rs) -> recv_legal w rs.
Proof.
  intros w ms C M SM. revert w ms C M.
  induction rs as [|r rs IH]; intros w ms C M E SH TX RX AL; cbn [recv_legal]; [exact Logic.I|].
  inversion SM as [|? ? S1 S2]; subst. pose proof (grow_ok w RX) as (RX1 & ROOM & U1 & RP1 & T1 & TR1 & TS1 & M1 & E1 & C1).
  split; [destruct r; auto; lia|].
  destruct (ws_recv w r) as [w'|] eqn:EW; [|exact Logic.I].
  destruct r as [| |bs].
  - unfold ws_recv in EW. injection EW as <-. apply (IH S2 (ws_grow w) ms C M).
    + rewrite U1. exact E.
    + rewrite U1. exact SH.
    + unfold tx_ok in *. rewrite T1, TR1, TS1. exact TX.
    + exact RX1.
    + rewrite U1. exact AL.
  - contradiction S1.
  - unfold ws_recv in EW. destruct bs as [|b bs]; [change (len (@nil Z)) with 0 in S1; lia|].
    set (w1 := WS _ _ _ _ _ _ _ _ _ _ _) in *.
    assert (UW : unread w1 = unread w ++ b :: bs) by (unfold w1; cbn [unread]; rewrite U1; reflexivity).
    assert (RW : rx_rptr w1 + len (unread w1) < rx_size w1).
    { rewrite UW. unfold w1. cbn [rx_rptr rx_size]. unfold room in ROOM. rewrite U1 in ROOM. rewrite len_app. lia. }
    destruct (Z.ltb_spec (rx_size w1) (rx_rptr w1 + len (unread w1))) as [X|_]; [discriminate|].
    change (data_of (Data (b :: bs) :: rs)) with ((b :: bs) :: data_of rs) in *. cbn [concat] in E.
    destruct (frames_ok ms (S (length (unread w1))) w1 (concat (data_of rs)) C M) as (f1 & f2 & w2 & EM & F2 & H2 & T2 & U2 & S3 & R2 & P2).
    + rewrite UW, <- app_assoc. exact E.
    + unfold tx_ok, w1 in *. cbn. rewrite T1, TR1, TS1. exact TX.
    + exact RW.
    + unfold w1. cbn. destruct RX1. assumption.
    + intros before t rest EM K LT. destruct (AL before t rest EM K) as (p1 & p2 & EP & EC).
      destruct p1 as [|y p1].
      { exfalso. cbn in EC. rewrite app_nil_r in EC. rewrite EM in SH. rewrite EC in SH.
        clear - SH. destruct before as [|m0 before]; cbn [app short] in SH; rewrite ?wire_cons in SH;
          [unfold wire in SH; cbn in SH; rewrite app_nil_r in SH; lia|].
        rewrite app_length in SH. lia. }
      injection EP as <- EP. cbn [concat] in EC. rewrite app_assoc, <- UW in EC.
      assert (Z0 : concat p1 = []).
      { assert (X : length (unread w1 ++ concat p1) = length (wire (before ++ [t]))) by (rewrite EC; reflexivity).
        rewrite app_length in X. destruct (concat p1); [reflexivity|cbn [length] in X; lia]. }
      rewrite Z0, app_nil_r in EC. exact EC.
    + lia.
    + rewrite F2 in EW. injection EW as <-. rewrite EM in C, M. apply Forall_app in C. apply Forall_app in M.
      apply (IH S2 w2 f2 (proj2 C) (proj2 M) U2 S3 T2); [split; [exact P2|lia]|].
      intros before t rest EF K. destruct (AL (f1 ++ before) t rest ltac:(rewrite EM, EF, <- app_assoc; reflexivity) K) as (p1 & p2 & EP & EC).
      destruct p1 as [|y p1].
      { exfalso. cbn in EC. rewrite app_nil_r in EC. rewrite EM, EF in SH. rewrite EC in SH. clear - SH.
        rewrite app_assoc in SH. destruct (f1 ++ before) as [|m0 l]; cbn [app short] in SH; rewrite ?wire_cons in SH;
          [unfold wire in SH; cbn in SH; rewrite app_nil_r in SH; lia|].
        rewrite app_length in SH. lia. }
      injection EP as <- EP. cbn [concat] in EC. rewrite app_assoc, <- UW in EC.
      exists p1, p2. split; [exact EP|].
      assert (X : unread w1 = wire f1 ++ unread w2).
      { apply (app_inv_tail (concat (data_of rs))). rewrite <- app_assoc, U2, <- wire_app, <- EM, <- E, UW, <- app_assoc. reflexivity. }
      rewrite X, <- !app_assoc, wire_app in EC. apply app_inv_head in EC. exact EC.
Qed.

(* From one end to the other: messages sent on one socket, flushed until nothing is queued,
   and received on the other in pieces of up to 1023 bytes. *)
Theorem C89_end_to_end_partial : forall m1 k1 m2 k2 l,
  Forall (fun m => Forall byte (snd m) /\ len (snd m) < 2 ^ 31 /\ (fst m = Text -> ~ In 0 (snd m))) l ->
  exists w1 ms, ws_sends (ws_new m1 k1) l = Ok w1 /\
    map (fun m => (m_kind m, m_payload m)) ms = l /\ Forall carried ms /\
    forall sends w1' out, ws_flush w1 sends = (w1', out) -> tx w1' = [] ->
    forall rs, Forall (fun r => match r with Again => True | Closed => False | Data bs => 1 <= len bs <= 1023 end) rs ->
    concat (data_of rs) = out -> texts_end_pieces ms (data_of rs) ->
    exists w2, ws_poll (ws_new m2 k2) rs = Ok w2 /\
      events w2 = concat (map answer ms) /\ closing w2 = closes ms.
Proof.
  intros m1 k1 m2 k2 l F.
  destruct (sends_ok l (ws_new m1 k1)) as (w1 & ms & E & X & T & R & C & ML & K).
  { split; cbn; lia. }
  { revert F. apply Forall_impl. intros x (A & B & _). split; [exact A|]. lia. }
  exists w1, ms. split; [exact E|]. split; [exact ML|]. split; [exact C|].
  intros sends w1' out FL TE rs SM ED AL.
  assert (MO : Forall moderate ms).
  { rewrite Forall_forall in F |- *. intros m Hm.
    assert (I : In (m_kind m, m_payload m) l) by (rewrite <- ML; apply (in_map (fun m => (m_kind m, m_payload m))); exact Hm).
    destruct (F _ I) as (_ & A & B). split; [exact A|exact B]. }
  destruct (flush_ok w1 sends w1' out FL T) as (A & _). rewrite TE, app_nil_r in A.
  assert (EW : concat (data_of rs) = wire ms) by (rewrite ED, A, X; reflexivity).
  assert (SH : short [] ms).
  { destruct ms as [|m0 ms]; [reflexivity|]. cbn. inversion C; subst. pose proof (bytes_two m0 ltac:(assumption)). lia. }
  destruct (C89_received_partial m2 k2 ms rs C MO) as (w2 & ps & P & EV & CL & _).
  - intros r Hr ->. rewrite Forall_forall in SM. exact (SM _ Hr).
  - apply (small_legal_from rs (ws_new m2 k2) ms C MO SM EW SH); [split; cbn; lia|split; cbn; lia|exact AL].
  - exact EW.
  - exact AL.
  - exists w2. auto.
Qed.

(* Two texts in one piece: the NUL stored after the first one destroys the second, and the
   assertion on the final frame fails. *)
Definition text_msg (c : Z) : message := Msg None Text [c] [129; 1; c].
Theorem C89_two_texts_refuted : exists ms rs,
  Forall carried ms /\ Forall moderate ms /\ recv_legal (ws_new false (fun _ => 0)) rs /\
  concat (data_of rs) = wire ms /\ ws_poll (ws_new false (fun _ => 0)) rs = Fault.
Proof.
  exists [text_msg 97; text_msg 98], [Data [129; 1; 97; 129; 1; 98]].
  assert (CA : forall c, byte c -> carried (text_msg c)).
  { intros c B. apply (Plain Text [c] 1 []); [apply Len7; cbn; lia|]. constructor; [exact B|constructor]. }
  assert (MO : forall c, c <> 0 -> moderate (text_msg c)).
  { intros c N. split; [cbn; lia|]. intros _ [->|[]]. contradiction N; reflexivity. }
  split; [repeat constructor; apply CA; unfold byte; lia|].
  split; [repeat constructor; apply MO; lia|].
  split; [vm_compute; repeat split; intros; discriminate|].
  split; [reflexivity|]. vm_compute. reflexivity.
Qed.

(* A length of more than 32 bits is cut: five bytes pass for a payload of 4 GiB and five. *)
Theorem C89_long_refuted : exists bs l, length_field (2 ^ 32 + 5) (127 :: l) /\
  bs = [130; 127] ++ l ++ [1; 2; 3; 4; 5] /\
  exists w, ws_poll (ws_new false (fun _ => 0)) [Data bs] = Ok w /\ events w = [EBinary [1; 2; 3; 4; 5]].
Proof.
  exists ([130; 127] ++ [0; 0; 0; 1; 0; 0; 0; 5] ++ [1; 2; 3; 4; 5]), [0; 0; 0; 1; 0; 0; 0; 5].
  split; [|split; [reflexivity|eexists; split; vm_compute; reflexivity]].
  change (2 ^ 32 + 5) with (big_endian [0; 0; 0; 1; 0; 0; 0; 5]). apply Len64; [reflexivity|].
  repeat constructor; lia.
Qed.
(* A length of 2^32 - 1 is taken as -1. *)
Theorem C89_negative_refuted : exists bs l, length_field (2 ^ 32 - 1) (127 :: l) /\ bs = [130; 127] ++ l /\
  ws_poll (ws_new false (fun _ => 0)) [Data bs] = Fault.
Proof.
  exists ([130; 127] ++ [0; 0; 0; 0; 255; 255; 255; 255]), [0; 0; 0; 0; 255; 255; 255; 255].
  split; [|split; [reflexivity|vm_compute; reflexivity]].
  change (2 ^ 32 - 1) with (big_endian [0; 0; 0; 0; 255; 255; 255; 255]). apply Len64; [reflexivity|].
  repeat constructor; lia.
Qed.
(* The first frame of a message in several frames, which the protocol allows, fails an
   assertion. *)
Theorem C89_fragment_refuted : exists payload,
  ws_poll (ws_new false (fun _ => 0)) [Data ([2; len payload] ++ payload)] = Fault.
Proof. exists [1; 2; 3]. vm_compute. reflexivity. Qed.

(* The hypotheses are met: a masked binary message and a ping cut within the header, then a
   text at the end of a piece *)
Definition example_ms : list message :=
  [Msg (Some [1; 2; 3; 4]) Binary [7; 8] [130; 130; 1; 2; 3; 4; 6; 10];
   Msg None Ping [9] [137; 1; 9]; Msg None Text [104; 105] [129; 2; 104; 105];
   Msg None Close [] [136; 0]].
Definition example_rs : list received :=
  [Data [130]; Again; Data [130; 1; 2; 3; 4; 6; 10; 137; 1]; Data [9; 129; 2; 104; 105]; Data [136; 0]].
Example C89_example_carried : Forall carried example_ms /\ Forall moderate example_ms /\
  recv_legal (ws_new false (fun _ => 0)) example_rs /\
  concat (data_of example_rs) = wire example_ms /\ texts_end_pieces example_ms (data_of example_rs).
Proof.
  split.
  { unfold example_ms. repeat constructor.
    - apply (Masked Binary [7; 8] 2 [] [1; 2; 3; 4]); [apply Len7; cbn; lia| |reflexivity|]; repeat constructor; lia.
    - apply (Plain Ping [9] 1 []); [apply Len7; cbn; lia|]; repeat constructor; lia.
    - apply (Plain Text [104; 105] 2 []); [apply Len7; cbn; lia|]; repeat constructor; lia.
    - apply (Plain Close [] 0 []); [apply Len7; cbn; lia|constructor]. }
  split.
  { repeat constructor; try (cbn; lia); try discriminate. }
  split.
  { vm_compute. repeat split; try (intros; discriminate). }
  split; [reflexivity|].
  intros before t rest E K.
  destruct before as [|a [|b [|c [|d before]]]]; cbn [app example_ms] in E; unfold example_ms in E.
  - injection E as <- _. discriminate K.
  - injection E as _ <- _. discriminate K.
  - injection E as <- <- <- _. exists [[130]; [130; 1; 2; 3; 4; 6; 10; 137; 1]; [9; 129; 2; 104; 105]], [[136; 0]].
    split; reflexivity.
  - injection E as _ _ _ <- _. discriminate K.
  - injection E as _ _ _ _ E. destruct before; discriminate E.
Qed.
Example C89_example_result : exists w, ws_poll (ws_new false (fun _ => 0)) example_rs = Ok w /\
  events w = [EBinary [7; 8]; EText [104; 105]] /\ tx w = [138; 1; 9] /\ closing w = true.
Proof. eexists. split; [vm_compute; reflexivity|]. repeat split. Qed.

Print Assumptions C89_sent.
Print Assumptions C89_flushed.
Print Assumptions C89_received_partial.
Print Assumptions C89_end_to_end_partial.
Print Assumptions C89_two_texts_refuted.
Print Assumptions C89_long_refuted.
Print Assumptions C89_negative_refuted.
Print Assumptions C89_fragment_refuted.
