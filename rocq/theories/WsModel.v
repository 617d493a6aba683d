(* Model of the WebSocket wrapper: src/server.c:142-367.

   The handler is a parameter of the wrapper: what it is called with is recorded.  The
   functions it may call in turn (ws_send) are not called here. *)
From Coq Require Import List ZArith Bool.
From Verif Require Import Base.
Import ListNotations.
Local Open Scope Z_scope.

(* The handler is called for a text, as a C string, for binary data or for a pong:
   ws_handler_t, src/server.h *)
Inductive event := EText (s : list Z) | EBinary (s : list Z) | EPong (s : list Z).

(* web_socket_t: src/server.c:79-92.  [unread] is rx_buf from rx_rptr to rx_wptr; [tx] is
   tx_buf from tx_rptr to tx_wptr.  [keys] are the results of rand. *)
Record web_socket := WS {
  mask : bool; closing : bool; tx_size : Z; tx_rptr : Z; tx : list Z;
  rx_size : Z; rx_rptr : Z; unread : list Z;
  keys : nat -> Z; nkeys : nat; events : list event }.

Definition len {A} (l : list A) : Z := Z.of_nat (length l).

(* ws_new: src/server.c:142-150 *)
Definition ws_new (m : bool) (keys : nat -> Z) : web_socket :=
  WS m false 0 0 [] 0 0 [] keys 0 [].

(* ws_queue_buf: src/server.c:159-168.  [Fault] is a write past the buffer. *)
Definition ws_queue_buf (w : web_socket) (data : list Z) : res web_socket :=
  let wptr := tx_rptr w + len (tx w) in
  let size := if tx_size w <? wptr + len data then Z.max (tx_size w + len data) 1024 else tx_size w in
  if size <? wptr + len data then Fault
  else Ok (WS (mask w) (closing w) size (tx_rptr w) (tx w ++ data)
             (rx_size w) (rx_rptr w) (unread w) (keys w) (nkeys w) (events w)).

(* PACK_BE16, PACK_BE32, PACK_BE64: src/util.h:448-453 *)
Definition pack16 (u : Z) : list Z := [Z.land (Z.shiftr u 8) 255; Z.land u 255].
Definition pack32 (u : Z) : list Z := pack16 (Z.shiftr u 16) ++ pack16 u.
Definition pack64 (u : Z) : list Z := pack32 (Z.shiftr u 32) ++ pack32 u.

(* The loop over the payload at src/server.c:194-201, all chunks at once; the loop at
   src/server.c:307-310 *)
Fixpoint xor_key (i : nat) (key data : list Z) : list Z :=
  match data with
  | [] => []
  | b :: data => Z.lxor b (nth (i mod 4) key 0) :: xor_key (S i) key data
  end.

(* ws_send: src/server.c:170-205 *)
Definition ws_send (w : web_socket) (opcode : Z) (data : list Z) : res web_socket :=
  let size := len data in
  let size0 := if size <? 126 then size else if size <=? 65535 then 126 else 127 in
  let header := [Z.lor 128 opcode; Z.lor (if mask w then 128 else 0) (Z.land size0 127)] in
  do! w <- ws_queue_buf w header;
  do! w <- (if size0 =? 126 then ws_queue_buf w (pack16 size)
            else if size0 =? 127 then ws_queue_buf w (pack64 size) else Ok w);
  if mask w then
    let masks := pack32 (keys w (nkeys w)) in
    do! w <- ws_queue_buf w masks;
    do! w <- ws_queue_buf w (xor_key 0 masks data);
    Ok (WS (mask w) (closing w) (tx_size w) (tx_rptr w) (tx w)
          (rx_size w) (rx_rptr w) (unread w) (keys w) (S (nkeys w)) (events w))
  else if 0 <? size then ws_queue_buf w data else Ok w.

(* ws_flush: src/server.c:232-251, given the results of send.  Also returns the bytes that
   went out.  A result that takes more than was offered is not one of send: it takes all. *)
Fixpoint flush_loop (w : web_socket) (sends : list Z) : web_socket * list Z :=
  match tx w, sends with
  | [], _ | _, [] => (w, [])
  | _, n :: sends =>
      if n =? 0 then (w, [])
      else if n <? 0 then
        (WS (mask w) true (tx_size w) (tx_rptr w) (tx w)
           (rx_size w) (rx_rptr w) (unread w) (keys w) (nkeys w) (events w), [])
      else
        let k := Z.to_nat n in
        let w' := WS (mask w) (closing w) (tx_size w) (tx_rptr w + len (firstn k (tx w))) (skipn k (tx w))
                    (rx_size w) (rx_rptr w) (unread w) (keys w) (nkeys w) (events w) in
        let '(w'', out) := flush_loop w' sends in
        (w'', firstn k (tx w) ++ out)
  end.
Definition ws_flush (w : web_socket) (sends : list Z) : web_socket * list Z :=
  let '(w, out) := flush_loop w sends in
  match tx w with
  | [] => (WS (mask w) (closing w) (tx_size w) 0 []
             (rx_size w) (rx_rptr w) (unread w) (keys w) (nkeys w) (events w), out)
  | _ => (w, out)
  end.

(* UNPACK_BE16, UNPACK_BE32, UNPACK_BE64: src/util.h:442-446 *)
Definition unpack16 (b : list Z) : Z := Z.lor (Z.shiftl (nth 0 b 0) 8) (nth 1 b 0).
Definition unpack32 (b : list Z) : Z := Z.lor (Z.shiftl (unpack16 b) 16) (unpack16 (skipn 2 b)).
Definition unpack64 (b : list Z) : Z := Z.lor (Z.shiftl (unpack32 b) 32) (unpack32 (skipn 4 b)).
(* Conversion to int *)
Definition to_int (z : Z) : Z := let r := z mod 2 ^ 32 in if r <? 2 ^ 31 then r else r - 2 ^ 32.
Definition to_size (z : Z) : Z := z mod 2 ^ 64.

(* A C string ends at the first NUL. *)
Fixpoint c_string (s : list Z) : list Z :=
  match s with [] => [] | c :: s => if c =? 0 then [] else c :: c_string s end.

Definition consume (w : web_socket) (n : Z) (rest : list Z) (cl : bool) (ev : list event) : web_socket :=
  WS (mask w) cl (tx_size w) (tx_rptr w) (tx w)
     (rx_size w) (rx_rptr w + n) rest (keys w) (nkeys w) (events w ++ ev).

(* One turn of the loop in ws_poll: src/server.c:272-359.  [None] is goto read_more.  The NUL
   stored after a text replaces the byte after the frame, if it was received already.  A
   negative length is taken to be a fault: it is used as the size of the payload. *)
Definition ws_frame (w : web_socket) : res (option web_socket) :=
  let f := unread w in
  let rbytes := len f in
  if rbytes <? 2 then Ok None
  else
    let fin := Z.testbit (nth 0 f 0) 7 in
    let opcode := Z.land (nth 0 f 0) 15 in
    let fmask := Z.testbit (nth 1 f 0) 7 in
    let size0 := Z.land (nth 1 f 0) 127 in
    let headersz := 2 + (if fmask then 4 else 0)
                    + (if size0 =? 126 then 2 else if size0 =? 127 then 8 else 0) in
    if rbytes <? headersz then Ok None
    else
      let flength := if size0 =? 127 then to_int (unpack64 (skipn 2 f))
                     else if size0 =? 126 then unpack16 (skipn 2 f) else size0 in
      if rbytes <? to_size (flength + headersz) then Ok None
      else if negb fin then Fault
      else if flength <? 0 then Fault
      else
        let raw := firstn (Z.to_nat flength) (skipn (Z.to_nat headersz) f) in
        let rest := skipn (Z.to_nat (flength + headersz)) f in
        let payload := if fmask then xor_key 0 (skipn (Z.to_nat (headersz - 4)) f) raw else raw in
        let n := flength + headersz in
        if opcode =? 1 then
          if rx_rptr w + n <? rx_size w then
            Ok (Some (consume w n (match rest with [] => [] | _ :: r => 0 :: r end) (closing w)
                        [EText (c_string payload)]))
          else Fault
        else if opcode =? 2 then Ok (Some (consume w n rest (closing w) [EBinary payload]))
        else if opcode =? 8 then Ok (Some (consume w n rest true []))
        else if opcode =? 9 then
          do! w <- ws_send w 10 payload; Ok (Some (consume w n rest (closing w) []))
        else if opcode =? 10 then Ok (Some (consume w n rest (closing w) [EPong payload]))
        else Ok (Some (consume w n rest (closing w) [])).

(* The loop: src/server.c:272-362.  Each turn takes at least two bytes. *)
Fixpoint ws_frames (fuel : nat) (w : web_socket) : res web_socket :=
  match fuel with
  | O => Fault
  | S fuel =>
      do! r <- ws_frame w;
      match r with
      | None => Ok w
      | Some w' =>
          match unread w' with
          | [] => Ok (WS (mask w') (closing w') (tx_size w') (tx_rptr w') (tx w')
                        (rx_size w') 0 [] (keys w') (nkeys w') (events w'))
          | _ => ws_frames fuel w'
          end
      end
  end.

(* What recv may return: no data now, an error or the end of the stream, or bytes *)
Inductive received := Again | Closed | Data (bs : list Z).

(* The beginning of ws_poll: src/server.c:256-257 *)
Definition ws_grow (w : web_socket) : web_socket :=
  if rx_size w - (rx_rptr w + len (unread w)) <? 1024
  then WS (mask w) (closing w) (tx_size w) (tx_rptr w) (tx w)
         (rx_size w + 1024) (rx_rptr w) (unread w) (keys w) (nkeys w) (events w)
  else w.
(* How many bytes recv is asked for: src/server.c:260 *)
Definition room (w : web_socket) : Z := rx_size w - (rx_rptr w + len (unread w)) - 1.

(* From one recv to the next, in the same call of ws_poll or in a later one:
   src/server.c:253-362.  [Fault] are the assertions at lines 269-270. *)
Definition ws_recv (w : web_socket) (r : received) : res web_socket :=
  let w := ws_grow w in
  match r with
  | Again => Ok w
  | Closed | Data [] =>
      Ok (WS (mask w) true (tx_size w) (tx_rptr w) (tx w)
            (rx_size w) (rx_rptr w) (unread w) (keys w) (nkeys w) (events w))
  | Data bs =>
      let w := WS (mask w) (closing w) (tx_size w) (tx_rptr w) (tx w)
                 (rx_size w) (rx_rptr w) (unread w ++ bs) (keys w) (nkeys w) (events w) in
      if rx_size w <? rx_rptr w + len (unread w) then Fault
      else ws_frames (S (length (unread w))) w
  end.
Fixpoint ws_poll (w : web_socket) (rs : list received) : res web_socket :=
  match rs with
  | [] => Ok w
  | r :: rs => do! w <- ws_recv w r; ws_poll w rs
  end.

(* recv returns no more than it was asked for. *)
Fixpoint recv_legal (w : web_socket) (rs : list received) : Prop :=
  match rs with
  | [] => True
  | r :: rs =>
      match r with Data bs => 1 <= len bs <= room (ws_grow w) | _ => True end /\
      match ws_recv w r with Ok w => recv_legal w rs | Fault => True end
  end.
