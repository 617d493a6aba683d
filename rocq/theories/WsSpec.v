(* Frames of the WebSocket protocol (RFC 6455, section 5.2): which bytes carry a message.
   Nothing here refers to the model. *)
From Coq Require Import List ZArith Bool.
Import ListNotations.
Local Open Scope Z_scope.

Definition byte (b : Z) : Prop := 0 <= b < 256.

Inductive kind := Text | Binary | Close | Ping | Pong.
Definition code (k : kind) : Z :=
  match k with Text => 1 | Binary => 2 | Close => 8 | Ping => 9 | Pong => 10 end.

(* A number in bytes, the most significant first *)
Fixpoint big_endian (bs : list Z) : Z :=
  match bs with
  | [] => 0
  | b :: bs => b * 256 ^ Z.of_nat (length bs) + big_endian bs
  end.

(* The length of the payload: in seven bits, or an escape and two or eight bytes *)
Inductive length_field : Z -> list Z -> Prop :=
| Len7 n : 0 <= n < 126 -> length_field n [n]
| Len16 bs : length bs = 2%nat -> Forall byte bs -> length_field (big_endian bs) (126 :: bs)
| Len64 bs : length bs = 8%nat -> Forall byte bs -> length_field (big_endian bs) (127 :: bs).
(* The shortest form is used. *)
Definition shortest (n : Z) (f : list Z) : Prop :=
  (n < 126 -> length f = 1%nat) /\ (n < 65536 -> (length f <= 3)%nat).

Definition masked_with (key payload : list Z) : list Z :=
  map (fun i => Z.lxor (nth i payload 0) (nth (i mod 4) key 0)) (seq 0 (length payload)).

(* The last frame of a message, with or without a key *)
Inductive frame : option (list Z) -> kind -> list Z -> list Z -> Prop :=
| Plain k payload l0 ext :
    length_field (Z.of_nat (length payload)) (l0 :: ext) -> Forall byte payload ->
    frame None k payload ([128 + code k; l0] ++ ext ++ payload)
| Masked k payload l0 ext key :
    length_field (Z.of_nat (length payload)) (l0 :: ext) -> Forall byte payload ->
    length key = 4%nat -> Forall byte key ->
    frame (Some key) k payload ([128 + code k; 128 + l0] ++ ext ++ key ++ masked_with key payload).

(* A message that was sent, and the bytes that carry it *)
Record message := Msg { m_key : option (list Z); m_kind : kind; m_payload : list Z; m_bytes : list Z }.
Definition carried (m : message) : Prop := frame (m_key m) (m_kind m) (m_payload m) (m_bytes m).
Definition wire (ms : list message) : list Z := concat (map m_bytes ms).

(* The payload fits: less than 2 GiB; a text has no NUL. *)
Definition moderate (m : message) : Prop :=
  Z.of_nat (length (m_payload m)) < 2 ^ 31 /\ (m_kind m = Text -> ~ In 0 (m_payload m)).

(* After the last byte of each text nothing more is received in the same piece. *)
Definition texts_end_pieces (ms : list message) (pieces : list (list Z)) : Prop :=
  forall before t rest, ms = before ++ t :: rest -> m_kind t = Text ->
  exists p1 p2, pieces = p1 ++ p2 /\ concat p1 = wire (before ++ [t]).

(* What the answers to messages are *)
Definition pinged (ms : list message) : list (list Z) :=
  concat (map (fun m => match m_kind m with Ping => [m_payload m] | _ => [] end) ms).
Definition closes (ms : list message) : bool :=
  existsb (fun m => match m_kind m with Close => true | _ => false end) ms.
