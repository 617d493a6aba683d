(* What a user of library files relies on. *)
From Coq Require Import List NArith ZArith.
From Verif Require Import Base AdlerModel AdlerSpec FbufModel.
Import ListNotations.
Local Open Scope N_scope.

(* The values each kind of field can hold. *)
Definition in_range (x : field) : Prop :=
  match x with
  | FU8 u => u < 2 ^ 8
  | FU16 u => u < 2 ^ 16
  | FU32 u => u < 2 ^ 32
  | FU64 u => u < 2 ^ 64
  | FUint u => u < 2 ^ 64
  | FInt v => (- 2 ^ 63 <= v < 2 ^ 63)%Z
  | FRaw bs => Forall is_byte bs /\ N.of_nat (length bs) <= 61440
  end.

(* How a field is read back. *)
Definition kind_of (x : field) : kind :=
  match x with
  | FU8 _ => KU8 | FU16 _ => KU16 | FU32 _ => KU32 | FU64 _ => KU64
  | FUint _ => KUint | FInt _ => KInt | FRaw bs => KRaw (length bs)
  end.

(* A codec that gives back what it was given, when the blocks are at most 60 KiB
   and exactly the last one is marked as the last. *)
Definition last_marked (bs : list (list N * bool)) : Prop :=
  exists bs' b, bs = bs' ++ [(b, true)] /\ Forall (fun x => snd x = false) bs'.
Definition blocks_ok (bs : list (list N * bool)) : Prop :=
  (bs = [] \/ last_marked bs) /\
  Forall (fun x => Forall is_byte (fst x) /\ 0 < N.of_nat (length (fst x)) <= 61440) bs.
Definition lossless (c : codec) : Prop :=
  forall bs, blocks_ok bs ->
    unpack c (pack c bs) (N.of_nat (length (concat (map fst bs)))) = Some (concat (map fst bs)).

(* The file, and the checksum given to the writer, when the fields are written
   one after the other. *)
Definition file_of (c : codec) (z : zip) (a : algo) (xs : list field) : res (list N * N) :=
  do! f <- write_fields (fbuf_open_out z a) xs; fbuf_close_out c f.

(* Reading a file: the fields, what is left over, and the checksum given to the
   reader. *)
Definition reread (c : codec) (a : algo) (ks : list kind) (file : list N) : res (list field * list N * N) :=
  do! (data, cs, expect) <- fbuf_open_in c a file;
  do! (ys, rest) <- read_fields ks data;
  do! sum <- fbuf_close_in a cs expect;
  Ok (ys, rest, sum).

(* An upper bound for the bytes a field takes. *)
Definition width (x : field) : N :=
  match x with
  | FU8 _ => 1 | FU16 _ => 2 | FU32 _ => 4 | FU64 _ => 8
  | FUint _ => 10 | FInt _ => 10 | FRaw bs => N.of_nat (length bs)
  end.

Definition raw_bytes (x : field) : list N := match x with FRaw bs => bs | _ => [] end.
