(* Model of the buffered, checksummed library file format, src/fbuf.c.

   Bytes are N below 256; a 64-bit word is an N below 2^64.  The compressor is a
   parameter: what it makes of the sequence of blocks it is given, and the
   inverse.  Errors reported with fatal() and failed assertions are [Fault]. *)
From Coq Require Import List NArith ZArith Arith Bool.
From Verif Require Import Base AdlerModel.
Import ListNotations.
Local Open Scope N_scope.

Definition P64 : N := 18446744073709551616.

(* SPILL_SIZE, BLOCK_SIZE: src/fbuf.c:35-36. *)
Definition SPILL_SIZE : N := 65536.
Definition BLOCK_SIZE : N := SPILL_SIZE - SPILL_SIZE / 16.

Definition len (l : list N) : N := N.of_nat (length l).

(* src/fbuf.h:32-41; [ZOther] is compression by a codec given as parameter,
   FBUF_ZIP_ZSTD in the code. *)
Inductive zip := ZNone | ZFastlz | ZOther.
Definition zip_code (z : zip) : N := match z with ZNone => 45 | ZFastlz => 70 | ZOther => 90 end.

Inductive algo := CsNone | CsAdler (i : impl).
Definition algo_code (a : algo) : N := match a with CsNone => 45 | CsAdler _ => 65 end.

(* An open output file.  [blocks] is what has been handed to the compressor so
   far, with the flag for the last block. *)
Record fbuf := Fbuf {
  f_zip : zip; f_algo : algo; f_cs : N * N;
  f_wbuf : list N; f_wtotal : N; f_blocks : list (list N * bool) }.

(* Modelled: src/fbuf.c:430-469 (fbuf_open for output), 223-243. *)
Definition fbuf_open_out (z : zip) (a : algo) : fbuf := Fbuf z a adler_init [] 0 [].

(* Modelled: src/fbuf.c:245-254 (checksum_update). *)
Definition checksum_update (a : algo) (st : N * N) (data : list N) : res (N * N) :=
  match a with CsNone => Ok st | CsAdler i => update i st data end.

(* Modelled: src/fbuf.c:256-264 (checksum_finish). *)
Definition finish (a : algo) (st : N * N) : N :=
  match a with CsNone => 0 | CsAdler _ => checksum_finish st end.

(* Modelled: src/fbuf.c:514-543 (fbuf_maybe_flush). *)
Definition fbuf_maybe_flush (f : fbuf) (more : N) (last : bool) : res fbuf :=
  if BLOCK_SIZE <? more then Fault
  else if BLOCK_SIZE <? len (f_wbuf f) + more then
    let wbuf := match f_zip f with
                | ZFastlz => f_wbuf f ++ repeat 0 (16 - length (f_wbuf f))
                | _ => f_wbuf f
                end in
    do! cs <- checksum_update (f_algo f) (f_cs f) wbuf;
    Ok (Fbuf (f_zip f) (f_algo f) cs [] (f_wtotal f + len wbuf) (f_blocks f ++ [(wbuf, last)]))
  else Ok f.

(* Stores at wbuf + wpend: the buffer has SPILL_SIZE bytes. *)
Definition put_bytes (f : fbuf) (bs : list N) : res fbuf :=
  if SPILL_SIZE <? len (f_wbuf f) + len bs then Fault
  else Ok (Fbuf (f_zip f) (f_algo f) (f_cs f) (f_wbuf f ++ bs) (f_wtotal f) (f_blocks f)).

(* The do-while loop of fbuf_put_uint, src/fbuf.c:597-602. *)
Fixpoint leb (fuel : nat) (val : N) : list N :=
  match fuel with
  | O => []
  | S fuel' =>
    let enc := N.land val 127 in
    let val := N.shiftr val 7 in
    if val =? 0 then [enc] else N.lor enc 128 :: leb fuel' val
  end.

(* The zig-zag code, src/fbuf.c:607, as unsigned 64-bit words. *)
Definition to_u64 (v : Z) : N := Z.to_N (v mod 18446744073709551616).
Definition of_u64 (u : N) : Z :=
  if u <? 9223372036854775808 then Z.of_N u else (Z.of_N u - 18446744073709551616)%Z.
Definition zigzag (v : Z) : N :=
  N.lxor (N.shiftl (to_u64 v) 1 mod P64) (to_u64 (Z.shiftr v 63)).

(* src/fbuf.c:684: (zz >> 1) ^ -(zz & 1) *)
Definition unzigzag (zz : N) : Z :=
  of_u64 (N.lxor (N.shiftr zz 1) ((P64 - N.land zz 1) mod P64)).

(* Little-endian bytes: write_u8/u16/u32/u64, src/fbuf.c:611-644. *)
Fixpoint le_bytes (n : nat) (u : N) : list N :=
  match n with O => [] | S n' => N.land u 255 :: le_bytes n' (N.shiftr u 8) end.

(* A field of a file.  write_double writes the 64-bit pattern with write_u64 and
   is the same case. *)
Inductive field :=
| FU8 (u : N) | FU16 (u : N) | FU32 (u : N) | FU64 (u : N)
| FUint (u : N) | FInt (v : Z) | FRaw (bs : list N).

(* Modelled: src/fbuf.c:593-658, the write functions. *)
Definition write_field (f : fbuf) (x : field) : res fbuf :=
  match x with
  | FU8 u => do! f <- fbuf_maybe_flush f 1 false; put_bytes f (le_bytes 1 u)
  | FU16 u => do! f <- fbuf_maybe_flush f 2 false; put_bytes f (le_bytes 2 u)
  | FU32 u => do! f <- fbuf_maybe_flush f 4 false; put_bytes f (le_bytes 4 u)
  | FU64 u => do! f <- fbuf_maybe_flush f 8 false; put_bytes f (le_bytes 8 u)
  | FUint u => do! f <- fbuf_maybe_flush f 10 false; put_bytes f (leb 10 u)
  | FInt v => do! f <- fbuf_maybe_flush f 10 false; put_bytes f (leb 10 (zigzag v))
  | FRaw bs => do! f <- fbuf_maybe_flush f (len bs) false; put_bytes f bs
  end.

Fixpoint write_fields (f : fbuf) (xs : list field) : res fbuf :=
  match xs with
  | [] => Ok f
  | x :: xs' => do! f <- write_field f x; write_fields f xs'
  end.

(* ---- the compressor ---- *)

(* A codec: the output for a sequence of blocks, and decompression of a payload
   when the decompressed size is known. *)
Record codec := Codec {
  pack : list (list N * bool) -> list N;
  unpack : list N -> N -> option (list N) }.

Definition payload (c : codec) (z : zip) (bs : list (list N * bool)) : list N :=
  match z with
  | ZNone => concat (map fst bs)
  | _ => pack c bs
  end.

(* PACK_BE32, src/util.h:448-451. *)
Definition be32 (u : N) : list N :=
  [N.land (N.shiftr (N.shiftr u 16) 8) 255; N.land (N.shiftr u 16) 255;
   N.land (N.shiftr u 8) 255; N.land u 255].

(* UNPACK_BE32, src/util.h:441-444. *)
Definition unbe32 (b : list N) : N :=
  let g k := nth k b 0 in
  N.lor (N.shiftl (N.lor (N.shiftl (g 0%nat) 8) (g 1%nat)) 16)
        (N.lor (N.shiftl (g 2%nat) 8) (g 3%nat)) mod P32.

(* Modelled: src/fbuf.c:545-591 (fbuf_close) with fbuf_write_header 287-300 and
   fbuf_update_header 302-317: the contents of the file
   and the checksum returned to the caller. *)
Definition fbuf_close_out (c : codec) (f : fbuf) : res (list N * N) :=
  do! f <- fbuf_maybe_flush f BLOCK_SIZE true;
  let body := payload c (f_zip f) (f_blocks f) in
  let cs := finish (f_algo f) (f_cs f) in
  Ok ([70; 66; 85; 70; zip_code (f_zip f); algo_code (f_algo f); 20; 0]
      ++ be32 (f_wtotal f mod P64) ++ be32 cs ++ be32 (20 + len body) ++ body, cs).

(* Modelled: src/fbuf.c:319-428 (fbuf_decompress) for files of the current
   format (header of 20 bytes): the decompressed contents, the checksum state
   and the expected checksum. *)
Definition fbuf_open_in (c : codec) (a : algo) (file : list N) : res (list N * (N * N) * N) :=
  if len file <? 16 then Fault
  else
    let header := firstn 16 file in
    if negb (if list_eq_dec N.eq_dec (firstn 4 header) [70; 66; 85; 70] then true else false) then Fault
    else if negb (nth 5 header 0 =? algo_code a) then Fault
    else
      let size := unbe32 (skipn 8 header) in
      let expect := unbe32 (skipn 12 header) in
      let header_sz := nth 6 header 0 in
      if negb (header_sz =? 20) then Fault
      else if len file <? 20 then Fault
      else
        let filesz := unbe32 (firstn 4 (skipn 16 file)) in
        if len file <? filesz then Fault
        else if filesz <? 20 then Fault
        else
          let body := firstn (N.to_nat (filesz - 20)) (skipn 20 file) in
          do! data <-
            (if nth 4 header 0 =? 45 then
               if len body <? size then Fault else Ok (firstn (N.to_nat size) body)
             else if (nth 4 header 0 =? 90) || (nth 4 header 0 =? 70) then
               match unpack c body size with
               | Some d => if len d =? size then Ok d else Fault
               | None => Fault
               end
             else Fault);
          do! cs <- checksum_update a adler_init data;
          Ok (data, cs, expect).

(* fbuf_close for input, src/fbuf.c:552-554: fatal unless the checksum is the
   expected one. *)
Definition fbuf_close_in (a : algo) (cs : N * N) (expect : N) : res N :=
  if finish a cs =? expect then Ok expect else Fault.

(* ---- reading ---- *)

(* The do-while loop of fbuf_get_uint, src/fbuf.c:671-676; shifting by 64 or more
   is undefined. *)
Fixpoint get_uint_loop (rbuf : list N) (val : N) (shift : N) : res (N * list N) :=
  match rbuf with
  | [] => Fault
  | byte :: rest =>
    if 64 <=? shift then Fault
    else
      let val := N.lor val (N.shiftl (N.land byte 127) shift mod P64) in
      if N.land byte 128 =? 0 then Ok (val, rest)
      else get_uint_loop rest val (shift + 7)
  end.

(* Modelled: src/fbuf.c:660-679 (fbuf_get_uint); reading past the
   end, which only debug builds check, is [Fault]. *)
Definition get_uint (rbuf : list N) : res (N * list N) :=
  match rbuf with
  | [] => Fault
  | b0 :: rest =>
    if N.land b0 128 =? 0 then Ok (b0, rest)
    else get_uint_loop rest (N.land b0 127) 7
  end.

(* Little-endian reads, src/fbuf.c:687-729. *)
Fixpoint get_le (n : nat) (rbuf : list N) (shift : N) : res (N * list N) :=
  match n with
  | O => Ok (0, rbuf)
  | S n' =>
    match rbuf with
    | [] => Fault
    | b :: rest =>
      do! (v, rest') <- get_le n' rest (shift + 8);
      Ok (N.lor (N.shiftl b shift) v, rest')
    end
  end.

(* What is read next: the kind of field, and the length for read_raw. *)
Inductive kind := KU8 | KU16 | KU32 | KU64 | KUint | KInt | KRaw (n : nat).

Definition read_field (k : kind) (rbuf : list N) : res (field * list N) :=
  match k with
  | KU8 => do! (u, r) <- get_le 1 rbuf 0; Ok (FU8 u, r)
  | KU16 => do! (u, r) <- get_le 2 rbuf 0; Ok (FU16 u, r)
  | KU32 => do! (u, r) <- get_le 4 rbuf 0; Ok (FU32 u, r)
  | KU64 => do! (u, r) <- get_le 8 rbuf 0; Ok (FU64 u, r)
  | KUint => do! (u, r) <- get_uint rbuf; Ok (FUint u, r)
  | KInt => do! (u, r) <- get_uint rbuf; Ok (FInt (unzigzag u), r)
  | KRaw n => if (length rbuf <? n)%nat then Fault else Ok (FRaw (firstn n rbuf), skipn n rbuf)
  end.

Fixpoint read_fields (ks : list kind) (rbuf : list N) : res (list field * list N) :=
  match ks with
  | [] => Ok ([], rbuf)
  | k :: ks' =>
    do! (x, r) <- read_field k rbuf;
    do! (xs, r) <- read_fields ks' r;
    Ok (x :: xs, r)
  end.
