(* Model of saving compiled code to a pack file and loading it again,
   src/jit/jit-pack.c.

   Bytes are N below 256, strings are byte lists without the terminating zero,
   memory regions are byte lists.  The zstd codec is a parameter.  Failed
   assertions, fatal() and reads past the end are [Fault].  An identifier is its
   characters (see InternModel.v), a file reference is the name of the file, a
   function handle is the name of the function, and an object is the pair of
   module name and offset that object_locus gives for it. *)
From Coq Require Import List NArith ZArith Arith Bool.
From Verif Require Import Base FbufModel.
Import ListNotations.
Local Open Scope N_scope.

Definition str := list N.
Definition str_eqb (a b : str) : bool := if list_eq_dec N.eq_dec a b then true else false.

(* src/diag.h:34-55 *)
Definition LINE_INVALID : N := 1048575.
Definition COLUMN_INVALID : N := 4095.
Definition DELTA_INVALID : N := 255.
Record loc := Loc { l_line : N; l_col : N; l_dline : N; l_dcol : N; l_file : option str }.
Definition LOC_INVALID : loc := Loc LINE_INVALID COLUMN_INVALID DELTA_INVALID DELTA_INVALID None.

(* src/diag.c:182-187 *)
Definition loc_invalid_p (l : loc) : bool :=
  (l_line l =? LINE_INVALID) || match l_file l with None => true | Some _ => false end.

(* jit_value_t, src/jit/jit-priv.h:179-219.  A double is its 64-bit pattern. *)
Inductive value :=
| VInvalid
| VReg (r : N)
| VInt (v : Z)
| VDouble (bits : N)
| VAddrReg (r : N) (disp : Z)
| VAddrAbs (v : Z)
| VAddrCpool (v : Z)
| VAddrCover (v : Z)
| VLabel (l : N)
| VHandle (h : option str)
| VExit (e : N)
| VLoc (l : loc)
| VVpos (block op : N)
| VLocus (module : str) (off : N).

(* jit_ir_t, src/jit/jit-priv.h:223-231. *)
Record ir := Ir { i_op : N; i_size : N; i_target : N; i_cc : N; i_result : N; i_arg1 : value; i_arg2 : value }.
Definition REG_INVALID : N := 65535.

(* jit_func_t, src/jit/jit-priv.h:287-310: the parts that are saved. *)
Record func := Func {
  f_nregs : N; f_vars : list (str * N); f_cpool : list N; f_spec : N; f_framesz : N;
  f_module : str; f_offset : N; f_irs : list ir }.

(* ---- the writer ---- *)

(* pack_writer_t, src/jit/jit-pack.c:48-56.  The string hash table is an exact map
   from strings to offsets (the table itself is modelled in HashModel.v). *)
Record pw := Pw {
  w_tab : list N; w_hash : list (str * N);
  w_bufsz : N; w_buf : list N; w_last : loc }.

(* src/jit/jit-pack.c:272-287 *)
Definition writer_new : pw := Pw [0] [] 512 [] LOC_INVALID.

(* Modelled: src/jit/jit-pack.c:91-99 (pack_grow). *)
Definition pack_grow (w : pw) (minsz : N) : pw :=
  if w_bufsz w <? len (w_buf w) + minsz then
    Pw (w_tab w) (w_hash w) (N.max (w_bufsz w + minsz) ((3 * w_bufsz w) / 2)) (w_buf w) (w_last w)
  else w.

(* Stores through wptr, inside the buffer. *)
Definition store (w : pw) (bs : list N) : res pw :=
  if w_bufsz w <? len (w_buf w) + len bs then Fault
  else Ok (Pw (w_tab w) (w_hash w) (w_bufsz w) (w_buf w ++ bs) (w_last w)).

(* Modelled: src/jit/jit-pack.c:101-112. *)
Definition pack_u8 (w : pw) (v : N) : res pw := store (pack_grow w 1) [v mod 256].
Definition pack_u16 (w : pw) (v : N) : res pw :=
  store (pack_grow w 2) [N.land v 255; N.shiftr v 8 mod 256].

(* Modelled: src/jit/jit-pack.c:60-72 (encode_number), the same loop as the one of
   fbuf_put_uint.  More than ten bytes cannot occur for a 64-bit value. *)
Definition encode_number (v : N) : list N := leb 10 v.

(* Modelled: src/jit/jit-pack.c:114-124. *)
Definition pack_uint (w : pw) (v : N) : res pw := store (pack_grow w 10) (encode_number v).
Definition pack_int (w : pw) (v : Z) : res pw := pack_uint w (zigzag v).

Fixpoint find_str (h : list (str * N)) (s : str) : N :=
  match h with
  | [] => 0
  | (k, v) :: h' => if str_eqb k s then v else find_str h' s
  end.

(* Modelled: src/jit/jit-pack.c:289-302 (pack_writer_get_string). *)
Definition get_string (w : pw) (s : option str) : N * pw :=
  match s with
  | None => (0, w)
  | Some s =>
    let exist := find_str (w_hash w) s in
    if negb (exist =? 0) then (exist, w)
    else
      let off := len (w_tab w) mod 4294967296 in
      (off, Pw (w_tab w ++ s ++ [0]) ((s, off) :: w_hash w) (w_bufsz w) (w_buf w) (w_last w))
  end.

(* Modelled: src/jit/jit-pack.c:126-129 (pack_str). *)
Definition pack_str (w : pw) (s : option str) : res pw :=
  let (off, w) := get_string w s in pack_uint w off.

Definition set_last (w : pw) (l : loc) : pw :=
  Pw (w_tab w) (w_hash w) (w_bufsz w) (w_buf w) l.

Definition same_file (a b : option str) : bool :=
  match a, b with
  | None, None => true
  | Some a, Some b => str_eqb a b
  | _, _ => false
  end.

(* Modelled: src/jit/jit-pack.c:131-148 (pack_loc). *)
Definition pack_loc (w : pw) (l : loc) : res pw :=
  do! w <-
    (if loc_invalid_p (w_last w) || negb (same_file (l_file l) (l_file (w_last w))) then
       do! w <- pack_str w (l_file l);
       do! w <- pack_uint w (l_line l);
       pack_uint w (l_col l)
     else
       let line_delta := (Z.of_N (l_line l) - Z.of_N (l_line (w_last w)))%Z in
       let column_delta := (Z.of_N (l_col l) - Z.of_N (l_col (w_last w)))%Z in
       do! w <- pack_u8 w 0;
       do! w <- pack_int w line_delta;
       pack_int w column_delta);
  Ok (set_last w l).

(* Modelled: src/jit/jit-pack.c:150-153 (pack_reg). *)
Definition pack_reg (w : pw) (r : N) : res pw :=
  pack_uint w (if r =? REG_INVALID then 0 else r + 1).

(* The kind of a value, src/jit/jit-priv.h:179-195. *)
Definition kind (v : value) : N :=
  match v with
  | VInvalid => 0 | VReg _ => 1 | VInt _ => 2 | VDouble _ => 3 | VAddrReg _ _ => 4
  | VAddrAbs _ => 5 | VAddrCpool _ => 6 | VAddrCover _ => 7 | VLabel _ => 8
  | VHandle _ => 9 | VExit _ => 10 | VLoc _ => 11 | VVpos _ _ => 12 | VLocus _ _ => 13
  end.

(* Modelled: src/jit/jit-pack.c:155-235 (pack_double, pack_handle, pack_locus,
   pack_value). *)
Definition pack_value (w : pw) (v : value) : res pw :=
  match v with
  | VVpos _ _ => pack_u8 w 0
  | _ =>
    do! w <- pack_u8 w (kind v);
    match v with
    | VInvalid | VVpos _ _ => Ok w
    | VReg r => pack_reg w r
    | VInt i => pack_int w i
    | VDouble b => pack_uint w b
    | VAddrReg r d => do! w <- pack_reg w r; pack_uint w (to_u64 d)
    | VAddrAbs i | VAddrCpool i | VAddrCover i => pack_uint w (to_u64 i)
    | VLabel l => pack_uint w l
    | VHandle h => pack_str w h
    | VExit e => pack_u8 w e
    | VLoc l => pack_loc w l
    | VLocus m o => do! w <- pack_str w (Some m); pack_uint w o
    end
  end.

Fixpoint pack_vars (w : pw) (vs : list (str * N)) : res pw :=
  match vs with
  | [] => Ok w
  | (n, o) :: vs' => do! w <- pack_str w (Some n); do! w <- pack_uint w o; pack_vars w vs'
  end.

(* The body of the loop at src/jit/jit-pack.c:259-269. *)
Definition pack_ir (w : pw) (i : ir) : res pw :=
  let enc := N.lor (N.lor (N.lor (N.shiftl (i_op i) 8) (N.shiftl (i_size i) 5))
                          (N.shiftl (i_target i) 4)) (i_cc i) in
  do! w <- pack_u16 w enc;
  do! w <- pack_reg w (i_result i);
  do! w <- pack_value w (i_arg1 i);
  pack_value w (i_arg2 i).

Fixpoint pack_irs (w : pw) (l : list ir) : res pw :=
  match l with [] => Ok w | i :: l' => do! w <- pack_ir w i; pack_irs w l' end.

(* Modelled: src/jit/jit-pack.c:237-270 (pack_func). *)
Definition pack_func (w : pw) (f : func) : res pw :=
  let w := set_last w LOC_INVALID in
  do! w <- pack_uint w (N.of_nat (length (f_irs f)));
  do! w <- pack_uint w (f_nregs f);
  do! w <- pack_uint w (N.of_nat (length (f_vars f)));
  do! w <- pack_uint w (len (f_cpool f));
  do! w <- pack_uint w (f_spec f);
  do! w <- pack_uint w (f_framesz f);
  do! w <- pack_vars w (f_vars f);
  do! w <- pack_str w (Some (f_module f));
  do! w <- pack_uint w (f_offset f);
  pack_irs w (f_irs f).

(* ---- the reader ---- *)

(* The part of pack_func_t the decoding functions use, src/jit/jit-pack.c:32-39:
   what is left to read and last_loc. *)
Definition rd := (list N * loc)%type.

Fixpoint cstr (l : list N) : option str :=
  match l with
  | [] => None
  | c :: l' => if c =? 0 then Some [] else match cstr l' with Some s => Some (c :: s) | None => None end
  end.

Section Reader.
Variable tab : list N.    (* the string table *)

(* Modelled: src/jit/jit-pack.c:74-89 (decode_number), 390-393 (unpack_uint): the
   same loop as fbuf_get_uint. *)
Definition unpack_uint (r : rd) : res (N * rd) :=
  do! x <- get_uint (fst r); Ok (fst x, (snd x, snd r)).

(* Modelled: src/jit/jit-pack.c:395-399. *)
Definition unpack_int (r : rd) : res (Z * rd) :=
  do! x <- unpack_uint r; Ok (unzigzag (fst x), snd x).

Definition unpack_u8 (r : rd) : res (N * rd) :=
  match fst r with [] => Fault | b :: l => Ok (b, (l, snd r)) end.

(* Modelled: src/jit/jit-pack.c:401-407. *)
Definition unpack_u16 (r : rd) : res (N * rd) :=
  do! x <- unpack_u8 r;
  do! y <- unpack_u8 (snd x);
  Ok (N.lor (fst x) (N.shiftl (fst y) 8), snd y).

(* Modelled: src/jit/jit-pack.c:409-414 (unpack_reg). *)
Definition unpack_reg (r : rd) : res (N * rd) :=
  do! x <- unpack_uint r;
  let enc := fst x in
  if enc <? REG_INVALID - 1 then Ok (if enc =? 0 then REG_INVALID else enc - 1, snd x) else Fault.

(* Modelled: src/jit/jit-pack.c:422-426 (unpack_str), with the characters up to the
   terminating zero. *)
Definition unpack_str (r : rd) : res (option str * rd) :=
  do! x <- unpack_uint r;
  let off := fst x mod 4294967296 in
  if off =? 0 then Ok (None, snd x)
  else match cstr (skipn (N.to_nat off) tab) with
       | Some s => Ok (Some s, snd x)
       | None => Fault
       end.

(* ident_new, src/ident.c: the string must not be null or empty. *)
Definition ident_new (s : option str) : res str :=
  match s with Some (c :: s') => Ok (c :: s') | _ => Fault end.

(* Modelled: src/jit/jit-pack.c:428-447 (unpack_loc); bit-fields of 20 and 12 bits
   wrap around. *)
Definition unpack_loc (r : rd) : res (loc * rd) :=
  let l := snd r in
  do! f <- unpack_str r;
  match fst f with
  | Some file =>
    do! x <- unpack_uint (snd f);
    do! y <- unpack_uint (snd x);
    let l' := Loc (fst x mod 1048576) (fst y mod 4096) 0 0 (Some file) in
    Ok (l', (fst (snd y), l'))
  | None =>
    do! x <- unpack_int (snd f);
    do! y <- unpack_int (snd x);
    let l' := Loc (Z.to_N ((Z.of_N (l_line l) + fst x) mod 1048576))
                  (Z.to_N ((Z.of_N (l_col l) + fst y) mod 4096))
                  (l_dline l) (l_dcol l) (l_file l) in
    Ok (l', (fst (snd y), l'))
  end.

Definition of_u32 (u : N) : Z :=
  let v := u mod 4294967296 in
  if v <? 2147483648 then Z.of_N v else (Z.of_N v - 4294967296)%Z.

(* Modelled: src/jit/jit-pack.c:416-420, 449-518 (unpack_double, unpack_handle,
   unpack_locus, unpack_value). *)
Definition unpack_value (r : rd) : res (value * rd) :=
  do! k <- unpack_u8 r;
  let r := snd k in
  match fst k with
  | 0 => Ok (VInvalid, r)
  | 1 => do! x <- unpack_reg r; Ok (VReg (fst x), snd x)
  | 2 => do! x <- unpack_int r; Ok (VInt (fst x), snd x)
  | 3 => do! x <- unpack_uint r; Ok (VDouble (fst x), snd x)
  | 4 => do! x <- unpack_reg r; do! y <- unpack_uint (snd x);
         Ok (VAddrReg (fst x) (of_u32 (fst y)), snd y)
  | 5 => do! x <- unpack_uint r; Ok (VAddrAbs (of_u64 (fst x)), snd x)
  | 6 => do! x <- unpack_uint r; Ok (VAddrCpool (of_u64 (fst x)), snd x)
  | 7 => do! x <- unpack_uint r; Ok (VAddrCover (of_u64 (fst x)), snd x)
  | 8 => do! x <- unpack_uint r; Ok (VLabel (fst x mod 4294967296), snd x)
  | 9 => do! x <- unpack_str r;
         match fst x with
         | None => Ok (VHandle None, snd x)
         | Some s => do! n <- ident_new (Some s); Ok (VHandle (Some n), snd x)
         end
  | 10 => do! x <- unpack_u8 r; Ok (VExit (fst x), snd x)
  | 11 => do! x <- unpack_loc r; Ok (VLoc (fst x), snd x)
  | 13 => do! x <- unpack_str r;
          do! m <- ident_new (fst x);
          do! y <- unpack_uint (snd x);
          Ok (VLocus m (fst y), snd y)
  | _ => Fault
  end.

Fixpoint unpack_vars (n : nat) (r : rd) : res (list (str * N) * rd) :=
  match n with
  | O => Ok ([], r)
  | S n' =>
    do! x <- unpack_str r;
    do! m <- ident_new (fst x);
    do! y <- unpack_uint (snd x);
    do! z <- unpack_vars n' (snd y);
    Ok ((m, fst y mod 4294967296) :: fst z, snd z)
  end.

(* The body of the loop at src/jit/jit-pack.c:585-597. *)
Definition unpack_ir (r : rd) : res (ir * rd) :=
  do! e <- unpack_u16 r;
  let enc := fst e in
  do! x <- unpack_reg (snd e);
  do! a <- unpack_value (snd x);
  do! b <- unpack_value (snd a);
  Ok (Ir (N.shiftr enc 8) (N.land (N.shiftr enc 5) 7) (N.land (N.shiftr enc 4) 1)
         (N.land enc 15) (fst x) (fst a) (fst b), snd b).

Fixpoint unpack_irs (n : nat) (r : rd) : res (list ir * rd) :=
  match n with
  | O => Ok ([], r)
  | S n' =>
    do! x <- unpack_ir r;
    do! y <- unpack_irs n' (snd x);
    Ok (fst x :: fst y, snd y)
  end.

Definition u32 (x : N) : N := x mod 4294967296.

(* Modelled: src/jit/jit-pack.c:555-597, the decoding part of jit_pack_fill. *)
Definition unpack_func (ubuf : list N) (cpool : list N) : res func :=
  let r := (ubuf, LOC_INVALID) in
  do! nirs <- unpack_uint r;
  do! nregs <- unpack_uint (snd nirs);
  do! nvars <- unpack_uint (snd nregs);
  do! cpoolsz <- unpack_uint (snd nvars);
  do! spec <- unpack_uint (snd cpoolsz);
  do! framesz <- unpack_uint (snd spec);
  do! vars <- unpack_vars (N.to_nat (u32 (fst nvars))) (snd framesz);
  do! m <- unpack_str (snd vars);
  do! module <- ident_new (fst m);
  do! off <- unpack_uint (snd m);
  do! irs <- unpack_irs (N.to_nat (u32 (fst nirs))) (snd off);
  Ok (Func (u32 (fst nregs)) (fst vars) (firstn (N.to_nat (u32 (fst cpoolsz))) cpool)
           (fst spec) (u32 (fst framesz)) module (fst off) (fst irs)).
End Reader.

(* ---- pack files ---- *)

(* zstd: compression, the size of the compressed frame at the start of a buffer,
   and decompression into a buffer of a given size. *)
Record zstd := Zstd {
  z_compress : list N -> list N;
  z_frame : list N -> option N;
  z_decompress : list N -> N -> option (list N) }.

(* Modelled: src/jit/jit-pack.c:304-345 (pack_writer_emit). *)
Definition emit (z : zstd) (w : pw) (f : func) : res (list N * pw) :=
  match w_buf w with
  | _ :: _ => Fault
  | [] =>
    do! w <- pack_func w f;
    let data := w_buf w in
    Ok (leb 10 (len data) ++ z_compress z data,
        Pw (w_tab w) (w_hash w) (w_bufsz w) [] (w_last w))
  end.

(* The loop of jit_write_pack, src/jit/jit-pack.c:636-662: the bytes written for
   each unit. *)
Fixpoint write_units (z : zstd) (w : pw) (us : list (str * func)) : res (list N * pw) :=
  match us with
  | [] => Ok ([], w)
  | (name, f) :: us' =>
    let (off, w) := get_string w (Some name) in
    do! e <- emit z w f;
    let (buf, w) := e in
    do! r <- write_units z w us';
    Ok (encode_number off ++ encode_number (len buf) ++ encode_number (len (f_cpool f))
        ++ buf ++ f_cpool f ++ fst r, snd r)
  end.

(* Modelled: src/jit/jit-pack.c:628-678 (jit_write_pack): the contents of the file,
   on a little-endian machine.  [write_fully] of an empty block is an error, but
   the blocks written here are never empty. *)
Definition write_pack (z : zstd) (us : list (str * func)) : res (list N) :=
  do! r <- write_units z writer_new us;
  Ok ([74; 73; 84; 49] ++ le_bytes 4 ((8 + len (fst r)) mod 4294967296) ++ fst r ++ w_tab (snd r)).

(* An entry of jp->funcs: pointers into the mapped file are suffixes of it. *)
Record entry := Entry { e_buf : list N; e_cpool : list N }.
Definition pack := list (str * entry).

Fixpoint lookup (p : pack) (n : str) : option entry :=
  match p with
  | [] => None
  | (k, e) :: p' => if str_eqb k n then Some e else lookup p' n
  end.

(* The loop of jit_read_pack, src/jit/jit-pack.c:698-709.  [left] is the number of
   bytes before the string table; [rptr] what starts there. *)
Fixpoint read_units (fuel : nat) (tab : list N) (left : N) (rptr : list N) (jp : pack) : res pack :=
  if left =? 0 then Ok jp
  else match fuel with
  | O => Fault
  | S fuel' =>
    do! s <- get_uint rptr;
    do! size <- get_uint (snd s);
    do! cpool <- get_uint (snd size);
    let used := len rptr - len (snd cpool) in
    let skip := u32 (fst size) + u32 (fst cpool) in
    match cstr (skipn (N.to_nat (u32 (fst s))) tab) with
    | None => Fault
    | Some name =>
      do! name <- ident_new (Some name);
      match lookup jp name with
      | Some _ => Fault
      | None =>
        let rptr := snd cpool in
        let e := Entry rptr (skipn (N.to_nat (u32 (fst size))) rptr) in
        read_units fuel' tab (left - (used + skip)) (skipn (N.to_nat skip) rptr) ((name, e) :: jp)
      end
    end
  end.

(* A pack in memory. *)
Record loaded := Loaded { p_funcs : pack; p_tab : list N }.

(* Modelled: src/jit/jit-pack.c:680-712 (jit_read_pack). *)
Definition read_pack (file : list N) : res loaded :=
  if len file <? 8 then Fault
  else if negb (str_eqb (firstn 4 file) [74; 73; 84; 49]) then Fault
  else
    do! st <- get_le 4 (skipn 4 file) 0;
    let strtab := fst st in
    let tab := skipn (N.to_nat strtab) file in
    do! p <- read_units (length file) tab (strtab - 8) (skipn 8 file) [];
    Ok (Loaded p tab).

(* Modelled: src/jit/jit-pack.c:520-602 (jit_pack_fill): [None] when the pack does
   not contain the function. *)
Definition fill (z : zstd) (p : loaded) (name : str) : res (option func) :=
  match lookup (p_funcs p) name with
  | None => Ok None
  | Some e =>
    do! u <- get_uint (e_buf e);
    match z_frame z (snd u) with
    | None => Fault
    | Some n =>
      match z_decompress z (firstn (N.to_nat n) (snd u)) (fst u) with
      | None => Fault
      | Some ubuf =>
        if len ubuf =? fst u then
          do! f <- unpack_func (p_tab p) ubuf (e_cpool e);
          Ok (Some f)
        else Fault
      end
    end
  end.
