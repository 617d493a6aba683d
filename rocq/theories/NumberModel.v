(* Verilog four-state numbers, src/vlog/vlog-number.c and vlog-number.h. *)
From Coq Require Import List ZArith NArith Bool.
From Verif Require Import Base FbufModel.
Import ListNotations.
Open Scope N_scope.

(* vlog_logic_t, src/vlog/vlog-number.h:25-30. *)
Definition LOGIC_X : N := 0.
Definition LOGIC_Z : N := 1.
Definition LOGIC_0 : N := 2.
Definition LOGIC_1 : N := 3.
(* STRIP_STRENGTH, src/vlog/vlog-number.h:32. *)
Definition strip_strength (x : N) : N := N.land x 3.

(* number_t, src/vlog/vlog-number.h:42-83: the tag with the fields that go with it; the
   sign flag is always 0 and left out.  [packed] of a small number has 56 bits, that of an
   integer 32 bits; the words of a big number have 64 bits. *)
Inductive number :=
| Integer (width packed : N)
| Small (width packed : N)
| Big (width : N) (words : list N).

Definition SMALLNUM_WIDTH_MAX : N := 31.
Definition INTEGER_WIDTH_MAX : N := 32.
Definition SMALL_PACKED_ZERO : N := 0xaaaaaaaaaaaaaa.
Definition BIG_PACKED_ZERO : N := 0xaaaaaaaaaaaaaaaa.
Definition bignum_words (w : N) : N := (w + 31) / 32.

(* Storing in a bit field keeps the low bits. *)
Definition mk_integer (width packed : N) : number := Integer (width mod 2 ^ 6) (packed mod 2 ^ 32).
Definition mk_small (width packed : N) : number := Small (width mod 2 ^ 5) (packed mod 2 ^ 56).

(* Modelled: src/vlog/vlog-number.c:52-59, the loop over the words, most significant word
   first; gives the new words and the carry out of them. *)
Fixpoint shift_words (count : N) (ws : list N) (carry : N) : list N * N :=
  match ws with
  | [] => ([], carry)
  | w :: ws' =>
    let (vs, c) := shift_words count ws' carry in
    (N.lor (N.shiftl w (count * 2) mod 2 ^ 64) c :: vs, N.shiftr w (64 - count * 2))
  end.

(* Modelled: src/vlog/vlog-number.c:47-70 (number_shift_left). *)
Definition number_shift_left (n : number) (count carry_in : N) : res number :=
  match n with
  | Big width ws => if count <? 32 then Ok (Big width (fst (shift_words count ws carry_in))) else Fault
  | Small width packed =>
    Ok (Small width (if count <? width then N.shiftl packed (count * 2) mod 2 ^ 56 else 0))
  | Integer _ _ => Fault
  end.

(* ---- literals ---- *)

Inductive radix := Bin | Dec | Hex.

(* A literal as the scanner lets it through (src/lexer.l:133-134, 731-732): the width
   written before the apostrophe, already converted, the radix and the digits after it as
   character codes. *)
Record literal := Literal { lwidth : option N; lradix : radix; ldigits : list N }.

Definition radix_value (r : radix) : N := match r with Bin => 2 | Dec => 10 | Hex => 16 end.

(* The value of a character as a digit. *)
Definition char_value (c : N) : option N :=
  if (48 <=? c) && (c <=? 57) then Some (c - 48)
  else if (97 <=? c) && (c <=? 102) then Some (c - 87)
  else if (65 <=? c) && (c <=? 70) then Some (c - 55)
  else None.
Definition digit_in (r : radix) (c : N) : option N :=
  match char_value c with Some v => if v <? radix_value r then Some v else None | None => None end.

(* The C library's strtoll without leading blanks and sign: value and the characters left;
   the value is limited to INT64_MAX. *)
Fixpoint scan_digits (r : radix) (s : list N) (acc : N) : N * list N :=
  match s with
  | [] => (acc, [])
  | c :: s' =>
    match digit_in r c with
    | Some v => scan_digits r s' (acc * radix_value r + v)
    | None => (acc, s)
    end
  end.
Definition strtoll (s : list N) (r : radix) : N * list N :=
  let s1 :=
    match r, s with
    | Hex, 48 :: 88 :: (c :: _ as s') => match digit_in Hex c with Some _ => s' | None => s end
    | _, _ => s
    end in
  let (v, rest) := scan_digits r s1 0 in (N.min v (2 ^ 63 - 1), rest).

(* Modelled: src/vlog/vlog-number.c:72-79 (strip_underscores). *)
Definition strip_underscores (s : list N) : list N := filter (fun c => negb (c =? 95)) s.

(* Modelled: src/vlog/vlog-number.c:185-196, one binary digit; the flag says that an error
   was reported. *)
Definition bin_carry (c : N) : N * bool :=
  if c =? 48 then (LOGIC_0, false)
  else if c =? 49 then (LOGIC_1, false)
  else if c =? 120 then (LOGIC_X, false)
  else if c =? 122 then (LOGIC_Z, false)
  else (LOGIC_X, true).

(* Modelled: src/vlog/vlog-number.c:43-45 (MAKE_HEX) and 203-227, one hex digit. *)
Definition make_hex (a b c d : N) : N :=
  N.lor (N.lor (N.lor (N.shiftl a 6) (N.shiftl b 4)) (N.shiftl c 2)) d.
Definition two_state (v : N) (k : N) : N := if N.testbit v k then LOGIC_1 else LOGIC_0.
Definition hex_carry (c : N) : N * bool :=
  if ((48 <=? c) && (c <=? 57)) || ((97 <=? c) && (c <=? 102)) then
    match char_value c with
    | Some v => (make_hex (two_state v 3) (two_state v 2) (two_state v 1) (two_state v 0), false)
    | None => (0, true)
    end
  else if c =? 120 then (make_hex LOGIC_X LOGIC_X LOGIC_X LOGIC_X, false)
  else if c =? 122 then (make_hex LOGIC_Z LOGIC_Z LOGIC_Z LOGIC_Z, false)
  else (0, true).

(* Modelled: src/vlog/vlog-number.c:181-235, the loop over the digits. *)
Fixpoint shift_digits (r : radix) (s : list N) (n : number) (err : bool) : res (number * bool) :=
  match s with
  | [] => Ok (n, err)
  | c :: s' =>
    match r with
    | Bin => let (k, e) := bin_carry c in do! n1 <- number_shift_left n 1 k; shift_digits r s' n1 (err || e)
    | Hex => let (k, e) := hex_carry c in do! n1 <- number_shift_left n 4 k; shift_digits r s' n1 (err || e)
    | Dec => Fault
    end
  end.

Definition is_xz (c : N) : bool := (c =? 120) || (c =? 122).

(* Modelled: src/vlog/vlog-number.c:81-240 (number_new); the second part of the result
   says that an error was reported. *)
Definition number_new (l : literal) : res (number * bool) :=
  let width := match lwidth l with Some w => w | None => 32 end in
  let r := lradix l in
  let p := ldigits l in
  let has_xz := existsb is_xz p in
  if negb has_xz && (width <=? INTEGER_WIDTH_MAX) then
    let (bits, eptr) := strtoll p r in
    let (bits1, eptr1) :=
      match eptr with
      | c :: _ => if c =? 95 then strtoll (strip_underscores p) r else (bits, eptr)
      | [] => (bits, eptr)
      end in
    Ok (mk_integer width bits1, match eptr1 with [] => false | _ => true end)
  else
    match r with
    | Dec =>
      let (bits, eptr) := strtoll p Dec in
      if width <=? INTEGER_WIDTH_MAX
      then Ok (mk_integer width bits, match eptr with [] => false | _ => true end)
      else Fault
    | _ =>
      let init :=
        if width <=? SMALLNUM_WIDTH_MAX then mk_small width SMALL_PACKED_ZERO
        else Big width (repeat BIG_PACKED_ZERO (N.to_nat (bignum_words width))) in
      shift_digits r p init false
    end.

(* ---- access ---- *)

(* Modelled: src/vlog/vlog-number.c:334-347 (number_width). *)
Definition number_width (n : number) : N :=
  match n with Integer w _ => w | Small w _ => w | Big w _ => w end.

(* Modelled: src/vlog/vlog-number.c:349-367 (number_bit). *)
Definition number_bit (val : number) (n : N) : res N :=
  if n <? number_width val then
    match val with
    | Small _ packed => Ok (N.land (N.shiftr packed (n * 2)) 3)
    | Integer _ packed => Ok (N.lor (N.land (N.shiftr packed n) 1) LOGIC_0)
    | Big width ws =>
      match nth_error ws (N.to_nat ((width - n - 1) / 32)) with
      | Some w => Ok (N.land (N.shiftr w ((n mod 32) * 2)) 3)
      | None => Fault
      end
    end
  else Fault.

(* Modelled: src/vlog/vlog-number.c:286-303 (number_is_defined). *)
Definition number_is_defined (val : number) : bool :=
  match val with
  | Small _ packed => N.land packed SMALL_PACKED_ZERO =? SMALL_PACKED_ZERO
  | Integer _ _ => true
  | Big _ ws => forallb (fun w => N.land w BIG_PACKED_ZERO =? BIG_PACKED_ZERO) ws
  end.

(* Modelled: src/vlog/vlog-number.c:314-325, the loop from bit [k - 1] down. *)
Fixpoint integer_loop (val : number) (k : nat) (result : N) : res N :=
  match k with
  | O => Ok result
  | S k' =>
    do! bit <- number_bit val (N.of_nat k');
    integer_loop val k' (N.lor (N.shiftl result 1 mod 2 ^ 64) (N.land bit 1))
  end.

(* Modelled: src/vlog/vlog-number.c:305-332 (number_integer), as an unsigned value. *)
Definition number_integer (val : number) : res N :=
  if (number_width val <=? 64) && number_is_defined val then
    match val with
    | Integer _ packed => Ok packed
    | _ => integer_loop val (N.to_nat (number_width val)) 0
    end
  else Fault.

(* Modelled: src/vlog/vlog-number.c:377-381, 394-398, 423-426: shifting in digits. *)
Definition push_bit (acc b : N) : N := N.lor (N.shiftl acc 1 mod 2 ^ 64) (N.land (strip_strength b) 1).
Definition push_digit (acc b : N) : N := N.lor (N.shiftl acc 2 mod 2 ^ 64) (strip_strength b).

Fixpoint pack_words (k : nat) (bits : list N) : list N :=
  match k with
  | O => []
  | S k' => fold_left push_digit (firstn 32 bits) BIG_PACKED_ZERO :: pack_words k' (skipn 32 bits)
  end.

(* Modelled: src/vlog/vlog-number.c:369-430 (number_pack); the width is the length. *)
Definition number_pack (bits : list N) : number :=
  let width := N.of_nat (length bits) in
  let has_xz := existsb (fun b => let log := strip_strength b in (log =? LOGIC_X) || (log =? LOGIC_Z)) bits in
  if negb has_xz && (width <=? INTEGER_WIDTH_MAX) then mk_integer width (fold_left push_bit bits 0)
  else if width <=? SMALLNUM_WIDTH_MAX then mk_small width (fold_left push_digit bits SMALL_PACKED_ZERO)
  else Big width (pack_words (N.to_nat (bignum_words width)) bits).

(* Modelled: src/vlog/vlog-number.c:432-445 (number_equal). *)
Definition number_equal (a b : number) : res bool :=
  match a, b with
  | Integer _ x, Integer _ y => Ok (x =? y)
  | Small _ x, Small _ y => Ok (x =? y)
  | _, _ => Fault
  end.

(* ---- library files ---- *)

(* The 64 bits of a number that is not big, src/vlog/vlog-number.h:61-73. *)
Definition number_bits (n : number) : N :=
  match n with
  | Small w p => 1 + 8 * w + 256 * p
  | Integer w p => 2 + 8 * w + 512 * p
  | Big _ _ => 0
  end.
Definition of_bits (b : N) : option number :=
  match b mod 4 with
  | 1 => Some (Small (b / 8 mod 2 ^ 5) (b / 256 mod 2 ^ 56))
  | 2 => Some (Integer (b / 8 mod 2 ^ 6) (b / 512 mod 2 ^ 32))
  | _ => None
  end.

(* Modelled: src/vlog/vlog-number.c:447-459 (number_write), the fields put in the file. *)
Definition number_write (n : number) : list field :=
  match n with
  | Big w ws => [FUint 0; FInt (Z.of_N w); FRaw (concat (map (le_bytes 8) ws))]
  | _ => [FUint (number_bits n)]
  end.

Fixpoint words_of (k : nat) (bytes : list N) : list N :=
  match k with
  | O => []
  | S k' => fold_right (fun b acc => b + 256 * acc) 0 (firstn 8 bytes) :: words_of k' (skipn 8 bytes)
  end.

(* Modelled: src/vlog/vlog-number.c:461-477 (number_read). *)
Definition number_read (rbuf : list N) : res (number * list N) :=
  do! (bits, rbuf1) <- get_uint rbuf;
  if bits mod 4 =? 0 then
    do! (x, rbuf2) <- read_field KInt rbuf1;
    match x with
    | FInt enc =>
      let width := (Z.to_N (Z.abs enc)) mod 2 ^ 32 in
      let nwords := N.to_nat (bignum_words width) in
      do! (y, rbuf3) <- read_field (KRaw (nwords * 8)) rbuf2;
      match y with
      | FRaw bytes => Ok (Big width (words_of nwords bytes), rbuf3)
      | _ => Fault
      end
    | _ => Fault
    end
  else match of_bits bits with Some n => Ok (n, rbuf1) | None => Fault end.
