(* The native implementations of operators of the IEEE and Synopsys packages:
   src/jit/jit-intrin.c.  An element of type std_ulogic is a byte, memory is a
   function from addresses to bytes. *)
From Coq Require Import List ZArith NArith Arith Bool.
From Verif Require Import Base.
Import ListNotations.

(* src/jit/jit-intrin.c:59-69 *)
Definition sl_U : N := 0.
Definition sl_X : N := 1.
Definition sl_0 : N := 2.
Definition sl_1 : N := 3.
Definition sl_Z : N := 4.
Definition sl_W : N := 5.
Definition sl_L : N := 6.
Definition sl_H : N := 7.
Definition sl_D : N := 8.

(* The arguments of a call, src/jit/jit-priv.h (jit_scalar_t), memory, the next free
   address of the thread's allocation buffer and the number of warnings given.
   Simplified: a pointer in an argument is its number, and [int] does not wrap. *)
Record st := St { ar : nat -> Z; mm : nat -> N; nx : nat; warns : nat }.
Definition set_ar (s : st) (i : nat) (v : Z) : st := St (upd (ar s) i v) (mm s) (nx s) (warns s).
Definition set_mm (s : st) (m : nat -> N) : st := St (ar s) m (nx s) (warns s).
(* src/jit/jit-intrin.c:246-272: whether the warning is shown is not modelled. *)
Definition ieee_warn (s : st) : st := St (ar s) (mm s) (nx s) (S (warns s)).
Definition ptr (s : st) (i : nat) : nat := Z.to_nat (ar s i).
(* src/jit/jit-ffi.h:66 *)
Definition ffi_array_length (d : Z) : nat := Z.to_nat (Z.lxor d (Z.shiftr d 63)).

(* ---- memory ---- *)

(* Modelled: src/jit/jit-intrin.c:190-205 (__tlab_alloc).  Simplified: the buffer never
   runs out; the address would otherwise come from mspace_alloc and be just as fresh. *)
Definition up (x a : nat) : nat := (x + a - 1) / a * a.
Definition tlab_alloc (s : st) (size align : nat) : nat * st :=
  let base := up (nx s) align in (base, St (ar s) (mm s) (base + up size 8) (warns s)).
(* Modelled: src/jit/jit-intrin.c:207-218. *)
Definition tlab_restore (s : st) (mark : nat) : st := St (ar s) (mm s) mark (warns s).

Definition within (a p n : nat) : bool := (p <=? a) && (a <? p + n).
Definition put (m : nat -> N) (p : nat) (v : N) : nat -> N := fun a => if a =? p then v else m a.
Definition memset (m : nat -> N) (p : nat) (v : N) (n : nat) : nat -> N :=
  fun a => if within a p n then v else m a.
(* memcpy of blocks that are apart, and memmove. *)
Definition memmove (m : nat -> N) (dst src n : nat) : nat -> N :=
  fun a => if within a dst n then m (src + (a - dst)) else m a.

(* An unaligned load and store of eight bytes, the first the lowest. *)
Fixpoint load_le (m : nat -> N) (p n : nat) : N :=
  match n with O => 0%N | S n' => (m p + 256 * load_le m (S p) n')%N end.
Definition load64 (m : nat -> N) (p : nat) : N := load_le m p 8.
Definition store64 (m : nat -> N) (p : nat) (v : N) : nat -> N :=
  fun a => if within a p 8 then (N.shiftr v (8 * N.of_nat (a - p)) mod 256)%N else m a.
Definition U64 (v : N) : N := (v mod 18446744073709551616)%N.

(* src/jit/jit-intrin.c:71-75 *)
Definition is_01_64 (x : N) : bool := (N.land x 0x0e0e0e0e0e0e0e0e =? 0x0202020202020202)%N.
Definition is_01_8 (x : N) : bool := (N.land x 0xe =? 2)%N.

(* Modelled: src/jit/jit-intrin.c:344-361 (__all_01). *)
Fixpoint all_01_bytes (m : nat -> N) (vec pos n : nat) : bool :=
  match n with
  | O => true
  | S n' => if is_01_8 (m (vec + pos)) then all_01_bytes m vec (S pos) n' else false
  end.
Fixpoint all_01_words (fuel : nat) (m : nat -> N) (vec pos size : nat) : bool :=
  match fuel with
  | O => true
  | S fuel' =>
    if pos + 7 <? size then
      if is_01_64 (load64 m (vec + pos)) then all_01_words fuel' m vec (pos + 8) size else false
    else all_01_bytes m vec pos (size - pos)
  end.
Definition all_01 (m : nat -> N) (vec size : nat) : bool := all_01_words (S size) m vec 0 size.

(* Modelled: src/jit/jit-intrin.c:363-384 (ieee_to_01_slow). *)
Fixpoint to_01_loop (m : nat -> N) (input result i n : nat) (bad : bool) : (nat -> N) * bool :=
  match n with
  | O => (m, bad)
  | S n' =>
    let elt := m (input + i) in
    if (elt =? sl_1)%N || (elt =? sl_H)%N then to_01_loop (put m (result + i) sl_1) input result (S i) n' bad
    else if (elt =? sl_0)%N || (elt =? sl_L)%N then to_01_loop (put m (result + i) sl_0) input result (S i) n' bad
    else to_01_loop m input result (S i) n' true
  end.
Definition to_01_slow (s : st) (input size : nat) (xmap : N) : nat * st :=
  let '(result, s) := tlab_alloc s size 8 in
  let '(m, bad) := to_01_loop (mm s) input result 0 size false in
  (result, set_mm s (if bad then memset m result xmap size else m)).
(* Modelled: src/jit/jit-intrin.c:386-396 (__to_01); the assertion that size is
   positive is met by the callers. *)
Definition to_01 (s : st) (input size : nat) (xmap : N) : nat * st :=
  if all_01 (mm s) input size then (input, s) else to_01_slow s input size xmap.

(* Modelled: src/jit/jit-intrin.c:420-437 (__resize_unsigned). *)
Definition resize_unsigned (s : st) (input size newsize : nat) : nat * st :=
  if newsize <? 1 then (0, s)
  else if newsize <=? size then (input + size - newsize, s)
  else
    let '(result, s) := tlab_alloc s newsize 8 in
    let pad := newsize - size in
    (result, set_mm s (memmove (memset (mm s) result sl_0 pad) (result + pad) input size)).

(* Modelled: src/jit/jit-intrin.c:439-462 (__resize_signed). *)
Definition resize_signed (s : st) (input size newsize : nat) : nat * st :=
  if newsize <? 1 then (0, s)
  else if size =? newsize then (input, s)
  else if size =? 0 then
    let '(result, s) := tlab_alloc s newsize 8 in
    (result, set_mm s (memset (mm s) result sl_0 newsize))
  else
    let bound := Nat.min size newsize - 1 in
    let '(result, s) := tlab_alloc s newsize 8 in
    let m := memset (mm s) result (mm s input) (newsize - bound) in
    (result, set_mm s (memmove m (result + newsize - bound) (input + size - bound) bound)).

(* Modelled: src/jit/jit-intrin.c:488-495 (__pack_low_bits). *)
Definition pack_low_bits (m : nat -> N) (vec : nat) : N :=
  N.shiftr (U64 (N.land (load64 m vec) 0x0101010101010101 * 0x8040201008040201)) 56.

(* __builtin_bswap64 *)
Definition bswap64 (v : N) : N :=
  fold_left (fun acc i => (acc * 256 + N.shiftr v (8 * i) mod 256)%N) [0; 1; 2; 3; 4; 5; 6; 7]%N 0%N.
(* Modelled: src/jit/jit-intrin.c:497-510 (__spread_bits); the argument is cut to eight
   bits. *)
Definition spread (packed : N) : N :=
  let p := (packed mod 256)%N in
  let mask1 := N.land (U64 (p * 0x0000040010004001)) 0x0001000100010001 in
  let mask2 := N.land (U64 (p * 0x0002000800200080)) 0x0100010001000100 in
  bswap64 (N.lor (N.lor mask1 mask2) 0x0202020202020202).
Definition spread_bits (m : nat -> N) (vec : nat) (packed : N) : nat -> N := store64 m vec (spread packed).

(* Modelled: src/jit/jit-intrin.c:512-533 (__ieee_packed_add): the loop over groups of
   eight elements and the loop over single ones; [t] is the program's pos + 8. *)
Fixpoint add_bytes (fuel t : nat) (carry : N) (m : nat -> N) (left right result : nat) : nat * N * (nat -> N) :=
  match fuel with
  | O => (t, carry, m)
  | S fuel' =>
    if 8 <? t then
      let pos := t - 8 in
      let lbyte := pack_low_bits m (left + pos) in
      let rbyte := pack_low_bits m (right + pos) in
      let sum := (lbyte + rbyte + carry)%N in
      add_bytes fuel' pos (if N.testbit sum 8 then 1 else 0)%N (spread_bits m (result + pos) sum) left right result
    else (t, carry, m)
  end.
Fixpoint add_bits (t : nat) (carry : N) (m : nat -> N) (left right result : nat) : nat -> N :=
  match t with
  | O => m
  | S i =>
    let lbit := N.land (m (left + i)) 1 in
    let rbit := N.land (m (right + i)) 1 in
    let sum := (lbit + rbit + carry)%N in
    add_bits i (if N.testbit sum 1 then 1 else 0)%N (put m (result + i) (N.lor (N.land sum 1) 2)) left right result
  end.
Definition packed_add (m : nat -> N) (left right size : nat) (carry : N) (result : nat) : nat -> N :=
  let '(t, carry, m) := add_bytes size size carry m left right result in
  add_bits t carry m left right result.

(* Modelled: src/jit/jit-intrin.c:294-302 (__invert_bits), with its assertion. *)
Fixpoint invert_bits (m : nat -> N) (input i n result : nat) : res (nat -> N) :=
  match n with
  | O => Ok m
  | S n' =>
    let b := m (input + i) in
    if (b =? sl_0)%N || (b =? sl_1)%N then invert_bits (put m (result + i) (N.lxor b 1)) input (S i) n' result
    else Fault
  end.

(* Modelled: src/jit/jit-intrin.c:535-551 (__to_unsigned): the elements from [pos] down,
   the rest of the argument and the last eight bits of it. *)
Fixpoint to_bits_loop (n : nat) (m : nat -> N) (result : nat) (arg : Z) (last : N) : (nat -> N) * Z * N :=
  match n with
  | O => (m, arg, last)
  | S n' =>
    let l := Z.to_N (Z.land arg 255) in
    to_bits_loop n' (spread_bits m (result + 8 * n') l) result (Z.shiftr arg 8) l
  end.
Definition spill_mask (size roundup : nat) : N := (255 - (2 ^ N.of_nat (8 + size - roundup) - 1) mod 256)%N.
Definition to_unsigned (s : st) (arg : Z) (size : nat) : nat * st :=
  let roundup := up size 8 in
  let '(result, s) := tlab_alloc s roundup 8 in
  let '(m, arg, last) := to_bits_loop (roundup / 8) (mm s) result arg 0%N in
  let s := set_mm s m in
  (result + roundup - size,
   if negb (arg =? 0)%Z || negb (N.land last (spill_mask size roundup) =? 0)%N then ieee_warn s else s).

(* ---- the intrinsics ---- *)

(* args[0] is the result, args[1] and args[2] its left bound and its length, negated
   when the range is descending. *)
Definition return_vec (s : st) (p size : nat) : st :=
  set_ar (set_ar (set_ar s 0 (Z.of_nat p)) 1 (Z.of_nat size - 1)) 2 (Z.lnot (Z.of_nat size)).
Definition return_null (s : st) : st := set_ar (set_ar (set_ar s 0 0%Z) 1 0%Z) 2 (-1)%Z.
Definition return_to (s : st) (p size : nat) : st :=
  set_ar (set_ar (set_ar s 0 (Z.of_nat p)) 1 1%Z) 2 (Z.of_nat size).

(* Modelled: src/jit/jit-intrin.c:398-418. *)
Definition ieee_to_01 (s : st) : st :=
  let size := ffi_array_length (ar s 3) in
  if size =? 0 then return_null (ieee_warn s)
  else let '(p, s) := to_01 s (ptr s 1) size (Z.to_N (ar s 4)) in return_vec s p size.

(* Modelled: src/jit/jit-intrin.c:464-486. *)
Definition ieee_resize_unsigned (s : st) : st :=
  let size := ffi_array_length (ar s 3) in
  let newsize := Z.to_nat (ar s 4) in
  let '(p, s) := resize_unsigned s (ptr s 1) size newsize in return_vec s p newsize.
Definition ieee_resize_signed (s : st) : st :=
  let size := ffi_array_length (ar s 3) in
  let newsize := Z.to_nat (ar s 4) in
  let '(p, s) := resize_signed s (ptr s 1) size newsize in return_vec s p newsize.

(* Modelled: src/jit/jit-intrin.c:553-588, 638-749: ieee_plus_unsigned,
   ieee_plus_signed, ieee_minus_unsigned and ieee_minus_signed, which differ in the
   resizing and in the inversion of the right operand. *)
Definition ieee_addsub (signed minus : bool) (s : st) : res st :=
  let lsize := ffi_array_length (ar s 3) in
  let rsize := ffi_array_length (ar s 6) in
  let size := Nat.max lsize rsize in
  if (lsize =? 0) || (rsize =? 0) then Ok (return_null s)
  else
    let resize := if signed then resize_signed else resize_unsigned in
    let '(lp, s) := resize s (ptr s 1) lsize size in
    let '(rp, s) := resize s (ptr s 4) rsize size in
    let '(lp, s) := to_01 s lp size sl_X in
    let '(rp, s) := to_01 s rp size sl_X in
    if (mm s lp =? sl_X)%N then Ok (return_vec s lp size)
    else if (mm s rp =? sl_X)%N then Ok (return_vec s rp size)
    else
      let '(result, s) := tlab_alloc s size 8 in
      if minus then
        do! m <- invert_bits (mm s) rp 0 size result;
        Ok (return_vec (set_mm s (packed_add m lp result size 1 result)) result size)
      else Ok (return_vec (set_mm s (packed_add (mm s) lp rp size 0 result)) result size).

(* Modelled: src/jit/jit-intrin.c:590-619. *)
Definition ieee_plus_unsigned_natural (s : st) : st :=
  let size := ffi_array_length (ar s 3) in
  let right := ar s 4 in
  let left := ptr s 1 in
  let '(result, s) := to_unsigned s right size in
  if size =? 0 then return_null s
  else
    let '(lp, s) := to_01 s left size sl_X in
    if (mm s lp =? sl_X)%N || (right =? 0)%Z then return_vec s lp size
    else return_vec (set_mm s (packed_add (mm s) lp result size 0 result)) result size.

(* Modelled: src/jit/jit-intrin.c:621-636. *)
Definition commute_vector_scalar (s : st) : st :=
  let tmp := ar s 1 in
  set_ar (set_ar (set_ar (set_ar s 1 (ar s 2)) 2 (ar s 3)) 3 (ar s 4)) 4 tmp.
Definition ieee_plus_natural_unsigned (s : st) : st := ieee_plus_unsigned_natural (commute_vector_scalar s).

(* The loop of src/jit/jit-intrin.c:779-788, 827-839, 1493-1502 and 1539-1551 over the
   elements left[n-1] down to left[0]. *)
Fixpoint mul_loop (signed : bool) (n shift : nat) (m : nat -> N) (left adval size result : nat) : res (nat -> N) :=
  match n with
  | O => Ok m
  | S i =>
    if N.eqb (m (left + i)) sl_1 then
      let m := memmove m adval (adval + shift) (size - shift) in
      let m := memset m (adval + size - shift) sl_0 shift in
      if signed && (i =? 0) then
        do! m <- invert_bits m adval 0 size adval;
        mul_loop signed i 1 (packed_add m result adval size 1 result) left adval size result
      else mul_loop signed i 1 (packed_add m result adval size 0 result) left adval size result
    else mul_loop signed i (S shift) m left adval size result
  end.

(* Modelled: src/jit/jit-intrin.c:751-797 and 799-848: ieee_mul_unsigned and
   ieee_mul_signed. *)
Definition ieee_mul (signed : bool) (s : st) : res st :=
  let lsize := ffi_array_length (ar s 3) in
  let rsize := ffi_array_length (ar s 6) in
  let size := lsize + rsize in
  if (lsize =? 0) || (rsize =? 0) then Ok (return_null s)
  else
    let '(result, s) := tlab_alloc s size 8 in
    let mark := nx s in
    let '(lp, s) := to_01 s (ptr s 1) lsize sl_X in
    let '(rp, s) := to_01 s (ptr s 4) rsize sl_X in
    do! s <-
      (if (mm s lp =? sl_X)%N || (mm s rp =? sl_X)%N then Ok (set_mm s (memset (mm s) result sl_X size))
       else
         let s := set_mm s (memset (mm s) result sl_0 size) in
         let '(adval, s) := (if signed then resize_signed else resize_unsigned) s rp rsize size in
         do! m <- mul_loop signed lsize 0 (mm s) lp adval size result;
         Ok (set_mm s m));
    Ok (return_vec (tlab_restore s mark) result size).

(* Modelled: src/jit/jit-intrin.c:850-891 (ieee_unsigned_cmp): the first elements that
   differ, or the last. *)
Fixpoint first_diff (m : nat -> N) (left right pos n : nat) : nat :=
  match n with
  | O => pos
  | S n' => if N.eqb (m (left + pos)) (m (right + pos)) then first_diff m left right (S pos) n' else pos
  end.
Definition unsigned_cmp (s : st) : option (N * N) * st :=
  let lsize := ffi_array_length (ar s 3) in
  let rsize := ffi_array_length (ar s 6) in
  let left := ptr s 1 in
  let right := ptr s 4 in
  let s := set_ar s 0 0%Z in
  if (lsize <? 1) || (rsize <? 1) then (None, ieee_warn s)
  else
    let mark := nx s in
    let '(lp, s) := to_01 s left lsize sl_X in
    let '(rp, s) := to_01 s right rsize sl_X in
    if (mm s lp =? sl_X)%N || (mm s rp =? sl_X)%N then (None, tlab_restore (ieee_warn s) mark)
    else
      let size := Nat.max lsize rsize in
      let '(lp, s) := resize_unsigned s lp lsize size in
      let '(rp, s) := resize_unsigned s rp rsize size in
      let pos := first_diff (mm s) lp rp 0 (size - 1) in
      (Some (mm s (lp + pos), mm s (rp + pos)), tlab_restore s mark).

(* Modelled: src/jit/jit-intrin.c:893-931. *)
Inductive relop := Less | Greater | Geq | Leq.
Definition compare_bytes (o : relop) (l r : N) : bool :=
  match o with
  | Less => (l <? r)%N
  | Greater => (r <? l)%N
  | Geq => (r <=? l)%N
  | Leq => (l <=? r)%N
  end.
Definition ieee_compare_unsigned (o : relop) (s : st) : st :=
  match unsigned_cmp s with
  | (None, s) => s
  | (Some (l, r), s) => set_ar s 0 (if compare_bytes o l r then 1 else 0)%Z
  end.

(* Modelled: src/jit/jit-intrin.c:1221-1237. *)
Definition ieee_to_unsigned (s : st) : st :=
  if (ar s 2 <? 1)%Z then return_null s
  else
    let size := Z.to_nat (ar s 2) in
    let '(p, s) := to_unsigned s (ar s 1) size in return_vec s p size.

(* Modelled: src/jit/jit-intrin.c:1239-1268. *)
Definition ieee_to_signed (s : st) : st :=
  if (ar s 2 <? 1)%Z then return_null s
  else
    let size := Z.to_nat (ar s 2) in
    let roundup := up size 8 in
    let arg := ar s 1 in
    let '(result, s) := tlab_alloc s roundup 8 in
    let '(m, arg, last) := to_bits_loop (roundup / 8) (mm s) result arg 0%N in
    let s := set_mm s m in
    let spill := spill_mask size roundup in
    let top := m (result + roundup - size) in
    let s :=
      if (negb (arg =? 0)%Z && negb (arg =? -1)%Z)
         || ((arg =? 0)%Z && (top =? sl_1)%N)
         || ((arg =? -1)%Z && (top =? sl_0)%N)
         || ((arg =? 0)%Z && negb (N.land last spill =? 0)%N)
         || ((arg =? -1)%Z && negb (N.land last spill =? spill)%N) then ieee_warn s else s in
    return_vec s (result + roundup - size) size.
