(* The native operators of the Synopsys packages STD_LOGIC_ARITH, STD_LOGIC_UNSIGNED and
   STD_LOGIC_SIGNED: src/jit/jit-intrin.c. *)
From Coq Require Import List ZArith NArith Arith Bool.
From Verif Require Import Base IntrinModel IntrinLogicModel.
Import ListNotations.

(* Modelled: src/jit/jit-intrin.c:1270-1274 (__is_x). *)
Definition is_x (b : N) : bool :=
  ((b =? sl_U) || (b =? sl_X) || (b =? sl_Z) || (b =? sl_W) || (b =? sl_D))%N.

(* Modelled: src/jit/jit-intrin.c:1276-1293 (__make_binary). *)
Definition tbl_BINARY : list N := [sl_X; sl_X; sl_0; sl_1; sl_X; sl_X; sl_0; sl_1; sl_X].
Fixpoint make_binary (m : nat -> N) (input result i n size : nat) : (nat -> N) * bool :=
  match n with
  | O => (m, false)
  | S n' =>
    let b := m (input + i) in
    if is_x b then (memset m result sl_X size, true)
    else make_binary (put m (result + i) (nth (N.to_nat b) tbl_BINARY 0%N)) input result (S i) n' size
  end.

(* Modelled: src/jit/jit-intrin.c:1306-1356 (__conv_unsigned and __conv_signed); callers
   meet the assertion that size is positive, and pass no oldsize above size. *)
Definition conv (signed : bool) (s : st) (input oldsize size : nat) : nat * st :=
  if (oldsize =? size) && all_01 (mm s) input oldsize then (input, s)
  else
    let maxsize := Nat.max oldsize size in
    let pad := size - oldsize in
    let '(result, s) := tlab_alloc s maxsize 8 in
    let '(m, warned) := make_binary (mm s) input (result + pad) 0 oldsize oldsize in
    let s := set_mm (if warned then ieee_warn s else s) m in
    if N.eqb (m (result + pad)) sl_X then (result, set_mm s (memset m result sl_X size))
    else (result, set_mm s (memset m result (if signed then m input else sl_0) pad)).

(* Modelled: src/jit/jit-intrin.c:1358-1410, 1437-1464: synopsys_plus_unsigned,
   synopsys_plus_signed and synopsys_minus_unsigned.  [Failure] stands for the call of
   the interpreter in src/jit/jit-intrin.c:1295-1304 (__synopsys_failure). *)
Definition synopsys_addsub (signed minus : bool) (s : st) : res outcome :=
  let lsize := ffi_array_length (ar s 3) in
  let rsize := ffi_array_length (ar s 6) in
  let left := ptr s 1 in
  let right := ptr s 4 in
  let length := Nat.max lsize rsize in
  let '(result, s) := tlab_alloc s length 8 in
  if length =? 0 then Ok Failure
  else
    let '(lp, s) := conv signed s left lsize length in
    let '(rp, s) := conv signed s right rsize length in
    if (mm s lp =? sl_X)%N || (mm s rp =? sl_X)%N then
      Ok (Done (return_vec (set_mm s (memset (mm s) result sl_X length)) result length))
    else if minus then
      do! m <- invert_bits (mm s) rp 0 length result;
      Ok (Done (return_vec (set_mm s (packed_add m lp result length 1 result)) result length))
    else Ok (Done (return_vec (set_mm s (packed_add (mm s) lp rp length 0 result)) result length)).

(* Modelled: src/jit/jit-intrin.c:1412-1421 and 1423-1435.  The array of one element is
   a local variable; simplified: it is taken from the allocation buffer. *)
Definition plus_unsigned_logic (s : st) : res outcome :=
  let '(p, s') := tlab_alloc s 1 8 in
  let s' := set_mm s' (put (mm s') p (Z.to_N (ar s 4 mod 256))) in
  synopsys_addsub false false (set_ar (set_ar (set_ar s' 4 (Z.of_nat p)) 5 0%Z) 6 1%Z).
Definition plus_logic_unsigned (s : st) : res outcome :=
  let '(p, s') := tlab_alloc s 1 8 in
  let s' := set_mm s' (put (mm s') p (Z.to_N (ar s 1 mod 256))) in
  let s' := set_ar s' 6 (ar s' 4) in
  let s' := set_ar s' 5 (ar s' 3) in
  let s' := set_ar s' 4 (ar s' 2) in
  synopsys_addsub false false (set_ar (set_ar (set_ar s' 1 (Z.of_nat p)) 2 0%Z) 3 1%Z).

(* Modelled: src/jit/jit-intrin.c:1466-1510 and 1512-1559: synopsys_mul_unsigned and
   synopsys_mul_signed. *)
Definition synopsys_mul (signed : bool) (s : st) : res outcome :=
  let lsize := ffi_array_length (ar s 3) in
  let rsize := ffi_array_length (ar s 6) in
  let left := ptr s 1 in
  let right := ptr s 4 in
  if (lsize =? 0) || (rsize =? 0) then Ok Failure
  else
    let '(lp, s) := conv signed s left lsize lsize in
    let '(rp, s) := conv signed s right rsize rsize in
    let length := lsize + rsize in
    let '(pa, s) := tlab_alloc s length 8 in
    if (mm s lp =? sl_X)%N || (mm s rp =? sl_X)%N then
      Ok (Done (return_vec (set_mm s (memset (mm s) pa sl_X length)) pa length))
    else
      let mark := nx s in
      let '(ba, s) := tlab_alloc s length 8 in
      let m := memset (mm s) pa sl_0 length in
      let m := memset m ba (if signed then m rp else sl_0) (length - rsize) in
      let m := memmove m (ba + length - rsize) rp rsize in
      do! m <- mul_loop signed lsize 0 m lp ba length pa;
      Ok (Done (return_vec (tlab_restore (set_mm s m) mark) pa length)).

(* Modelled: src/jit/jit-intrin.c:1561-1605: synopsys_eql_unsigned and
   synopsys_eql_signed. *)
Definition synopsys_eql (signed : bool) (s : st) : outcome :=
  let lsize := ffi_array_length (ar s 3) in
  let rsize := ffi_array_length (ar s 6) in
  let left := ptr s 1 in
  let right := ptr s 4 in
  let length := Nat.max lsize rsize in
  if length =? 0 then Failure
  else
    let mark := nx s in
    let '(lp, s) := conv signed s left lsize length in
    let '(rp, s) := conv signed s right rsize length in
    Done (tlab_restore (set_ar s 0 (Z.b2z (memcmp_zero (mm s) lp rp length))) mark).
