(* The native operators of STD_LOGIC_1164 and the native equality of arrays of bytes:
   src/jit/jit-intrin.c, in the portable version and in the two that work on sixteen
   elements at a time. *)
From Coq Require Import List ZArith NArith Arith Bool.
From Verif Require Import Base IntrinModel.
Import ListNotations.

Definition row (l : list N) : list N := l ++ repeat sl_U (16 - length l).
Local Notation "'U" := sl_U. Local Notation "'X" := sl_X. Local Notation "'0" := sl_0. Local Notation "'1" := sl_1.

(* src/jit/jit-intrin.c:77-80 *)
Definition cvt_to_x01 : list N :=
  ['X; 'X; '0; '1; 'X; 'X; '0; '1; 'X; 255; 255; 255; 255; 255; 255; 255]%N.

(* src/jit/jit-intrin.c:82-125 *)
Definition xor_table : list (list N) := map row [
  ['U; 'U; 'U; 'U; 'U; 'U; 'U; 'U; 'U];
  ['U; 'X; 'X; 'X; 'X; 'X; 'X; 'X; 'X];
  ['U; 'X; '0; '1; 'X; 'X; '0; '1; 'X];
  ['U; 'X; '1; '0; 'X; 'X; '1; '0; 'X];
  ['U; 'X; 'X; 'X; 'X; 'X; 'X; 'X; 'X];
  ['U; 'X; 'X; 'X; 'X; 'X; 'X; 'X; 'X];
  ['U; 'X; '0; '1; 'X; 'X; '0; '1; 'X];
  ['U; 'X; '1; '0; 'X; 'X; '1; '0; 'X];
  ['U; 'X; 'X; 'X; 'X; 'X; 'X; 'X; 'X]].
Definition and_table : list (list N) := map row [
  ['U; 'U; '0; 'U; 'U; 'U; '0; 'U; 'U];
  ['U; 'X; '0; 'X; 'X; 'X; '0; 'X; 'X];
  ['0; '0; '0; '0; '0; '0; '0; '0; '0];
  ['U; 'X; '0; '1; 'X; 'X; '0; '1; 'X];
  ['U; 'X; '0; 'X; 'X; 'X; '0; 'X; 'X];
  ['U; 'X; '0; 'X; 'X; 'X; '0; 'X; 'X];
  ['0; '0; '0; '0; '0; '0; '0; '0; '0];
  ['U; 'X; '0; '1; 'X; 'X; '0; '1; 'X];
  ['U; 'X; '0; 'X; 'X; 'X; '0; 'X; 'X]].
Definition or_table : list (list N) := map row [
  ['U; 'U; 'U; '1; 'U; 'U; 'U; '1; 'U];
  ['U; 'X; 'X; '1; 'X; 'X; 'X; '1; 'X];
  ['U; 'X; '0; '1; 'X; 'X; '0; '1; 'X];
  ['1; '1; '1; '1; '1; '1; '1; '1; '1];
  ['U; 'X; 'X; '1; 'X; 'X; 'X; '1; 'X];
  ['U; 'X; 'X; '1; 'X; 'X; 'X; '1; 'X];
  ['U; 'X; '0; '1; 'X; 'X; '0; '1; 'X];
  ['1; '1; '1; '1; '1; '1; '1; '1; '1];
  ['U; 'X; 'X; '1; 'X; 'X; 'X; '1; 'X]].

(* src/jit/jit-intrin.c:134-149 *)
Definition compress_left : list N :=
  ['U; 'X; '0; '1; 'X; 'X; '0; '1; 'X; 255; 255; 255; 255; 255; 255; 255]%N.
Definition compress_right : list N :=
  [4 * 'U; 4 * 'X; 4 * '0; 4 * '1; 4 * 'X; 4 * 'X; 4 * '0; 4 * '1; 4 * 'X; 255; 255; 255; 255; 255; 255; 255]%N.
(* src/jit/jit-intrin.c:151-181, the rows one after the other. *)
Definition small_or_table : list N :=
  ['U; 'U; 'U; '1;  'U; 'X; 'X; '1;  'U; 'X; '0; '1;  '1; '1; '1; '1].
Definition small_and_table : list N :=
  ['U; 'U; '0; 'U;  'U; 'X; '0; 'X;  '0; '0; '0; '0;  'U; 'X; '0; '1].
Definition small_xor_table : list N :=
  ['U; 'U; 'U; 'U;  'U; 'X; 'X; 'X;  'U; 'X; '0; '1;  'U; 'X; '1; '0].
(* src/jit/jit-intrin.c:183-186 *)
Definition lane_iota : list N := [0; 1; 2; 3; 4; 5; 6; 7; 8; 9; 10; 11; 12; 13; 14; 15]%N.

(* ---- a register of sixteen bytes ---- *)

Definition lanes := nat -> N.
(* _mm_loadu_si128 and vld1q_u8, _mm_store_si128 and vst1q_u8. *)
Definition load128 (m : nat -> N) (p : nat) : lanes := fun i => m (p + i).
Definition store128 (m : nat -> N) (p : nat) (v : lanes) : nat -> N := fun a => if within a p 16 then v (a - p) else m a.
Definition of_table (t : list N) : lanes := fun i => nth i t 0%N.
(* _mm_shuffle_epi8: zero where bit 7 of the index is set, otherwise its low four bits
   select.  vqtbl1q_u8: zero where the index is sixteen or more. *)
Definition shuffle_epi8 (t x : lanes) : lanes := fun i => if N.testbit (x i) 7 then 0%N else t (N.to_nat (N.land (x i) 15)).
Definition vqtbl1q (t x : lanes) : lanes := fun i => if (x i <? 16)%N then t (N.to_nat (x i)) else 0%N.
Definition or128 (a b : lanes) : lanes := fun i => N.lor (a i) (b i).
Definition and128 (a b : lanes) : lanes := fun i => N.land (a i) (b i).
Definition xor128 (a b : lanes) : lanes := fun i => N.lxor (a i) (b i).
(* _mm_cmplt_epi8 compares signed bytes, vcltq_u8 unsigned ones. *)
Definition s8 (x : N) : Z := if (x <? 128)%N then Z.of_N x else (Z.of_N x - 256)%Z.
Definition cmplt_epi8 (a b : lanes) : lanes := fun i => if (s8 (a i) <? s8 (b i))%Z then 255%N else 0%N.
Definition vcltq_u8 (a b : lanes) : lanes := fun i => if (a i <? b i)%N then 255%N else 0%N.
Definition set1 (v : N) : lanes := fun _ => (v mod 256)%N.
(* _mm_test_all_zeros(x, mask); the two halves of the result of vandq_u8 being zero. *)
Definition all_zeros (x : lanes) : bool := forallb (fun i => (x i =? 0)%N) (seq 0 16).

(* Which of the versions src/jit/jit-intrin.c:1975-2010 (jit_bind_intrinsic) chose. *)
Inductive isa := Portable | SSE41 | NEON.
Definition lookup16 (v : isa) : lanes -> lanes -> lanes := match v with NEON => vqtbl1q | _ => shuffle_epi8 end.

(* ---- "and", "or" and "xor" ---- *)

Inductive logic := And | Or | Xor.
Definition full_table (o : logic) := match o with And => and_table | Or => or_table | Xor => xor_table end.
Definition small_table (o : logic) := match o with And => small_and_table | Or => small_or_table | Xor => small_xor_table end.

(* The loop of the portable version. *)
Fixpoint table_loop (t : list (list N)) (m : nat -> N) (left right result pos n : nat) : nat -> N :=
  match n with
  | O => m
  | S n' =>
    table_loop t (put m (result + pos) (nth (N.to_nat (m (right + pos))) (nth (N.to_nat (m (left + pos))) t []) 0%N))
      left right result (S pos) n'
  end.
(* The loop of the others. *)
Fixpoint lane_loop (fuel : nat) (v : isa) (t : lanes) (m : nat -> N) (left right result pos size : nat) : nat -> N :=
  match fuel with
  | O => m
  | S fuel' =>
    if pos <? size then
      let left2 := lookup16 v (of_table compress_left) (load128 m (left + pos)) in
      let right2 := lookup16 v (of_table compress_right) (load128 m (right + pos)) in
      let comb := or128 left2 right2 in
      lane_loop fuel' v t (store128 m (result + pos) (lookup16 v t comb)) left right result (pos + 16) size
    else m
  end.

(* A call ends with an error or returns. *)
Inductive outcome := Failure | Done (s : st).
(* Modelled: src/jit/jit-intrin.c:933-1219: the nine versions of the three operators.
   ieee_or_vector rounds the size of its result up to sixteen, the portable versions of
   the others do not. *)
Definition logic_vector (v : isa) (o : logic) (s : st) : outcome :=
  let lsize := ffi_array_length (ar s 3) in
  let rsize := ffi_array_length (ar s 6) in
  let left := ptr s 1 in
  let right := ptr s 4 in
  if negb (lsize =? rsize) then Failure
  else
    let wide := match v, o with Portable, Or => true | Portable, _ => false | _, _ => true end in
    let '(result, s) := if wide then tlab_alloc s (up lsize 16) 16 else tlab_alloc s lsize 8 in
    let m := match v with
             | Portable => table_loop (full_table o) (mm s) left right result 0 lsize
             | _ => lane_loop (S lsize) v (of_table (small_table o)) (mm s) left right result 0 lsize
             end in
    Done (return_to (set_mm s m) result lsize).

(* ---- TO_X01 ---- *)

Fixpoint x01_loop (m : nat -> N) (input result pos n : nat) : nat -> N :=
  match n with
  | O => m
  | S n' => x01_loop (put m (result + pos) (nth (N.to_nat (m (input + pos))) cvt_to_x01 0%N)) input result (S pos) n'
  end.
Fixpoint x01_lanes (fuel : nat) (m : nat -> N) (input result pos size : nat) : nat -> N :=
  match fuel with
  | O => m
  | S fuel' =>
    if pos <? size then
      x01_lanes fuel' (store128 m (result + pos) (shuffle_epi8 (of_table cvt_to_x01) (load128 m (input + pos))))
        input result (pos + 16) size
    else m
  end.
(* Modelled: src/jit/jit-intrin.c:304-342 (std_to_x01_sse41 and std_to_x01; there is no
   version for NEON). *)
Definition std_to_x01 (v : isa) (s : st) : st :=
  let size := ffi_array_length (ar s 3) in
  let input := ptr s 1 in
  match v with
  | SSE41 =>
    let '(result, s) := tlab_alloc s (up size 16) 16 in
    return_vec (set_mm s (x01_lanes (S size) (mm s) input result 0 size)) result size
  | _ =>
    let '(result, s) := tlab_alloc s size 8 in
    return_vec (set_mm s (x01_loop (mm s) input result 0 size)) result size
  end.

(* ---- "=" ---- *)

(* memcmp(left, right, n) == 0 *)
Fixpoint memcmp_zero (m : nat -> N) (left right n : nat) : bool :=
  match n with O => true | S n' => N.eqb (m left) (m right) && memcmp_zero m (S left) (S right) n' end.
Fixpoint equal_lanes (fuel : nat) (v : isa) (m : nat -> N) (left right pos size : nat) : bool :=
  match fuel with
  | O => false
  | S fuel' =>
    let x := xor128 (load128 m (left + pos)) (load128 m (right + pos)) in
    if pos + 15 <? size then
      if all_zeros (and128 x (set1 255)) then equal_lanes fuel' v m left right (pos + 16) size else false
    else if pos <? size then
      let lt := match v with NEON => vcltq_u8 | _ => cmplt_epi8 end in
      all_zeros (and128 x (lt (of_table lane_iota) (set1 (N.of_nat (size - pos)))))
    else true
  end.
(* Modelled: src/jit/jit-intrin.c:1607-1696. *)
Definition byte_vector_equal (v : isa) (s : st) : st :=
  let lsize := ffi_array_length (ar s 3) in
  let rsize := ffi_array_length (ar s 6) in
  let left := ptr s 1 in
  let right := ptr s 4 in
  let same := match v with
              | Portable => (lsize =? rsize) && memcmp_zero (mm s) left right lsize
              | _ => if negb (lsize =? rsize) then false else equal_lanes (S lsize) v (mm s) left right 0 lsize
              end in
  set_ar s 0 (Z.b2z same).
