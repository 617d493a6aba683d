(* Model of the checksum of design library files, src/fbuf.c:51-267: the scalar
   and the AVX2 implementation of Adler-32.

   Bytes are N below 256.  Machine words wrap: [m] is 2^32 or 2^64 for an
   unsigned long, the AVX2 code uses 32-bit lanes. *)
From Coq Require Import List NArith Arith Bool.
From Verif Require Import Base.
Import ListNotations.
Local Open Scope N_scope.

(* ADLER_MOD, ADLER_CHUNK_LEN_32, ADLER_CHUNK_LEN_SIMD_32: src/fbuf.c:90-92. *)
Definition MOD : N := 65521.
Definition CHUNK : nat := N.to_nat 5552.
Definition CHUNK_SIMD : nat := N.to_nat (5552 / 32 * 32).
Definition P32 : N := 4294967296.

(* s1 += *input++; s2 += s1; for each byte. *)
Fixpoint bytes_loop (m : N) (bs : list N) (s1 s2 : N) : N * N :=
  match bs with
  | [] => (s1, s2)
  | b :: bs' =>
    let s1 := (s1 + b) mod m in
    bytes_loop m bs' s1 ((s2 + s1) mod m)
  end.

(* if (s1 >= ADLER_MOD) s1 -= ADLER_MOD; *)
Definition reduce1 (s1 : N) : N := if MOD <=? s1 then s1 - MOD else s1.

(* while (length > 0) of adler32_update, src/fbuf.c:194-212; [blocks] is
   length / 8. *)
Fixpoint blocks_loop (m : N) (blocks : nat) (input : list N) (s1 s2 : N) : N * N :=
  match blocks with
  | O => (s1, s2)
  | S rest =>
    let '(s1, s2) := bytes_loop m (firstn 8 input) s1 s2 in
    let s1 := reduce1 s1 in
    let s2 := if (8 * N.of_nat rest) mod 32768 =? 0 then s2 mod MOD else s2 in
    blocks_loop m rest (skipn 8 input) s1 s2
  end.

(* Modelled: src/fbuf.c:174-219 (adler32_update); a failed assertion is
   [Fault]. *)
Definition adler32_update (m : N) (st : N * N) (input : list N) : res (N * N) :=
  let '(s1, s2) := st in
  let k := (length input mod 8)%nat in
  let '(s1, s2) :=
    if Nat.eqb k O then (s1, s2)
    else let '(s1, s2) := bytes_loop m (firstn k input) s1 s2 in (reduce1 s1, s2 mod MOD) in
  let '(s1, s2) := blocks_loop m (length input / 8)%nat (skipn k input) s1 s2 in
  if (s1 <? MOD) && (s2 <? MOD) then Ok (s1, s2) else Fault.

(* ---- AVX2 ---- *)

(* The vector operations, on lists of lanes, lane 0 first. *)

(* _mm256_add_epi32 *)
Fixpoint vadd (a b : list N) : list N :=
  match a, b with
  | x :: a', y :: b' => (x + y) mod P32 :: vadd a' b'
  | _, _ => []
  end.

(* _mm256_slli_epi32(v, 5) *)
Definition vshl5 (a : list N) : list N := map (fun x => (x * 32) mod P32) a.

(* _mm256_maddubs_epi16: products of adjacent unsigned and signed bytes, added
   with saturation to a signed 16-bit lane (the coefficients are positive). *)
Fixpoint maddubs (a c : list N) : list N :=
  match a, c with
  | x :: y :: a', d :: e :: c' => N.min 32767 (x * d + y * e) :: maddubs a' c'
  | _, _ => []
  end.

(* _mm256_madd_epi16(v, one): sums of adjacent 16-bit lanes as 32-bit lanes. *)
Fixpoint madd1 (a : list N) : list N :=
  match a with
  | x :: y :: a' => (x + y) mod P32 :: madd1 a'
  | _ => []
  end.

Definition lsum (l : list N) : N := fold_right N.add 0 l.

(* _mm256_sad_epu8(v, 0): four 64-bit sums of eight bytes, seen as 32-bit
   lanes. *)
Definition sad (a : list N) : list N :=
  concat (map (fun k => [lsum (firstn 8 (skipn (8 * k) a)); 0]) [0; 1; 2; 3]%nat).

(* avx2_reduce_add_8x32, src/fbuf.c:99-109. *)
Definition reduce_add (v : list N) : N :=
  let add a b := (a + b) mod P32 in
  let g k := nth k v 0 in
  let s128 k := add (g k) (g (4 + k)%nat) in
  let s64 k := add (s128 (2 + k)%nat) (s128 k) in
  add (s64 0%nat) (s64 1%nat).

(* coeff_v: _mm256_set_epi8 takes the highest lane first. *)
Definition coeff : list N := map N.of_nat (rev (seq 1 32)).

(* The inner loop over one chunk, src/fbuf.c:136-145; [n] blocks of 32 bytes. *)
Fixpoint simd_loop (n : nat) (data : list N) (sum_v sum2_v : list N) : list N * list N :=
  match n with
  | O => (sum_v, sum2_v)
  | S n' =>
    let chunk := firstn 32 data in
    let sum2_v := vadd sum2_v (madd1 (maddubs chunk coeff)) in
    let sum2_v := vadd sum2_v (vshl5 sum_v) in
    let sum_v := vadd sum_v (sad chunk) in
    simd_loop n' (skipn 32 data) sum_v sum2_v
  end.

Definition zero_v : list N := repeat 0 8.

(* The first while loop of adler32_update_avx2, src/fbuf.c:126-153; one more
   than the number of iterations is enough fuel. *)
Fixpoint simd_chunks (fuel : nat) (data : list N) (sum sum2 : N) : list N * N * N :=
  match fuel with
  | O => (data, sum, sum2)
  | S fuel' =>
    let len := length data in
    if Nat.leb 32 len then
      let chunk_len := Nat.min (len - len mod 32)%nat CHUNK_SIMD in
      let '(sum_v, sum2_v) := simd_loop (chunk_len / 32)%nat data zero_v zero_v in
      let sum2 := (sum2 + sum * N.of_nat chunk_len) mod P32 in
      let sum2 := (sum2 + reduce_add sum2_v) mod P32 in
      let sum := (sum + reduce_add sum_v) mod P32 in
      simd_chunks fuel' (skipn chunk_len data) (sum mod MOD) (sum2 mod MOD)
    else (data, sum, sum2)
  end.

(* The second while loop, src/fbuf.c:155-170. *)
Fixpoint tail_chunks (fuel : nat) (data : list N) (sum sum2 : N) : N * N :=
  match fuel with
  | O => (sum, sum2)
  | S fuel' =>
    match data with
    | [] => (sum, sum2)
    | _ =>
      let chunk_len := Nat.min (length data) CHUNK in
      let '(sum, sum2) := bytes_loop P32 (firstn chunk_len data) sum sum2 in
      tail_chunks fuel' (skipn chunk_len data) (sum mod MOD) (sum2 mod MOD)
    end
  end.

(* Modelled: src/fbuf.c:111-175 (adler32_update_avx2). *)
Definition adler32_update_avx2 (st : N * N) (data : list N) : N * N :=
  let '(s1, s2) := st in
  let '(data, sum, sum2) := simd_chunks (S (length data)) data (s1 mod P32) (s2 mod P32) in
  tail_chunks (S (length data)) data sum sum2.

(* Which implementation checksum_init picked, src/fbuf.c:221-241; [Scalar m]
   for both sizes of unsigned long. *)
Inductive impl := Scalar32 | Scalar64 | Avx2.

Definition update (i : impl) (st : N * N) (data : list N) : res (N * N) :=
  match i with
  | Scalar32 => adler32_update P32 st data
  | Scalar64 => adler32_update (P32 * P32) st data
  | Avx2 => Ok (adler32_update_avx2 st data)
  end.

(* checksum_init and a sequence of checksum_update calls. *)
Definition adler_init : N * N := (1, 0).

Fixpoint updates (i : impl) (st : N * N) (chunks : list (list N)) : res (N * N) :=
  match chunks with
  | [] => Ok st
  | c :: cs => do! st' <- update i st c; updates i st' cs
  end.

(* Modelled: src/fbuf.c:255-263 (checksum_finish). *)
Definition checksum_finish (st : N * N) : N :=
  N.lor (N.shiftl (fst st) 16) (snd st) mod P32.
