(* Model of src/mask.c and src/mask.h: fixed-size bit masks, stored inline for
   sizes up to 64 bits and as an array of 64-bit words otherwise.

   Words are [N] below 2^64, sizes and indices [nat] (size_t without
   wrap-around: the callers' ranges stay below the mask size).  An access
   outside the word array, or an out-of-range index where the C macros
   assert(), is [Fault]. *)
From Coq Require Import List Arith NArith ZArith.
From Verif Require Import Base.
Import ListNotations.

(* bit_mask_t, src/mask.h:27-33 (the union: [mbits] used when size <= 64,
   [mptr] otherwise). *)
Record mask : Type := Mask {
  msize : nat;
  mbits : N;
  mptr  : list N
}.

(* Element store into the word array. *)
Fixpoint list_set {V} (l : list V) (k : nat) (v : V) : list V :=
  match l, k with
  | [], _ => []
  | _ :: t, 0 => v :: t
  | x :: t, S k' => x :: list_set t k' v
  end.

(* m->ptr[k] read and write. *)
Definition rd (m : mask) (k : nat) : res N :=
  match nth_error (mptr m) k with Some w => Ok w | None => Fault end.
Definition wr (m : mask) (k : nat) (w : N) : res mask :=
  if k <? length (mptr m) then Ok (Mask (msize m) (mbits m) (list_set (mptr m) k w))
  else Fault.
Definition wbits (m : mask) (w : N) : mask := Mask (msize m) w (mptr m).

(* ~x on uint64_t. *)
Definition not64 (x : N) : N := N.lxor x (N.ones 64).
(* UINT64_C(1) << n with n < 64. *)
Definition shl1 (n : nat) : N := N.shiftl 1 (N.of_nat n).

(* GCC builtins on uint64_t. *)
Definition popcountll (w : N) : nat :=
  length (filter (fun i => N.testbit w (N.of_nat i)) (seq 0 64)).
(* 1 + index of the least significant set bit, 0 if none *)
Definition ffsll (w : N) : nat :=
  match find (fun i => N.testbit w (N.of_nat i)) (seq 0 64) with
  | Some i => S i
  | None => 0
  end.
(* number of leading zeros of a non-zero word; undefined for zero *)
Definition clzll (w : N) : res nat :=
  if N.eqb w 0 then Fault else Ok (63 - N.to_nat (N.log2 w)).

(* mask_init, src/mask.c:25-32. *)
Definition mask_init (size : nat) : mask :=
  if 64 <? size then Mask size 0 (repeat 0%N ((size + 63) / 64))
  else Mask size 0 [].

(* mask_for_range, src/mask.c:43-60; the two assert()s on the bounds give
   Fault, the popcount assert is a theorem. *)
Definition mask_for_range (low high : Z) : res N :=
  if (high <? low)%Z then Ok 0%N
  else if ((low <? 0) || (63 <? low) || (high <? 0) || (63 <? high))%Z%bool then Fault
  else
    let mask := N.ones 64 in
    let mask := if (high <? 63)%Z
                then N.land mask (shl1 (Z.to_nat high + 1) - 1)%N else mask in
    let mask := if (0 <? low)%Z
                then N.land mask (not64 (shl1 (Z.to_nat low) - 1)) else mask in
    Ok mask.

(* mask_test, src/mask.h:35-41. *)
Definition mask_test (m : mask) (bit : nat) : res bool :=
  if bit <? msize m then
    if 64 <? msize m then
      do! w <- rd m (bit / 64);
      Ok (negb (N.eqb (N.land w (shl1 (bit mod 64))) 0))
    else Ok (negb (N.eqb (N.land (mbits m) (shl1 (bit mod 64))) 0))
  else Fault.

(* mask_set, src/mask.h:43-50. *)
Definition mask_set (m : mask) (bit : nat) : res mask :=
  if bit <? msize m then
    if 64 <? msize m then
      do! w <- rd m (bit / 64);
      wr m (bit / 64) (N.lor w (shl1 (bit mod 64)))
    else Ok (wbits m (N.lor (mbits m) (shl1 (bit mod 64))))
  else Fault.

(* mask_clear, src/mask.h:52-59. *)
Definition mask_clear (m : mask) (bit : nat) : res mask :=
  if bit <? msize m then
    if 64 <? msize m then
      do! w <- rd m (bit / 64);
      wr m (bit / 64) (N.land w (not64 (shl1 (bit mod 64))))
    else Ok (wbits m (N.land (mbits m) (not64 (shl1 (bit mod 64)))))
  else Fault.

(* Main loop of mask_clear_range, src/mask.c:81-82.  Returns the final start
   and count as well. *)
Fixpoint clear_words (fuel : nat) (m : mask) (start count : nat)
  : res (mask * nat * nat) :=
  if 64 <=? count then
    match fuel with
    | 0 => Fault
    | S f =>
      do! m1 <- wr m (start / 64) 0;
      clear_words f m1 (start + 64) (count - 64)
    end
  else Ok (m, start, count).

(* mask_clear_range, src/mask.c:62-92. *)
Definition mask_clear_range (m : mask) (start count : nat) : res mask :=
  if msize m <=? 64 then
    do! r <- mask_for_range (Z.of_nat start) (Z.of_nat start + Z.of_nat count - 1);
    Ok (wbits m (N.land (mbits m) (not64 r)))
  else
    do! (m, start, count) <-
      (if andb (0 <? count) (negb (start mod 64 =? 0)) then
         let low := start mod 64 in
         let high := Nat.min (low + count - 1) 63 in
         let nbits := high - low + 1 in
         do! w <- rd m (start / 64);
         do! r <- mask_for_range (Z.of_nat low) (Z.of_nat high);
         do! m1 <- wr m (start / 64) (N.land w (not64 r));
         Ok (m1, start + nbits, count - nbits)
       else Ok (m, start, count));
    do! (m, start, count) <- clear_words count m start count;
    if 0 <? count then
      let high := Nat.min (count - 1) 63 in
      do! w <- rd m (start / 64);
      do! r <- mask_for_range 0 (Z.of_nat high);
      wr m (start / 64) (N.land w (not64 r))
    else Ok m.

(* Main loop of mask_set_range, src/mask.c:113-114. *)
Fixpoint set_words (fuel : nat) (m : mask) (start count : nat)
  : res (mask * nat * nat) :=
  if 64 <=? count then
    match fuel with
    | 0 => Fault
    | S f =>
      do! m1 <- wr m (start / 64) (N.ones 64);
      set_words f m1 (start + 64) (count - 64)
    end
  else Ok (m, start, count).

(* mask_set_range, src/mask.c:94-124. *)
Definition mask_set_range (m : mask) (start count : nat) : res mask :=
  if msize m <=? 64 then
    do! r <- mask_for_range (Z.of_nat start) (Z.of_nat start + Z.of_nat count - 1);
    Ok (wbits m (N.lor (mbits m) r))
  else
    do! (m, start, count) <-
      (if andb (0 <? count) (negb (start mod 64 =? 0)) then
         let low := start mod 64 in
         let high := Nat.min (low + count - 1) 63 in
         let nbits := high - low + 1 in
         do! w <- rd m (start / 64);
         do! r <- mask_for_range (Z.of_nat low) (Z.of_nat high);
         do! m1 <- wr m (start / 64) (N.lor w r);
         Ok (m1, start + nbits, count - nbits)
       else Ok (m, start, count));
    do! (m, start, count) <- set_words count m start count;
    if 0 <? count then
      let high := Nat.min (count - 1) 63 in
      do! w <- rd m (start / 64);
      do! r <- mask_for_range 0 (Z.of_nat high);
      wr m (start / 64) (N.lor w r)
    else Ok m.

(* Main loop of mask_test_range, src/mask.c:146-149: [inl] = returned true. *)
Fixpoint test_words (fuel : nat) (m : mask) (start count : nat)
  : res (unit + nat * nat) :=
  if 64 <=? count then
    match fuel with
    | 0 => Fault
    | S f =>
      do! w <- rd m (start / 64);
      if negb (N.eqb w 0) then Ok (inl tt)
      else test_words f m (start + 64) (count - 64)
    end
  else Ok (inr (start, count)).

(* mask_test_range, src/mask.c:126-164. *)
Definition mask_test_range (m : mask) (start count : nat) : res bool :=
  if msize m <=? 64 then
    do! r <- mask_for_range (Z.of_nat start) (Z.of_nat start + Z.of_nat count - 1);
    Ok (negb (N.eqb (N.land (mbits m) r) 0))
  else
    do! pre <-
      (if andb (0 <? count) (negb (start mod 64 =? 0)) then
         let low := start mod 64 in
         let high := Nat.min (low + count - 1) 63 in
         let nbits := high - low + 1 in
         do! w <- rd m (start / 64);
         do! r <- mask_for_range (Z.of_nat low) (Z.of_nat high);
         if negb (N.eqb (N.land w r) 0) then Ok (inl tt)
         else Ok (inr (start + nbits, count - nbits))
       else Ok (inr (start, count)));
    match pre with
    | inl _ => Ok true
    | inr (start, count) =>
      do! main <- test_words count m start count;
      match main with
      | inl _ => Ok true
      | inr (start, count) =>
        if 0 <? count then
          let high := Nat.min (count - 1) 63 in
          do! w <- rd m (start / 64);
          do! r <- mask_for_range 0 (Z.of_nat high);
          Ok (negb (N.eqb (N.land w r) 0))
        else Ok false
      end
    end.

(* Loop of mask_popcount, src/mask.c:170-171. *)
Fixpoint popcount_loop (n : nat) (m : mask) (i sum : nat) : res nat :=
  match n with
  | 0 => Ok sum
  | S n' => do! w <- rd m i; popcount_loop n' m (S i) (sum + popcountll w)
  end.

(* mask_popcount, src/mask.c:166-176. *)
Definition mask_popcount (m : mask) : res nat :=
  if 64 <? msize m then popcount_loop ((msize m + 63) / 64) m 0 0
  else Ok (popcountll (mbits m)).

(* mask_setall / mask_clearall, src/mask.c:178-186. *)
Definition mask_setall (m : mask) : res mask := mask_set_range m 0 (msize m).
Definition mask_clearall (m : mask) : res mask := mask_clear_range m 0 (msize m).

(* mask_test_and_set, src/mask.c:188-195. *)
Definition mask_test_and_set (m : mask) (bit : nat) : res (bool * mask) :=
  do! b <- mask_test m bit;
  if b then Ok (true, m)
  else do! m' <- mask_set m bit; Ok (false, m').

(* Loop of mask_scan_backwards, src/mask.c:212; [i] is signed. *)
Fixpoint scan_loop (fuel : nat) (m : mask) (i : Z) : res Z :=
  if (0 <? i)%Z then
    match fuel with
    | 0 => Fault
    | S f =>
      do! w <- rd m (Z.to_nat i / 64);
      if N.eqb w 0 then scan_loop f m (i - 64)%Z else Ok i
    end
  else Ok i.

(* mask_scan_backwards, src/mask.c:197-218. *)
Definition mask_scan_backwards (m : mask) (bit : nat) : res Z :=
  if msize m <=? 64 then
    do! r <- mask_for_range 0 (Z.of_nat bit);
    let word0 := N.land (mbits m) r in
    if N.eqb word0 0 then Ok (-1)%Z
    else do! c <- clzll word0; Ok (63 - Z.of_nat c)%Z
  else
    do! w <- rd m (bit / 64);
    do! r <- mask_for_range 0 (Z.of_nat (bit mod 64));
    let word0 := N.land w r in
    if negb (N.eqb word0 0) then
      do! c <- clzll word0;
      Ok (Z.of_nat (Nat.lor bit 63) - Z.of_nat c)%Z
    else
      do! i <- scan_loop (S bit) m (Z.of_nat bit - (Z.of_nat (bit mod 64) + 1))%Z;
      if (0 <? i)%Z then
        do! w <- rd m (Z.to_nat i / 64);
        do! c <- clzll w;
        Ok (Z.lor i 63 - Z.of_nat c)%Z
      else Ok (-1)%Z.

(* Loop of mask_count_clear, src/mask.c:249. *)
Fixpoint count_loop (fuel : nat) (m : mask) (bit count : nat) : res (nat * nat) :=
  if bit + 64 <? msize m then
    match fuel with
    | 0 => Fault
    | S f =>
      do! w <- rd m (bit / 64);
      if N.eqb w 0 then count_loop f m (bit + 64) (count + 64)
      else Ok (bit, count)
    end
  else Ok (bit, count).

(* mask_count_clear, src/mask.c:220-256. *)
Definition mask_count_clear (m : mask) (bit : nat) : res nat :=
  if negb (bit <? msize m) then Fault
  else if msize m <=? 64 then
    do! r <- mask_for_range (Z.of_nat bit) 63;
    let fs := ffsll (N.land (mbits m) r) in
    Ok (if 0 <? fs then fs - 1 - bit else msize m - bit)
  else
    let modbits := bit mod 64 in
    let maxbits := Nat.min 64 (msize m - 64 * (bit / 64)) in
    do! pre <-
      (if 0 <? modbits then
         do! w <- rd m (bit / 64);
         do! r <- mask_for_range (Z.of_nat modbits) (Z.of_nat maxbits - 1);
         let fs := ffsll (N.land w r) in
         if 0 <? fs then Ok (inl (fs - 1 - modbits))
         else Ok (inr (bit + maxbits - modbits, maxbits - modbits))
       else Ok (inr (bit, 0)));
    match pre with
    | inl n => Ok n
    | inr (bit, count) =>
      if bit =? msize m then Ok count
      else if negb (bit mod 64 =? 0) then Fault
      else
        do! (bit, count) <- count_loop (msize m) m bit count;
        do! w <- rd m (bit / 64);
        let fs := ffsll w in
        Ok (if 0 <? fs then count + fs - 1 else count + msize m - bit)
    end.

(* The word-wise loops of mask_subtract, mask_union, mask_intersect and
   mask_copy, src/mask.c:263, 275, 287, 299: [f] is the assignment body. *)
Fixpoint words_loop (n : nat) (f : N -> N -> N) (m m2 : mask) (i : nat) : res mask :=
  match n with
  | 0 => Ok m
  | S n' =>
    do! a <- rd m i;
    do! b <- rd m2 i;
    do! m' <- wr m i (f a b);
    words_loop n' f m' m2 (S i)
  end.

Definition mask_words_op (f : N -> N -> N) (m m2 : mask) : res mask :=
  if negb (msize m =? msize m2) then Fault
  else if 64 <? msize m then words_loop ((msize m + 63) / 64) f m m2 0
  else Ok (wbits m (f (mbits m) (mbits m2))).

(* mask_subtract, src/mask.c:258-268. *)
Definition mask_subtract := mask_words_op (fun a b => N.land a (not64 b)).
(* mask_union, src/mask.c:270-280. *)
Definition mask_union := mask_words_op N.lor.
(* mask_intersect, src/mask.c:282-292. *)
Definition mask_intersect := mask_words_op N.land.
(* mask_copy, src/mask.c:294-304. *)
Definition mask_copy := mask_words_op (fun _ b => b).

(* Loop of mask_eq, src/mask.c:311-316. *)
Fixpoint eq_loop (n : nat) (m1 m2 : mask) (i : nat) : res bool :=
  match n with
  | 0 => Ok true
  | S n' =>
    do! a <- rd m1 i;
    do! b <- rd m2 i;
    if negb (N.eqb a b) then Ok false else eq_loop n' m1 m2 (S i)
  end.

(* mask_eq, src/mask.c:306-320. *)
Definition mask_eq (m1 m2 : mask) : res bool :=
  if negb (msize m1 =? msize m2) then Fault
  else if 64 <? msize m1 then eq_loop ((msize m1 + 63) / 64) m1 m2 0
  else Ok (N.eqb (mbits m1) (mbits m2)).

(* Second loop of mask_iter, src/mask.c:340-346; [n] words left. *)
Fixpoint iter_loop (n : nat) (m : mask) (word : nat) : res (option nat) :=
  match n with
  | 0 => Ok None
  | S n' =>
    do! w <- rd m word;
    let fs := ffsll w in
    if 0 <? fs then Ok (Some (word * 64 + fs - 1))
    else iter_loop n' m (S word)
  end.

(* mask_iter, src/mask.c:322-356.  The cursor is the size_t *bit with the
   initial value (size_t)-1 written as -1; the result is the return value and
   the new cursor. *)
Definition mask_iter (m : mask) (bit : Z) : res (bool * Z) :=
  if (Z.of_nat (msize m) <=? bit + 1)%Z then Ok (false, bit)
  else if 64 <? msize m then
    let next := Z.to_nat (bit + 1) in
    let word := next / 64 in
    do! pre <-
      (if 0 <? next mod 64 then
         do! w <- rd m word;
         do! r <- mask_for_range 0 (bit mod 64)%Z;
         let fs := ffsll (N.land w (not64 r)) in
         if 0 <? fs then Ok (inl (word * 64 + fs - 1))
         else Ok (inr (S word))
       else Ok (inr word));
    match pre with
    | inl b => Ok (true, Z.of_nat b)
    | inr word =>
      do! o <- iter_loop ((msize m + 63) / 64 - word) m word;
      match o with
      | Some b => Ok (true, Z.of_nat b)
      | None => Ok (false, bit)
      end
    end
  else
    do! r <- mask_for_range 0 bit;
    let fs := ffsll (N.land (mbits m) (not64 r)) in
    Ok (0 <? fs, (Z.of_nat fs - 1)%Z).

(* A client holding several masks of one size and calling the interface. *)
Inductive mask_op : Type :=
| MTest (k bit : nat) | MSet (k bit : nat) | MClear (k bit : nat)
| MTestAndSet (k bit : nat)
| MSetRange (k start count : nat) | MClearRange (k start count : nat)
| MTestRange (k start count : nat)
| MSetAll (k : nat) | MClearAll (k : nat) | MPopcount (k : nat)
| MScanBackwards (k bit : nat) | MCountClear (k bit : nat)
| MSubtract (k j : nat) | MUnion (k j : nat) | MIntersect (k j : nat)
| MCopy (k j : nat) | MEq (k j : nat)
| MIter (k : nat) (cursor : Z).

Inductive mask_out : Type :=
| MoUnit | MoBool (b : bool) | MoNat (n : nat) | MoInt (z : Z)
| MoIter (found : bool) (cursor : Z).

Definition mask_step (bank : nat -> mask) (op : mask_op)
  : res (mask_out * (nat -> mask)) :=
  let put k (r : res mask) :=
    do! m <- r; Ok (MoUnit, upd bank k m) in
  match op with
  | MTest k b => do! r <- mask_test (bank k) b; Ok (MoBool r, bank)
  | MSet k b => put k (mask_set (bank k) b)
  | MClear k b => put k (mask_clear (bank k) b)
  | MTestAndSet k b =>
      do! (r, m) <- mask_test_and_set (bank k) b; Ok (MoBool r, upd bank k m)
  | MSetRange k s c => put k (mask_set_range (bank k) s c)
  | MClearRange k s c => put k (mask_clear_range (bank k) s c)
  | MTestRange k s c => do! r <- mask_test_range (bank k) s c; Ok (MoBool r, bank)
  | MSetAll k => put k (mask_setall (bank k))
  | MClearAll k => put k (mask_clearall (bank k))
  | MPopcount k => do! n <- mask_popcount (bank k); Ok (MoNat n, bank)
  | MScanBackwards k b => do! z <- mask_scan_backwards (bank k) b; Ok (MoInt z, bank)
  | MCountClear k b => do! n <- mask_count_clear (bank k) b; Ok (MoNat n, bank)
  | MSubtract k j => put k (mask_subtract (bank k) (bank j))
  | MUnion k j => put k (mask_union (bank k) (bank j))
  | MIntersect k j => put k (mask_intersect (bank k) (bank j))
  | MCopy k j => put k (mask_copy (bank k) (bank j))
  | MEq k j => do! r <- mask_eq (bank k) (bank j); Ok (MoBool r, bank)
  | MIter k c => do! (f, c') <- mask_iter (bank k) c; Ok (MoIter f c', bank)
  end.

Fixpoint mask_run (bank : nat -> mask) (ops : list mask_op)
  : res (list mask_out * (nat -> mask)) :=
  match ops with
  | [] => Ok ([], bank)
  | op :: ops' =>
    do! (o, bank1) <- mask_step bank op;
    do! (os, bank2) <- mask_run bank1 ops';
    Ok (o :: os, bank2)
  end.
