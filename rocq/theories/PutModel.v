(* Model of the update of signal values: src/rt/copy.c, src/rt/copy.h, src/rt/model.c *)
From Coq Require Import List Arith NArith Bool.
From Verif Require Import PutSpec.
Import ListNotations.

Definition load (m : memory) (a n : nat) : list N := map m (seq a n).
Definition store (m : memory) (a : nat) (l : list N) : memory :=
  fun x => if (a <=? x) && (x <? a + length l) then nth (x - a) l 0%N else m x.
(* One round of a loop of _copy2: with SSE2 both are loaded first; memcpy reads the source after
   the first store: src/rt/copy.c:34-39, 42-60 *)
Definition round (k : nat) (early : bool) (m : memory) (p1 p2 src : nat) : memory :=
  if early then
    let v2 := load m p2 k in
    let vsrc := load m src k in
    store (store m p1 v2) p2 vsrc
  else
    let m := store m p1 (load m p2 k) in
    store m p2 (load m src k).
(* The loop for len > k - 1; [fuel] is the length *)
Fixpoint rounds (fuel k : nat) (early : bool) (m : memory) (p1 p2 src len : nat) : memory * nat * nat * nat * nat :=
  match fuel with
  | O => (m, p1, p2, src, len)
  | S fuel => if k - 1 <? len then rounds fuel k early (round k early m p1 p2 src) (p1 + k) (p2 + k) (src + k) (len - k)
              else (m, p1, p2, src, len)
  end.
(* _copy2 and copy2: src/rt/copy.c:31-61, src/rt/copy.h:26-34 *)
Definition copy2_loops (x86 : bool) (m : memory) (p1 p2 src len : nat) : memory :=
  let '(m, p1, p2, src, len) := if x86 then rounds len 16 true m p1 p2 src len else (m, p1, p2, src, len) in
  let '(m, p1, p2, src, len) := rounds len 8 false m p1 p2 src len in
  let '(m, p1, p2, src, len) := rounds len 4 false m p1 p2 src len in
  let '(m, _, _, _, _) := rounds len 1 false m p1 p2 src len in m.
Definition copy2 (x86 : bool) (m : memory) (p1 p2 src len : nat) : memory :=
  if len =? 1 then round 1 false m p1 p2 src else copy2_loops x86 m p1 p2 src len.

(* cmp_bytes_sse41: src/rt/copy.c:69-95.  The exclusive or is tested under a mask of lanes; [pos] is
   an int in the code and a natural number here. *)
Definition all_zeros (m : memory) (a b : nat) (mask : nat -> bool) : bool :=
  forallb (fun i => negb (mask i) || N.eqb (N.lxor (m (a + i)) (m (b + i))) 0) (seq 0 16).
Fixpoint cmp_loop (fuel : nat) (m : memory) (a b pos size : nat) : bool :=
  match fuel with
  | O => true
  | S fuel =>
    if pos + 15 <? size then
      if all_zeros m (a + pos) (b + pos) (fun _ => true) then cmp_loop fuel m a b (pos + 16) size else false
    else if pos <? size then all_zeros m (a + pos) (b + pos) (fun i => i <? size - pos)
    else true
  end.
(* _cmp_bytes and cmp_bytes: src/rt/copy.c:97-105, src/rt/copy.h:39-46; memcmp without SSE4.1 *)
Definition cmp_bytes (sse41 : bool) (m : memory) (a b size : nat) : bool :=
  if size =? 1 then (m a =? m b)%N
  else if sse41 then cmp_loop (S size) m a b 0 size
  else forallb (fun i => N.eqb (m (a + i)) (m (b + i))) (seq 0 size).

(* put_effective: src/rt/model.c:2897-2911.  The signal has its data at [data], each copy of
   [total] bytes; the nexus has [valuesz] bytes at [offset].  The result says whether there is an
   event. *)
Definition put_effective (x86 sse41 : bool) (m : memory) (data total offset valuesz value : nat) : memory * bool :=
  let eff := data + offset in
  let last := data + offset + total in
  if negb (cmp_bytes sse41 m eff value valuesz) then (copy2 x86 m last eff value valuesz, true) else (m, false).

(* copy_value_ptr and cmp_values: src/rt/model.c:1138-1159, for values of at most eight bytes: all
   eight are loaded and compared.  For longer ones the copy is compared with cmp_bytes. *)
Definition copy_value (m : memory) (p : nat) : list N := load m p 8.
Fixpoint qword_eqb (a b : list N) : bool :=
  match a, b with
  | [], [] => true
  | x :: a, y :: b => (x =? y)%N && qword_eqb a b
  | _, _ => false
  end.
Definition cmp_values (a b : list N) : bool := qword_eqb a b.
