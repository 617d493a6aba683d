(* Model of src/rt/heap.c: the binary min-heap that orders simulation events
   by time.

   Simplifications: RT_LOCK is dropped (callers of one heap are serialised by
   it); the array of heap_node_t is a total function on 1-based indices, so a
   read past [hsize] yields the stale element that the C array would hold;
   [Fault] is returned for the assert()s and when a loop runs out of the
   iteration bound, which HeapProps shows cannot happen. *)
From Coq Require Import List Arith NArith.
From Verif Require Import Base.
Import ListNotations.

Section Heap.
Context {A : Type}.

Definition node : Type := N * A.

(* heap_t, src/rt/heap.h:23-29: nodes, size and max_size. *)
Record heap : Type := Heap {
  hnodes : nat -> node;
  hsize  : nat;
  hmax   : nat
}.

(* KEY and USER, src/rt/heap.c:36-37 (NODE is [hnodes]). *)
Definition KEY (h : heap) (i : nat) : N := fst (hnodes h i).
Definition USER (h : heap) (i : nat) : A := snd (hnodes h i).

(* PARENT, LEFT, RIGHT, src/rt/heap.c:26-28. *)
Definition PARENT (i : nat) : nat := i / 2.
Definition LEFT (i : nat) : nat := 2 * i.
Definition RIGHT (i : nat) : nat := 2 * i + 1.

Definition set_node (h : heap) (i : nat) (n : node) : heap :=
  Heap (upd (hnodes h) i n) (hsize h) (hmax h).

(* exchange, src/rt/heap.c:39-44. *)
Definition exchange (h : heap) (i j : nat) : heap :=
  let tmp := hnodes h j in
  let h1 := set_node h j (hnodes h i) in
  set_node h1 i tmp.

(* min_heapify, src/rt/heap.c:46-68; [fuel] bounds the for(;;). *)
Fixpoint min_heapify (fuel : nat) (h : heap) (i : nat) : res heap :=
  match fuel with
  | 0 => Fault
  | S f =>
    let l := LEFT i in
    let r := RIGHT i in
    let smallest :=
      if andb (l <=? hsize h) (N.ltb (KEY h l) (KEY h i)) then l else i in
    let smallest :=
      if andb (r <=? hsize h) (N.ltb (KEY h r) (KEY h smallest))
      then r else smallest in
    if smallest =? i then Ok h
    else min_heapify f (exchange h i smallest) smallest
  end.

(* The while loop of heap_decrease_key, src/rt/heap.c:75-78. *)
Fixpoint sift_up (fuel : nat) (h : heap) (i : nat) : res heap :=
  match fuel with
  | 0 => Fault
  | S f =>
    if andb (1 <? i) (N.ltb (KEY h i) (KEY h (PARENT i)))
    then sift_up f (exchange h i (PARENT i)) (PARENT i)
    else Ok h
  end.

(* heap_decrease_key, src/rt/heap.c:70-79. *)
Definition heap_decrease_key (h : heap) (i : nat) (key : N) : res heap :=
  if N.leb key (KEY h i) then
    sift_up (S i) (set_node h i (key, USER h i)) i
  else Fault.

(* heap_new, src/rt/heap.c:81-88; [junk] is the uninitialised storage. *)
Definition heap_new (junk : nat -> node) (init_size : nat) : heap :=
  Heap junk 0 init_size.

(* heap_extract_min, src/rt/heap.c:96-107. *)
Definition heap_extract_min (h : heap) : res (A * heap) :=
  if hsize h <? 1 then Fault else
  let min := USER h 1 in
  let h1 := set_node h 1 (hnodes h (hsize h)) in
  let h2 := Heap (hnodes h1) (hsize h - 1) (hmax h) in
  do! h3 <- min_heapify (S (hsize h2)) h2 1;
  Ok (min, h3).

(* heap_min, src/rt/heap.c:109-114. *)
Definition heap_min (h : heap) : res A :=
  if hsize h <? 1 then Fault else Ok (USER h 1).

(* heap_min_key, src/rt/heap.c:116-121. *)
Definition heap_min_key (h : heap) : res N :=
  if hsize h <? 1 then Fault else Ok (KEY h 1).

Definition UINT64_MAX : N := 18446744073709551615%N.

(* heap_insert, src/rt/heap.c:123-138.  The store at index [size] is
   out of bounds when the doubled capacity is still too small. *)
Definition heap_insert (h : heap) (key : N) (user : A) : res heap :=
  let mx := if hsize h =? hmax h then hmax h * 2 else hmax h in
  let sz := S (hsize h) in
  if mx <? sz then Fault else
  let h1 := Heap (upd (hnodes h) sz (UINT64_MAX, user)) sz mx in
  heap_decrease_key h1 sz key.

(* heap_walk, src/rt/heap.c:140-146: the sequence of callback arguments. *)
Definition heap_walk (h : heap) : list (N * A) :=
  map (hnodes h) (seq 1 (hsize h)).

(* heap_delete, src/rt/heap.c:148-166: loop from index [i], [todo] iterations
   left. *)
Fixpoint heap_delete_from (fn : N -> A -> bool) (h : heap) (i todo : nat)
  : res (bool * heap) :=
  match todo with
  | 0 => Ok (false, h)
  | S t =>
    if fn (KEY h i) (USER h i) then
      if i =? hsize h then Ok (true, Heap (hnodes h) (hsize h - 1) (hmax h))
      else if i <? hsize h then
        let h1 := set_node h i (hnodes h (hsize h)) in
        let h2 := Heap (hnodes h1) (hsize h - 1) (hmax h) in
        do! h3 <- heap_decrease_key h2 i (KEY h2 i);
        do! h4 <- min_heapify (S (hsize h3)) h3 i;
        Ok (true, h4)
      else Ok (true, h)
    else heap_delete_from fn h (S i) t
  end.

Definition heap_delete (fn : N -> A -> bool) (h : heap) : res (bool * heap) :=
  heap_delete_from fn h 1 (hsize h).

(* One call of the public interface and its visible result. *)
Inductive heap_op : Type :=
| OpInsert (key : N) (user : A)
| OpExtract
| OpMin
| OpMinKey
| OpDelete (fn : N -> A -> bool).

Inductive heap_out : Type :=
| OutUnit
| OutItem (a : A)
| OutKey (k : N)
| OutBool (b : bool).

Definition heap_step (h : heap) (op : heap_op) : res (heap_out * heap) :=
  match op with
  | OpInsert k u => do! h' <- heap_insert h k u; Ok (OutUnit, h')
  | OpExtract => do! (a, h') <- heap_extract_min h; Ok (OutItem a, h')
  | OpMin => do! a <- heap_min h; Ok (OutItem a, h)
  | OpMinKey => do! k <- heap_min_key h; Ok (OutKey k, h)
  | OpDelete fn => do! (b, h') <- heap_delete fn h; Ok (OutBool b, h')
  end.

Fixpoint heap_run (h : heap) (ops : list heap_op)
  : res (list heap_out * heap) :=
  match ops with
  | [] => Ok ([], h)
  | op :: ops' =>
    do! (o, h1) <- heap_step h op;
    do! (os, h2) <- heap_run h1 ops';
    Ok (o :: os, h2)
  end.

End Heap.
Arguments heap : clear implicits.
Arguments heap_op : clear implicits.
Arguments heap_out : clear implicits.
