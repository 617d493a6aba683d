(* What a garbage-collected heap promises.  The heap is a row of [lines] lines of
   32 bytes (4 words) from address [sp].  An object is a first line and a number of
   lines. *)
From Coq Require Import List Arith NArith Bool.
From Verif Require Import Base GcModel.
Import ListNotations.

Record heap := Heap {
  obj : nat -> option nat;                 (* objects that were allocated and not collected: first line, number of lines *)
  mem : nat -> N;                          (* the words of the heap *)
  handle : nat -> option N;                (* registered roots and their values *)
  buffer : nat -> option (N * (nat -> N)) (* buffers: bytes in use, content *) }.

Section Spec.
Variable sp : N.
Variable lines : nat.

Definition covers (s n x : nat) : Prop := s <= x < s + n.

(* Address p lies in line x. *)
Definition in_line (p : N) (x : nat) : Prop :=
  (sp + 32 * N.of_nat x <= p < sp + 32 * N.of_nat (x + 1))%N.

(* What keeps memory alive when it is pointed at: an object, or a single line that
   belongs to no object. *)
Definition block (h : heap) (s n : nat) : Prop :=
  obj h s = Some n \/ (n = 1 /\ s < lines /\ forall s' n', obj h s' = Some n' -> ~ covers s' n' s).

(* p points into the block; the margin of one line after the end of the heap counts
   as part of the last line. *)
Definition points (h : heap) (p : N) (s n : nat) : Prop :=
  block h s n /\ exists x, in_line p x /\ (covers s n x \/ (x = lines /\ covers s n (lines - 1))).

(* The roots: the given words, the registered roots, the words in use of buffers. *)
Definition root (h : heap) (rs : list N) (w : N) : Prop :=
  In w rs \/ (exists p, handle h p = Some w) \/
  (exists t u d k, buffer h t = Some (u, d) /\ (8 * N.of_nat k < u)%N /\ w = d k).

Inductive reach (h : heap) (rs : list N) : nat -> nat -> Prop :=
| reach_root w s n : root h rs w -> points h w s n -> reach h rs s n
| reach_word s n k s' n' :
    reach h rs s n -> 4 * s <= k < 4 * (s + n) -> points h (mem h k) s' n' -> reach h rs s' n'.

(* A collection keeps exactly the reachable objects. *)
Definition collect (h : heap) (rs : list N) (h' : heap) : Prop :=
  (forall s n, obj h' s = Some n <-> obj h s = Some n /\ reach h rs s n) /\
  (forall k, mem h' k = mem h k) /\ handle h' = handle h /\ buffer h' = buffer h.

(* Room for an object of [size] bytes at line s: whole lines inside the heap that
   belong to no object, with at least one byte to spare. *)
Definition fits (h : heap) (s n size : nat) : Prop :=
  n * 32 <= size + 32 /\ size + 1 <= n * 32 /\ s + n <= lines /\
  forall s' n' x, obj h s' = Some n' -> covers s' n' x -> ~ covers s n x.

(* A new object; memory outside of it is not touched. *)
Definition allocate (h : heap) (size : nat) (p : N) (h' : heap) : Prop :=
  exists s n, p = (sp + 32 * N.of_nat s)%N /\ fits h s n size /\
    obj h' s = Some n /\ (forall s', s' <> s -> obj h' s' = obj h s') /\
    (forall k, ~ 4 * s <= k < 4 * (s + n) -> mem h' k = mem h k) /\
    handle h' = handle h /\ buffer h' = buffer h.

(* No room: every long enough row of lines meets something reachable. *)
Definition no_room (h : heap) (rs : list N) (size : nat) : Prop :=
  forall s n, size + 1 <= n * 32 -> s + n <= lines ->
  exists x s' n', covers s n x /\ reach h rs s' n' /\ covers s' n' x.

(* Allocation: at once, after a collection, or not at all. *)
Inductive alloc_spec (h : heap) (size : nat) (rs1 rs2 : list N) : option N -> heap -> Prop :=
| alloc_zero : size = 0 -> alloc_spec h size rs1 rs2 None h
| alloc_now p h' : size <> 0 -> allocate h size p h' -> alloc_spec h size rs1 rs2 (Some p) h'
| alloc_later p h1 h' : size <> 0 -> collect h rs1 h1 -> allocate h1 size p h' -> alloc_spec h size rs1 rs2 (Some p) h'
| alloc_oom h1 h' : size <> 0 -> no_room h rs1 size -> collect h rs1 h1 -> collect h1 rs2 h' -> alloc_spec h size rs1 rs2 None h'.

Definition with_mem (h : heap) (m : nat -> N) : heap := Heap (obj h) m (handle h) (buffer h).
Definition with_handle (h : heap) (p : nat) (v : option N) : heap := Heap (obj h) (mem h) (upd (handle h) p v) (buffer h).
Definition with_buffer (h : heap) (t : nat) (v : option (N * (nat -> N))) : heap :=
  Heap (obj h) (mem h) (handle h) (upd (buffer h) t v).

Inductive heap_step (h : heap) : op -> out -> heap -> Prop :=
| hs_alloc size rs1 rs2 r h' : alloc_spec h size rs1 rs2 r h' -> heap_step h (Alloc size rs1 rs2) (OPtr r) h'
| hs_gc rs h' : collect h rs h' -> heap_step h (Gc rs) ONone h'
| hs_write k w : heap_step h (Write k w) ONone (with_mem h (upd (mem h) k w))
| hs_find p s n : points h p s n -> heap_step h (Find p) (OFind (Some (sp + 32 * N.of_nat s)%N) (n * 32)) h
| hs_find_none p : (forall s n, ~ points h p s n) -> heap_step h (Find p) (OFind None 0) h
| hs_mptr_new p : handle h p = None -> heap_step h MptrNew (OId p) (with_handle h p (Some 0%N))
| hs_mptr_free p : handle h p <> None -> heap_step h (MptrFree p) ONone (with_handle h p None)
| hs_mptr_set p w : handle h p <> None -> heap_step h (MptrSet p w) ONone (with_handle h p (Some w))
| hs_mptr_free_bad p : handle h p = None -> heap_step h (MptrFree p) ONone h
| hs_mptr_set_bad p w : handle h p = None -> heap_step h (MptrSet p w) ONone h
| hs_tlab_acquire t d : buffer h t = None -> heap_step h TlabAcquire (OId t) (with_buffer h t (Some (0%N, d)))
| hs_tlab_release t : buffer h t <> None -> heap_step h (TlabRelease t) ONone (with_buffer h t None)
| hs_tlab_release_bad t : buffer h t = None -> heap_step h (TlabRelease t) ONone h
| hs_tlab_reset t u d : buffer h t = Some (u, d) -> heap_step h (TlabReset t) ONone (with_buffer h t (Some (0%N, d)))
| hs_tlab_reset_bad t : buffer h t = None -> heap_step h (TlabReset t) ONone h
| hs_tlab_alloc t size rs1 rs2 u d u' :
    (* at the old end of the buffer, inside the buffer with its margin *)
    buffer h t = Some (u, d) -> (u + N.of_nat size <= u')%N -> (u' <= 65536 - 32)%N -> (u mod 8 = 0)%N ->
    heap_step h (TlabAlloc t size rs1 rs2) (OWhere (InTlab u)) (with_buffer h t (Some (u', d)))
| hs_tlab_alloc_heap t size rs1 rs2 u d r h' :
    buffer h t = Some (u, d) -> (65536 - 32 < u + N.of_nat size)%N -> alloc_spec h size rs1 rs2 r h' ->
    heap_step h (TlabAlloc t size rs1 rs2) (OWhere (InHeap r)) h'
| hs_tlab_alloc_bad t size rs1 rs2 : buffer h t = None -> heap_step h (TlabAlloc t size rs1 rs2) ONone h
| hs_tlab_write t k w u d : buffer h t = Some (u, d) -> heap_step h (TlabWrite t k w) ONone (with_buffer h t (Some (u, upd d k w)))
| hs_tlab_write_bad t k w : buffer h t = None -> heap_step h (TlabWrite t k w) ONone h.

Inductive heap_run (h : heap) : list op -> list out -> heap -> Prop :=
| hr_nil : heap_run h [] [] h
| hr_cons o os x xs h1 h2 : heap_step h o x h1 -> heap_run h1 os xs h2 -> heap_run h (o :: os) (x :: xs) h2.
End Spec.

Definition empty_heap : heap := Heap (fun _ => None) (fun _ => 0%N) (fun _ => None) (fun _ => None).
