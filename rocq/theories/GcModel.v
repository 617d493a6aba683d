(* Model of the garbage-collected heap, src/rt/mspace.c.

   Addresses and words are [N], byte offsets and line numbers [nat].  The bit masks
   are those of MaskModel.v.  Registers and stacks of the stopped threads
   (src/rt/mspace.c:475-506) are given to each collection as a list of words.
   Lists linked through pointers (free list, mptrs, buffers) are Coq lists.  All
   calls run one at a time: they hold the lock of the heap or stop the world.  A
   failed assertion or an access outside a mask is Fault.  Calls on a handle or
   buffer that is not live, which are the caller's error, do nothing. *)
From Coq Require Import List Arith NArith ZArith Bool.
From Verif Require Import Base MaskModel.
Import ListNotations.

Definition LINE_SIZE : nat := 32.        (* src/rt/mspace.c:33 *)
Definition LINE_WORDS : nat := 4.        (* src/rt/mspace.c:34 *)
Definition OVERRUN_MARGIN : nat := 32.   (* src/rt/mspace.c:39 *)
Definition UINT32_MAX : N := 4294967295.
Definition TLAB_SIZE : N := 65536.       (* src/rt/mspace.h:30 *)

(* tlab_t, src/rt/mspace.h:33-38: data as words, bytes in use; the limit is the
   constant of tlab_acquire. *)
Record tlab := Tlab { tdata : nat -> N; talloc : N }.
Definition TLAB_LIMIT : N := TLAB_SIZE - 32.

(* struct _mspace, src/rt/mspace.c:78-96.  [words] is the content of the space.
   Free blocks are pairs of byte offset in the space and size. *)
Record mspace := MSpace {
  space : N; maxsize : nat; maxlines : nat; headmask : mask;
  free_list : list (nat * nat); words : nat -> N;
  mroots : list nat; free_mptrs : list nat; mvalue : nat -> N; next_mptr : nat;
  live_tlabs : list nat; free_tlabs : list nat; tlabs : nat -> tlab; next_tlab : nat }.

Definition set_words (m : mspace) (w : nat -> N) : mspace :=
  MSpace (space m) (maxsize m) (maxlines m) (headmask m) (free_list m) w
    (mroots m) (free_mptrs m) (mvalue m) (next_mptr m) (live_tlabs m) (free_tlabs m) (tlabs m) (next_tlab m).
Definition set_heap (m : mspace) (h : mask) (fl : list (nat * nat)) : mspace :=
  MSpace (space m) (maxsize m) (maxlines m) h fl (words m)
    (mroots m) (free_mptrs m) (mvalue m) (next_mptr m) (live_tlabs m) (free_tlabs m) (tlabs m) (next_tlab m).
Definition set_mptrs (m : mspace) (r f : list nat) (v : nat -> N) (n : nat) : mspace :=
  MSpace (space m) (maxsize m) (maxlines m) (headmask m) (free_list m) (words m)
    r f v n (live_tlabs m) (free_tlabs m) (tlabs m) (next_tlab m).
Definition set_tlabs (m : mspace) (l f : list nat) (t : nat -> tlab) (n : nat) : mspace :=
  MSpace (space m) (maxsize m) (maxlines m) (headmask m) (free_list m) (words m)
    (mroots m) (free_mptrs m) (mvalue m) (next_mptr m) l f t n.

(* ALIGN_UP, src/util.h:89 *)
Definition align_up (p a : nat) : nat := (p + a - 1) / a * a.

(* mspace_new, src/rt/mspace.c:103-131; [sp] is the address of the mapping. *)
Definition mspace_new (sp : N) (size : nat) : res mspace :=
  let maxsize := align_up size LINE_SIZE in
  let maxlines := (maxsize - OVERRUN_MARGIN) / LINE_SIZE in
  if (137438953472 <? N.of_nat maxsize)%N then Fault   (* fatal: MAX_HEAP *)
  else
    do! h <- mask_setall (mask_init maxlines);
    Ok (MSpace sp maxsize maxlines h [(0, maxsize - OVERRUN_MARGIN)] (fun _ => 0%N)
          [] [] (fun _ => 0%N) 0 [] [] (fun _ => Tlab (fun _ => 0%N) 0) 0).

(* The loop of mspace_try_alloc over the free list, src/rt/mspace.c:188-219:
   the first block that is large enough, and the list without what is taken. *)
Fixpoint first_fit (asize : nat) (fl : list (nat * nat)) : option (nat * list (nat * nat)) :=
  match fl with
  | [] => None
  | (p, z) :: fl' =>
    if asize <=? z then
      Some (p, if z =? asize then fl' else (p + asize, z - asize) :: fl')
    else
      match first_fit asize fl' with
      | Some (b, fl'') => Some (b, (p, z) :: fl'')
      | None => None
      end
  end.

(* *(volatile char * )base = 0, src/rt/mspace.c:215, on a little-endian machine *)
Definition clear_byte (w : nat -> N) (off : nat) : nat -> N :=
  let k := off / 8 in upd w k (w k - w k mod 256)%N.

(* mspace_try_alloc, src/rt/mspace.c:179-222.  Returns the byte offset. *)
Definition mspace_try_alloc (m : mspace) (size : nat) : res (option nat * mspace) :=
  let nlines := (size + LINE_SIZE) / LINE_SIZE in
  let asize := nlines * LINE_SIZE in
  match first_fit asize (free_list m) with
  | None => Ok (None, m)
  | Some (b, fl) =>
    let line := b / LINE_SIZE in
    do! h <- mask_set (headmask m) line;
    do! h <- (if 1 <? nlines then mask_clear_range h (line + 1) (nlines - 1) else Ok h);
    Ok (Some b, set_words (set_heap m h fl) (clear_byte (words m) b))
  end.

(* is_mspace_ptr, src/rt/mspace.c:415-418 *)
Definition is_mspace_ptr (m : mspace) (p : N) : bool :=
  (space m <=? p)%N && (p <? space m + N.of_nat (maxsize m))%N.

(* The block that holds an address, src/rt/mspace.c:423-433 and 592-600: first line
   and number of lines. *)
Definition find_block (m : mspace) (p : N) : res (nat * nat) :=
  let line := N.to_nat ((p - space m) / N.of_nat LINE_SIZE) in
  do! z <- mask_scan_backwards (headmask m) line;
  if (z <? 0)%Z then Fault else
  let line := Z.to_nat z in
  do! c <- (if line + 1 <? maxlines m then mask_count_clear (headmask m) (line + 1) else Ok 0);
  Ok (line, 1 + c).

(* An entry of the work list, src/rt/mspace.c:438 and 519-520. *)
Definition enc (line objlen : nat) : N := N.lor (N.shiftl (N.of_nat line) 32) (N.of_nat objlen).
Definition dec_line (e : N) : nat := N.to_nat (N.shiftr e 32).
Definition dec_len (e : N) : nat := N.to_nat (N.land e 4294967295).

(* mspace_mark_root, src/rt/mspace.c:420-442 *)
Definition mark_root (m : mspace) (p : N) (st : mask * list N) : res (mask * list N) :=
  let '(mk, wl) := st in
  if is_mspace_ptr m p then
    if (UINT32_MAX <=? (p - space m) / N.of_nat LINE_SIZE)%N then Fault else
    do! (line, objlen) <- find_block m p;
    if (UINT32_MAX <=? N.of_nat objlen)%N then Fault else
    do! t <- mask_test mk line;
    if t then Ok (mk, wl)
    else
      do! mk' <- mask_set_range mk line objlen;
      Ok (mk', enc line objlen :: wl)
  else Ok (mk, wl).

Fixpoint mark_all (m : mspace) (ps : list N) (st : mask * list N) : res (mask * list N) :=
  match ps with
  | [] => Ok st
  | p :: ps' => do! st <- mark_root m p st; mark_all m ps' st
  end.

(* The words of the lines of a block, src/rt/mspace.c:522-527 *)
Definition block_words (m : mspace) (line objlen : nat) : list N :=
  map (words m) (seq (LINE_WORDS * line) (LINE_WORDS * objlen)).

(* The marking loop, src/rt/mspace.c:517-528 *)
Fixpoint mark_loop (fuel : nat) (m : mspace) (st : mask * list N) : res mask :=
  match snd st with
  | [] => Ok (fst st)
  | e :: wl =>
    match fuel with
    | O => Fault
    | S f => do! st <- mark_all m (block_words m (dec_line e) (dec_len e)) (fst st, wl); mark_loop f m st
    end
  end.

(* The sweep, src/rt/mspace.c:545-565: new head mask and free list *)
Fixpoint sweep (fuel : nat) (maxlines : nat) (mk : mask) (line : nat) (h : mask) (fl : list (nat * nat))
  : res (mask * list (nat * nat)) :=
  if line <? maxlines then
    match fuel with
    | O => Fault
    | S f =>
      do! clear <- mask_count_clear mk line;
      if clear =? 0 then sweep f maxlines mk (S line) h fl
      else
        do! h <- mask_set_range h line clear;
        sweep f maxlines mk (line + clear) h (fl ++ [(line * LINE_SIZE, clear * LINE_SIZE)])
    end
  else Ok (h, fl).

(* The words of the live buffers, src/rt/mspace.c:511-515 *)
Definition tlab_words (t : tlab) : list N := map (tdata t) (seq 0 (N.to_nat ((talloc t + 7) / 8))).

(* mspace_gc, src/rt/mspace.c:455-583; [rs] are the words in the registers and on
   the stacks of all threads. *)
Definition mspace_gc (m : mspace) (rs : list N) : res mspace :=
  do! st <- mark_all m rs (mask_init (maxlines m), []);
  do! st <- mark_all m (map (mvalue m) (mroots m)) st;
  do! st <- mark_all m (flat_map (fun t => tlab_words (tlabs m t)) (live_tlabs m)) st;
  do! mk <- mark_loop (maxlines m) m st;
  do! (h, fl) <- sweep (maxlines m) (maxlines m) mk 0 (headmask m) [];
  Ok (set_heap m h fl).

(* mspace_alloc, src/rt/mspace.c:224-251, with an out-of-memory handler: [rs1] and
   [rs2] are the roots during the two collections it may start.  The stress option
   is left out: it is a collection before the call. *)
Definition mspace_alloc (m : mspace) (size : nat) (rs1 rs2 : list N) : res (option N * mspace) :=
  if size =? 0 then Ok (None, m) else
  do! (r, m) <- mspace_try_alloc m size;
  match r with
  | Some b => Ok (Some (space m + N.of_nat b)%N, m)
  | None =>
    do! m <- mspace_gc m rs1;
    do! (r, m) <- mspace_try_alloc m size;
    match r with
    | Some b => Ok (Some (space m + N.of_nat b)%N, m)
    | None => do! m <- mspace_gc m rs2; Ok (None, m)
    end
  end.

(* mspace_find, src/rt/mspace.c:585-604 *)
Definition mspace_find (m : mspace) (p : N) : res (option N * nat) :=
  if is_mspace_ptr m p then
    do! (line, objlen) <- find_block m p;
    Ok (Some (space m + N.of_nat (line * LINE_SIZE))%N, objlen * LINE_SIZE)
  else Ok (None, 0).

Definition remove1 (x : nat) (l : list nat) : list nat := remove Nat.eq_dec x l.

(* mptr_new, src/rt/mspace.c:268-291 *)
Definition mptr_new (m : mspace) : nat * mspace :=
  match free_mptrs m with
  | p :: f => (p, set_mptrs m (p :: mroots m) f (upd (mvalue m) p 0%N) (next_mptr m))
  | [] => (next_mptr m, set_mptrs m (next_mptr m :: mroots m) [] (upd (mvalue m) (next_mptr m) 0%N) (S (next_mptr m)))
  end.

(* mptr_free, src/rt/mspace.c:293-318 *)
Definition mptr_free (m : mspace) (p : nat) : mspace :=
  set_mptrs m (remove1 p (mroots m)) (p :: free_mptrs m) (upd (mvalue m) p 0%N) (next_mptr m).

(* tlab_acquire, src/rt/mspace.c:338-369; the header of a tlab_t is 16 bytes. *)
Definition tlab_acquire (m : mspace) : nat * mspace :=
  match free_tlabs m with
  | t :: f => (t, set_tlabs m (t :: live_tlabs m) f (upd (tlabs m) t (Tlab (tdata (tlabs m t)) 0)) (next_tlab m))
  | [] => (next_tlab m, set_tlabs m (next_tlab m :: live_tlabs m) [] (upd (tlabs m) (next_tlab m) (Tlab (fun _ => 0%N) 0)) (S (next_tlab m)))
  end.

(* tlab_release, src/rt/mspace.c:371-399 *)
Definition tlab_release (m : mspace) (t : nat) : res mspace :=
  if (TLAB_LIMIT <? talloc (tlabs m t))%N then Fault else
  Ok (set_tlabs m (remove1 t (live_tlabs m)) (t :: free_tlabs m) (tlabs m) (next_tlab m)).

(* tlab_reset, src/rt/mspace.h:40-43 *)
Definition tlab_reset (m : mspace) (t : nat) : res mspace :=
  if (TLAB_LIMIT <? talloc (tlabs m t))%N then Fault else
  Ok (set_tlabs m (live_tlabs m) (free_tlabs m) (upd (tlabs m) t (Tlab (tdata (tlabs m t)) 0)) (next_tlab m)).

(* What an allocation returns: an offset in the buffer, or what mspace_alloc says. *)
Inductive where_ := InTlab (off : N) | InHeap (p : option N).

(* tlab_alloc, src/rt/mspace.c:401-413 *)
Definition tlab_alloc (m : mspace) (t : nat) (size : nat) (rs1 rs2 : list N) : res (where_ * mspace) :=
  let tl := tlabs m t in
  if (TLAB_LIMIT <? talloc tl)%N || negb (talloc tl mod 8 =? 0)%N then Fault
  else if (talloc tl + N.of_nat size <=? TLAB_LIMIT)%N then
    Ok (InTlab (talloc tl),
        set_tlabs m (live_tlabs m) (free_tlabs m)
          (upd (tlabs m) t (Tlab (tdata tl) (talloc tl + N.of_nat (align_up size 8)))) (next_tlab m))
  else do! (r, m) <- mspace_alloc m size rs1 rs2; Ok (InHeap r, m).

(* What a program does with a heap. *)
Inductive op :=
| Alloc (size : nat) (rs1 rs2 : list N)
| Gc (rs : list N)
| Write (k : nat) (w : N)          (* store a word in the space *)
| Find (p : N)
| MptrNew | MptrFree (p : nat) | MptrSet (p : nat) (w : N)
| TlabAcquire | TlabRelease (t : nat) | TlabReset (t : nat)
| TlabAlloc (t size : nat) (rs1 rs2 : list N)
| TlabWrite (t k : nat) (w : N).

Inductive out := ONone | OPtr (p : option N) | OId (i : nat) | OFind (p : option N) (size : nat) | OWhere (x : where_).

Definition live (l : list nat) (x : nat) : bool := existsb (Nat.eqb x) l.

Definition step (m : mspace) (o : op) : res (out * mspace) :=
  match o with
  | Alloc size rs1 rs2 => do! (r, m) <- mspace_alloc m size rs1 rs2; Ok (OPtr r, m)
  | Gc rs => do! m <- mspace_gc m rs; Ok (ONone, m)
  | Write k w => Ok (ONone, set_words m (upd (words m) k w))
  | Find p => do! (r, n) <- mspace_find m p; Ok (OFind r n, m)
  | MptrNew => let '(p, m) := mptr_new m in Ok (OId p, m)
  | MptrFree p => if live (mroots m) p then Ok (ONone, mptr_free m p) else Ok (ONone, m)
  | MptrSet p w =>
    if live (mroots m) p
    then Ok (ONone, set_mptrs m (mroots m) (free_mptrs m) (upd (mvalue m) p w) (next_mptr m))
    else Ok (ONone, m)
  | TlabAcquire => let '(t, m) := tlab_acquire m in Ok (OId t, m)
  | TlabRelease t => if live (live_tlabs m) t then do! m <- tlab_release m t; Ok (ONone, m) else Ok (ONone, m)
  | TlabReset t => if live (live_tlabs m) t then do! m <- tlab_reset m t; Ok (ONone, m) else Ok (ONone, m)
  | TlabAlloc t size rs1 rs2 =>
    if live (live_tlabs m) t then do! (r, m) <- tlab_alloc m t size rs1 rs2; Ok (OWhere r, m) else Ok (ONone, m)
  | TlabWrite t k w =>
    if live (live_tlabs m) t
    then Ok (ONone, set_tlabs m (live_tlabs m) (free_tlabs m)
               (upd (tlabs m) t (Tlab (upd (tdata (tlabs m t)) k w) (talloc (tlabs m t)))) (next_tlab m))
    else Ok (ONone, m)
  end.

Fixpoint run (m : mspace) (os : list op) : res (list out * mspace) :=
  match os with
  | [] => Ok ([], m)
  | o :: os' => do! (x, m) <- step m o; do! (xs, m) <- run m os'; Ok (x :: xs, m)
  end.
