(* Model of the concurrent identifier table, src/ident.c:37-269.

   Any number of threads create identifiers; a step of the machine is one atomic
   memory access of one thread, so a list of events is a schedule.  Atomic
   accesses are sequentially consistent.  Memory is not reused: async_free keeps
   an old table until no thread can hold it, and an identifier that loses the
   race to be installed is freed before anyone saw it, so a handle is allocated
   here when it is installed.  A failed assertion or fatal_trace is [Fault].

   The hash function is a parameter of the machine. *)
From Coq Require Import List NArith Arith Bool.
From Verif Require Import Base.
Import ListNotations.

Definition bytes := list N.
Definition beq (a b : bytes) : bool := if list_eq_dec N.eq_dec a b then true else false.

(* INITIAL_SIZE, REPROBE_LIMIT: src/ident.c:39-40. *)
Definition INITIAL_SIZE : nat := N.to_nat 1024.
Definition REPROBE_LIMIT : nat := 20.

(* A slot: a handle or NULL, and the MOVED_TAG bit. *)
Definition slot := (option nat * bool)%type.
(* ident_tab_t, src/ident.c:68-71; sizes are powers of two, so masking with
   size - 1 is the remainder. *)
Record tab := Tab { tsize : nat; tslot : nat -> slot }.

(* What a thread is about to do, with the identifier it wants ([uniq] as in
   ident_from_byte_vec). *)
Inductive pc :=
| Idle
| GetTab (b : bytes) (u : bool)
| InitCas (b : bytes) (u : bool)
| InitFin (b : bytes) (u : bool) (n : nat)
| Probe (b : bytes) (u : bool) (c i s : nat)
| Install (b : bytes) (u : bool) (c s : nat)
| GrowCas (b : bytes) (u : bool) (c : nat)
| CopyLoad (b : bytes) (u : bool) (c n i : nat)
| CopyProbe (b : bytes) (u : bool) (c n i x s j : nat)
| CopyCas (b : bytes) (u : bool) (c n i : nat) (ov : option nat)
| Finish (b : bytes) (u : bool) (c n : nat)
| Wait0 (b : bytes) (u : bool)
| Wait1 (b : bytes) (u : bool) (from : option nat).

(* A completed request. *)
Record entry := Entry { e_thread : nat; e_bytes : bytes; e_uniq : bool; e_result : option nat }.

Record sys := Sys {
  tabs : nat -> tab; ntabs : nat;          (* allocated tables *)
  table : option nat; resizing : option nat;
  ids : list bytes;                        (* characters of each handle *)
  pcs : nat -> pc;
  log : list entry }.                      (* newest first *)

Definition init : sys :=
  Sys (fun _ => Tab 0 (fun _ => (None, false))) 0 None None [] (fun _ => Idle) [].

Definition opt_eqb (a b : option nat) : bool :=
  match a, b with Some x, Some y => Nat.eqb x y | None, None => true | _, _ => false end.

Definition set_pc (st : sys) (t : nat) (p : pc) : sys :=
  Sys (tabs st) (ntabs st) (table st) (resizing st) (ids st) (upd (pcs st) t p) (log st).
Definition finish_req (st : sys) (t : nat) (b : bytes) (u : bool) (r : option nat) : sys :=
  Sys (tabs st) (ntabs st) (table st) (resizing st) (ids st) (upd (pcs st) t Idle)
      (Entry t b u r :: log st).
Definition set_slot (st : sys) (c s : nat) (v : slot) : sys :=
  Sys (upd (tabs st) c (Tab (tsize (tabs st c)) (upd (tslot (tabs st c)) s v)))
      (ntabs st) (table st) (resizing st) (ids st) (pcs st) (log st).
Definition set_table (st : sys) (v : option nat) : sys :=
  Sys (tabs st) (ntabs st) v (resizing st) (ids st) (pcs st) (log st).
Definition set_resizing (st : sys) (v : option nat) : sys :=
  Sys (tabs st) (ntabs st) (table st) v (ids st) (pcs st) (log st).
Definition new_tab (st : sys) (size : nat) : sys :=
  Sys (upd (tabs st) (ntabs st) (Tab size (fun _ => (None, false)))) (S (ntabs st))
      (table st) (resizing st) (ids st) (pcs st) (log st).
Definition add_id (st : sys) (b : bytes) : sys :=
  Sys (tabs st) (ntabs st) (table st) (resizing st) (ids st ++ [b]) (pcs st) (log st).
Definition bytes_of (st : sys) (x : nat) : bytes := nth x (ids st) [].

Section Machine.
Variable hash : bytes -> N.

(* slot = hash & (size - 1) *)
Definition first_slot (b : bytes) (size : nat) : nat := N.to_nat (hash b mod N.of_nat size)%N.

(* One step of thread [t]. *)
Definition step (st : sys) (t : nat) : res sys :=
  match pcs st t with
  | Idle => Ok st
  (* get_table, src/ident.c:167-186 *)
  | GetTab b u =>
    match table st with
    | None => Ok (set_pc st t (InitCas b u))
    | Some c => Ok (set_pc st t (Probe b u c 1 (first_slot b (tsize (tabs st c)))))
    end
  | InitCas b u =>
    if opt_eqb (resizing st) None then
      let n := ntabs st in
      Ok (set_pc (set_resizing (new_tab st INITIAL_SIZE) (Some n)) t (InitFin b u n))
    else Ok (set_pc st t (Wait0 b u))
  (* finish_resizing, src/ident.c:157-165 *)
  | InitFin b u n =>
    if negb (opt_eqb (resizing st) (Some n)) then Fault
    else if opt_eqb (table st) None then
      Ok (set_pc (set_table st (Some n)) t (Probe b u n 1 (first_slot b (tsize (tabs st n)))))
    else Fault
  (* the loop of ident_from_bytes and ident_from_byte_vec, src/ident.c:204-292;
     ++reprobe equals i, which also counts the probes.  The first function also
     compares the hashes, which are equal when the characters are. *)
  | Probe b u c i s =>
    match tslot (tabs st c) s with
    | (_, true) => Ok (set_pc st t (Wait0 b u))
    | (None, false) => Ok (set_pc st t (Install b u c s))
    | (Some x, false) =>
      if beq (bytes_of st x) b then Ok (finish_req st t b u (if u then None else Some x))
      else if i =? REPROBE_LIMIT then Ok (set_pc st t (GrowCas b u c))
      else Ok (set_pc st t (Probe b u c (S i) ((s + i) mod tsize (tabs st c))))
    end
  (* ident_install, src/ident.c:102-113 *)
  | Install b u c s =>
    match tslot (tabs st c) s with
    | (None, false) =>
      let x := length (ids st) in
      Ok (finish_req (set_slot (add_id st b) c s (Some x, false)) t b u (Some x))
    | _ => Ok (set_pc st t (GetTab b u))
    end
  (* grow_table, src/ident.c:188-202 *)
  | GrowCas b u c =>
    if opt_eqb (resizing st) (Some c) then
      let n := ntabs st in
      Ok (set_pc (set_resizing (new_tab st (2 * tsize (tabs st c))) (Some n)) t (CopyLoad b u c n 0))
    else Ok (set_pc st t (Wait0 b u))
  (* copy_table, src/ident.c:115-142 *)
  | CopyLoad b u c n i =>
    if i =? tsize (tabs st c) then Ok (set_pc st t (Finish b u c n))
    else
      match tslot (tabs st c) i with
      | (_, true) => Fault
      | (None, false) => Ok (set_pc st t (CopyCas b u c n i None))
      | (Some x, false) =>
        Ok (set_pc st t (CopyProbe b u c n i x (first_slot (bytes_of st x) (tsize (tabs st n))) 1))
      end
  | CopyProbe b u c n i x s j =>
    match tslot (tabs st n) s with
    | (None, false) => Ok (set_pc (set_slot st n s (Some x, false)) t (CopyCas b u c n i (Some x)))
    | (e, _) =>
      if opt_eqb e (Some x) then Fault
      else Ok (set_pc st t (CopyProbe b u c n i x ((s + j) mod tsize (tabs st n)) (S j)))
    end
  | CopyCas b u c n i ov =>
    match tslot (tabs st c) i with
    | (v, false) =>
      if opt_eqb v ov then Ok (set_pc (set_slot st c i (v, true)) t (CopyLoad b u c n (S i)))
      else Ok (set_pc st t (CopyLoad b u c n i))
    | _ => Ok (set_pc st t (CopyLoad b u c n i))
    end
  | Finish b u c n =>
    if negb (opt_eqb (resizing st) (Some n)) then Fault
    else if opt_eqb (table st) (Some c) then Ok (set_pc (set_table st (Some n)) t (GetTab b u))
    else Fault
  (* wait_for_resize, src/ident.c:144-155 *)
  | Wait0 b u => Ok (set_pc st t (Wait1 b u (table st)))
  | Wait1 b u from =>
    if opt_eqb from (resizing st) then Ok (set_pc st t (GetTab b u))
    else Ok (set_pc st t (Wait0 b u))
  end.

(* A schedule: an idle thread begins a request, or a thread takes a step. *)
Inductive event := Start (t : nat) (b : bytes) (u : bool) | Step (t : nat).

Definition do_event (st : sys) (e : event) : res sys :=
  match e with
  | Start t b u => match pcs st t with Idle => Ok (set_pc st t (GetTab b u)) | _ => Ok st end
  | Step t => step st t
  end.

Fixpoint run (st : sys) (es : list event) : res sys :=
  match es with
  | [] => Ok st
  | e :: es' => do! st <- do_event st e; run st es'
  end.
End Machine.

(* ---- the hash function of the code ---- *)

(* hash_update, src/ident.c:76-89: DJB2; char is signed. *)
Definition W32 : N := 4294967296.
Definition sext (b : N) : N := if (b <? 128)%N then b else (b + (W32 - 256))%N.
Fixpoint hash_update (h : N) (bs : bytes) : N :=
  match bs with
  | [] => h
  | b :: bs' => if (b =? 0)%N then h else hash_update (((N.shiftl h 5 + h + sext b) mod W32)%N) bs'
  end.

(* mix_bits_32, src/util.h:180-185. *)
Definition mix_bits_32 (n : N) : N :=
  let n := (n * 3432918353 mod W32)%N in
  let n := N.lor (N.shiftl n 15 mod W32) (N.shiftr n 17) in
  (n * 461845907 mod W32)%N.

Definition djb2 (b : bytes) : N := mix_bits_32 (hash_update 5381 b).
