(* Model of locks and parking bays, src/thread.c:115-134 and 653-789.

   Any number of threads use any number of locks; a step is one atomic memory
   access, or one operation of the platform's mutexes and condition variables, of
   one thread, so a list of events is a schedule.  Memory is sequentially
   consistent.  Several locks may share a parking bay.  A thread that waits for a
   mutex stays where it is.  Waiting on a condition variable releases the mutex
   and sleeps in one step, and may end at any time without a broadcast. *)
From Coq Require Import List Arith Bool NArith.
From Verif Require Import Base.
Import ListNotations.

(* lock_bits_t, src/thread.c:119-122: IS_LOCKED is bit 0, HAS_PARKED bit 1. *)
Record bits := Bits { is_locked : bool; has_parked : bool }.
Definition bits_eqb (a b : bits) : bool :=
  Bool.eqb (is_locked a) (is_locked b) && Bool.eqb (has_parked a) (has_parked b).
Definition LOCKED : bits := Bits true false.
Definition BOTH : bits := Bits true true.
Definition ZERO : bits := Bits false false.

(* What a thread does next; the lock is that of the call in progress. *)
Inductive pc :=
| Idle
(* nvc_lock, src/thread.c:721-769 *)
| LFast (l : nat)                  (* compare-and-swap of the fast path *)
| LSpin (l : nat) (s : bits) (k : nat)  (* test of the loop, k spins done *)
| LMark (l : nat)                  (* set HAS_PARKED *)
| LTry (l : nat) (s : bits)        (* compare-and-swap after the lock was seen free *)
| LReload (l : nat)                (* load after parking *)
(* thread_park, src/thread.c:658-672 *)
| KMutex (l : nat)                 (* lock the bay's mutex *)
| KCheck (l : nat)                 (* the callback, then go to sleep *)
| KUnlock (l : nat)                (* unlock the bay's mutex *)
| KSleep (l : nat)                 (* asleep *)
| KWoken (l : nat)                 (* awake: must lock the mutex again *)
| KDec (l : nat)                   (* parked-- *)
(* nvc_unlock, src/thread.c:771-789 *)
| UFast (l : nat)
| UAssert (l : nat)
(* thread_unpark, src/thread.c:674-689 *)
| UMutex (l : nat)
| USet (l : nat)                   (* the callback releases the lock *)
| UUnlock (l : nat)
| UBcast (l : nat).

Record bay := Bay { mutex : option nat; parked : nat }.

(* [held t] lists the locks thread t got from nvc_lock and has not yet passed to
   nvc_unlock. *)
Record sys := Sys {
  lock : nat -> bits; bays : nat -> bay;
  pcs : nat -> pc; held : nat -> list nat }.

Definition init : sys := Sys (fun _ => ZERO) (fun _ => Bay None 0) (fun _ => Idle) (fun _ => []).

Definition set_pc (st : sys) (t : nat) (p : pc) : sys :=
  Sys (lock st) (bays st) (upd (pcs st) t p) (held st).
Definition set_lock (st : sys) (l : nat) (b : bits) : sys :=
  Sys (upd (lock st) l b) (bays st) (pcs st) (held st).
Definition set_bay (st : sys) (b : nat) (v : bay) : sys :=
  Sys (lock st) (upd (bays st) b v) (pcs st) (held st).
Definition set_held (st : sys) (t : nat) (ls : list nat) : sys :=
  Sys (lock st) (bays st) (pcs st) (upd (held st) t ls).
Definition remove1 (l : nat) (ls : list nat) : list nat := remove Nat.eq_dec l ls.

Section Machine.
Variable bay_of : nat -> nat.   (* parking_bay_for, src/thread.c:653-656 *)
Variable LOCK_SPINS : nat.

(* nvc_lock returns. *)
Definition acquired (st : sys) (t l : nat) : sys :=
  set_pc (set_held st t (l :: held st t)) t Idle.

Definition step (st : sys) (t : nat) : res sys :=
  match pcs st t with
  | Idle => Ok st
  | LFast l =>
    if bits_eqb (lock st l) ZERO then Ok (acquired (set_lock st l LOCKED) t l)
    else Ok (set_pc st t (LSpin l (lock st l) 0))
  | LSpin l s k =>
    if is_locked s then
      if k <? LOCK_SPINS then Ok (set_pc st t (LSpin l (lock st l) (S k)))
      else Ok (set_pc st t (LMark l))
    else Ok (set_pc st t (LTry l s))
  | LMark l =>
    if bits_eqb (lock st l) LOCKED then Ok (set_pc (set_lock st l BOTH) t (KMutex l))
    else Ok (set_pc st t (KMutex l))
  | LReload l =>
    let s := lock st l in
    if is_locked s then Ok (set_pc st t (LSpin l s 0)) else Ok (set_pc st t (LTry l s))
  | LTry l s =>
    if is_locked s then Fault
    else if bits_eqb (lock st l) s then
      Ok (acquired (set_lock st l (Bits true (has_parked s))) t l)
    else Ok (set_pc st t (LSpin l (lock st l) 0))
  | KMutex l =>
    let b := bays st (bay_of l) in
    match mutex b with
    | Some _ => Ok st
    | None => Ok (set_pc (set_bay st (bay_of l) (Bay (Some t) (parked b))) t (KCheck l))
    end
  | KCheck l =>
    let b := bays st (bay_of l) in
    if bits_eqb (lock st l) BOTH then
      Ok (set_pc (set_bay st (bay_of l) (Bay None (S (parked b)))) t (KSleep l))
    else Ok (set_pc st t (KUnlock l))
  | KSleep l => Ok st
  | KWoken l =>
    let b := bays st (bay_of l) in
    match mutex b with
    | Some _ => Ok st
    | None => Ok (set_pc (set_bay st (bay_of l) (Bay (Some t) (parked b))) t (KDec l))
    end
  | KDec l =>
    let b := bays st (bay_of l) in
    match parked b with
    | O => Fault
    | S n => Ok (set_pc (set_bay st (bay_of l) (Bay (mutex b) n)) t (KUnlock l))
    end
  | KUnlock l =>
    let b := bays st (bay_of l) in
    Ok (set_pc (set_bay st (bay_of l) (Bay None (parked b))) t (LReload l))
  | UFast l =>
    if bits_eqb (lock st l) LOCKED then Ok (set_pc (set_lock st l ZERO) t Idle)
    else Ok (set_pc st t (UAssert l))
  | UAssert l =>
    if bits_eqb (lock st l) BOTH then Ok (set_pc st t (UMutex l)) else Fault
  | UMutex l =>
    let b := bays st (bay_of l) in
    match mutex b with
    | Some _ => Ok st
    | None => Ok (set_pc (set_bay st (bay_of l) (Bay (Some t) (parked b))) t (USet l))
    end
  | USet l =>
    if bits_eqb (lock st l) BOTH then
      Ok (set_pc (set_lock st l (Bits false (0 <? parked (bays st (bay_of l))))) t (UUnlock l))
    else Fault
  | UUnlock l =>
    let b := bays st (bay_of l) in
    Ok (set_pc (set_bay st (bay_of l) (Bay None (parked b))) t (UBcast l))
  | UBcast l =>
    (* every thread asleep in the bay is woken *)
    Ok (set_pc (Sys (lock st) (bays st)
                  (fun u => match pcs st u with
                            | KSleep l' => if bay_of l' =? bay_of l then KWoken l' else KSleep l'
                            | p => p
                            end) (held st)) t Idle)
  end.

(* A schedule: an idle thread calls nvc_lock, or nvc_unlock on a lock it holds; a
   thread takes a step; a sleeping thread wakes up by itself. *)
Inductive event := CallLock (t l : nat) | CallUnlock (t l : nat) | Step (t : nat) | Wake (t : nat).

Definition do_event (st : sys) (e : event) : res sys :=
  match e with
  | CallLock t l => match pcs st t with Idle => Ok (set_pc st t (LFast l)) | _ => Ok st end
  | CallUnlock t l =>
    match pcs st t with
    | Idle => if in_dec Nat.eq_dec l (held st t)
              then Ok (set_pc (set_held st t (remove1 l (held st t))) t (UFast l)) else Ok st
    | _ => Ok st
    end
  | Step t => step st t
  | Wake t => match pcs st t with KSleep l => Ok (set_pc st t (KWoken l)) | _ => Ok st end
  end.

Fixpoint run (st : sys) (es : list event) : res sys :=
  match es with [] => Ok st | e :: es' => do! st <- do_event st e; run st es' end.
End Machine.
