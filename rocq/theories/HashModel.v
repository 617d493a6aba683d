(* Model of the sequential hash tables of src/hash.c: hash_t (pointer keys),
   shash_t (string keys), ihash_t (integer keys with a one-entry cache) and
   hset_t (set of pointers); ghash_t (user supplied hash and compare) is in
   GhashModel.v.

   Simplifications: a key is an element of an arbitrary type with decidable
   equality (pointer, string or integer), a NULL key slot is [None], a NULL
   value is [None]; the mixing of the hash code (mix_bits_64, DJB2 ...) is an
   arbitrary function [hash : K -> nat], so every collision pattern is covered;
   the occupancy bit mask of ihash_t is a [bool] per slot; memory management of
   the key copies is dropped.  The for(;;) probe loops get [size] iterations,
   running out of them is [Fault] (in C: an endless loop). *)
From Coq Require Import List Arith.
From Verif Require Import Base.
Import ListNotations.

Section Hash.
Context {K V : Type} (eqb : K -> K -> bool) (hash : K -> nat).

(* struct _hash, src/hash.c:28-33 (also struct _shash, src/hash.c:169-174). *)
Record tab : Type := Tab {
  tsize : nat;
  tmembers : nat;
  tkeys : nat -> option K;
  tvals : nat -> option V
}.

(* hash_slot, src/hash.c:35-39; shash_slot, src/hash.c:176-190; ihash_slot,
   src/hash.c:321-328: the hash code masked with size - 1. *)
Definition hash_slot (size : nat) (k : K) : nat := Nat.land (hash k) (size - 1).

(* slot = (slot + 1) & (h->size - 1) *)
Definition next_slot (size slot : nat) : nat := Nat.land (slot + 1) (size - 1).

(* hash_new, src/hash.c:41-52 (and shash_new, 192-203); [size] is already the
   result of next_power_of_2. *)
Definition hash_new (size : nat) : tab := Tab size 0 (fun _ => None) (fun _ => None).

Inductive probe_result := Found (slot : nat) | Empty (slot : nat).

(* The probe loops of hash_put (102-113), hash_delete (122-129) and hash_get
   (136-141): stop at the slot holding the key or at a NULL key. *)
Fixpoint probe (fuel : nat) (size : nat) (keys : nat -> option K) (slot : nat) (k : K)
  : res probe_result :=
  match fuel with
  | 0 => Fault
  | S f =>
    match keys slot with
    | Some k' => if eqb k' k then Ok (Found slot)
                 else probe f size keys (next_slot size slot) k
    | None => Ok (Empty slot)
    end
  end.

(* The inner loop of the rebuild in hash_put, src/hash.c:82-93: stop at a NULL
   key; meeting the same key is a failed assert. *)
Fixpoint rebuild_probe (fuel : nat) (size : nat) (keys : nat -> option K) (slot : nat) (k : K)
  : res nat :=
  match fuel with
  | 0 => Fault
  | S f =>
    match keys slot with
    | None => Ok slot
    | Some k' => if eqb k' k then Fault
                 else rebuild_probe f size keys (next_slot size slot) k
    end
  end.

Definition store (h : tab) (slot : nat) (k : K) (v : option V) : tab :=
  Tab (tsize h) (tmembers h + 1) (upd (tkeys h) slot (Some k)) (upd (tvals h) slot v).

(* The outer loop of the rebuild in hash_put, src/hash.c:80-95, from slot [i]
   with [todo] slots left: entries with a NULL key or a NULL value are
   dropped. *)
Fixpoint hash_rebuild (todo : nat) (old : tab) (i : nat) (h : tab) : res tab :=
  match todo with
  | 0 => Ok h
  | S t =>
    match tkeys old i, tvals old i with
    | Some k, Some v =>
      do! slot <- rebuild_probe (tsize h) (tsize h) (tkeys h) (hash_slot (tsize h) k) k;
      hash_rebuild t old (S i) (store h slot k (Some v))
    | _, _ => hash_rebuild t old (S i) h
    end
  end.

(* hash_put, src/hash.c:62-116. *)
Definition hash_put (h : tab) (k : K) (v : option V) : res (bool * tab) :=
  do! h <- (if tsize h / 2 <? tmembers h
            then hash_rebuild (tsize h) h 0 (hash_new (tsize h * 2))
            else Ok h);
  do! p <- probe (tsize h) (tsize h) (tkeys h) (hash_slot (tsize h) k) k;
  match p with
  | Found slot => Ok (true, Tab (tsize h) (tmembers h) (tkeys h) (upd (tvals h) slot v))
  | Empty slot => Ok (false, store h slot k v)
  end.

(* hash_delete, src/hash.c:118-130 (and shash_delete, 277-289). *)
Definition hash_delete (h : tab) (k : K) : res tab :=
  do! p <- probe (tsize h) (tsize h) (tkeys h) (hash_slot (tsize h) k) k;
  match p with
  | Found slot => Ok (Tab (tsize h) (tmembers h) (tkeys h) (upd (tvals h) slot None))
  | Empty _ => Ok h
  end.

(* hash_get, src/hash.c:132-142 (and shash_get, 265-275). *)
Definition hash_get (h : tab) (k : K) : res (option V) :=
  do! p <- probe (tsize h) (tsize h) (tkeys h) (hash_slot (tsize h) k) k;
  match p with
  | Found slot => Ok (tvals h slot)
  | Empty _ => Ok None
  end.

(* hash_iter, src/hash.c:144-159 (and shash_iter, 291-306): one call, from
   cursor [now]; [todo] bounds the while loop by the slots left.  [None] is
   the end of the iteration. *)
Fixpoint hash_iter (todo : nat) (h : tab) (now : nat) : option (nat * K * V) :=
  match todo with
  | 0 => None
  | S t =>
    match tkeys h now, tvals h now with
    | Some k, Some v => Some (S now, k, v)
    | _, _ => hash_iter t h (S now)
    end
  end.

(* The idiom "for (it = HASH_BEGIN; hash_iter(h, &it, &key, &value); ) ...":
   the pairs visited; [fuel] bounds the number of calls. *)
Fixpoint hash_iter_all (fuel : nat) (h : tab) (now : nat) : list (K * V) :=
  match fuel with
  | 0 => []
  | S f =>
    match hash_iter (tsize h - now) h now with
    | Some (now', k, v) => (k, v) :: hash_iter_all f h now'
    | None => []
    end
  end.

(* shash_put_copy, src/hash.c:219-235. *)
Definition shash_put_copy (h : tab) (k : K) (v : option V) : res tab :=
  do! p <- probe (tsize h) (tsize h) (tkeys h) (hash_slot (tsize h) k) k;
  match p with
  | Empty slot => Ok (store h slot k v)
  | Found slot => Ok (Tab (tsize h) (tmembers h) (tkeys h) (upd (tvals h) slot v))
  end.

(* The rebuild loop of shash_put, src/hash.c:254-257. *)
Fixpoint shash_rebuild (todo : nat) (old : tab) (i : nat) (h : tab) : res tab :=
  match todo with
  | 0 => Ok h
  | S t =>
    match tkeys old i with
    | Some k =>
      do! h' <- shash_put_copy h k (tvals old i);
      shash_rebuild t old (S i) h'
    | None => shash_rebuild t old (S i) h
    end
  end.

(* shash_put, src/hash.c:237-263. *)
Definition shash_put (h : tab) (k : K) (v : option V) : res tab :=
  do! h <- (if tsize h / 2 <? tmembers h
            then shash_rebuild (tsize h) h 0 (hash_new (tsize h * 2))
            else Ok h);
  shash_put_copy h k v.

(* ihash_t, src/hash.c:311-319: the table plus the cache of the last key
   looked up or stored.  The cache fields are uninitialised after ihash_new. *)
Record itab : Type := ITab {
  it : tab;
  icachekey : K;
  icacheval : option V
}.

(* ihash_new, src/hash.c:330-348. *)
Definition ihash_new (size : nat) (junk_key : K) (junk_val : option V) : itab :=
  ITab (hash_new size) junk_key junk_val.

(* ihash_put, src/hash.c:358-410; [depth] bounds the recursion through the
   rebuild, src/hash.c:383-386. *)
Fixpoint ihash_put (depth : nat) (h : itab) (k : K) (v : option V) : res itab :=
  match depth with
  | 0 => Fault
  | S d =>
    do! h <-
      (if tsize (it h) / 2 <? tmembers (it h) then
         (fix rebuild (todo : nat) (i : nat) (h' : itab) : res itab :=
            match todo with
            | 0 => Ok h'
            | S t =>
              match tkeys (it h) i with
              | Some k' =>
                do! h'' <- ihash_put d h' k' (tvals (it h) i);
                rebuild t (S i) h''
              | None => rebuild t (S i) h'
              end
            end) (tsize (it h)) 0
           (ITab (hash_new (tsize (it h) * 2)) (icachekey h) (icacheval h))
       else Ok h);
    let t := it h in
    do! p <- probe (tsize t) (tsize t) (tkeys t) (hash_slot (tsize t) k) k;
    match p with
    | Empty slot => Ok (ITab (store t slot k v) k v)
    | Found slot =>
      Ok (ITab (Tab (tsize t) (tmembers t) (tkeys t) (upd (tvals t) slot v)) k v)
    end
  end.

(* ihash_get, src/hash.c:412-427. *)
Definition ihash_get (h : itab) (k : K) : res (option V * itab) :=
  if andb (0 <? tmembers (it h)) (eqb k (icachekey h)) then Ok (icacheval h, h)
  else
    let t := it h in
    do! p <- probe (tsize t) (tsize t) (tkeys t) (hash_slot (tsize t) k) k;
    match p with
    | Empty _ => Ok (None, ITab t k None)
    | Found slot => Ok (tvals t slot, ITab t k (tvals t slot))
    end.

(* struct _hset, src/hash.c:432-436. *)
Record hset : Type := HSet {
  ssize : nat;
  smembers : nat;
  skeys : nat -> option K
}.

(* hset_new, src/hash.c:438-446. *)
Definition hset_new (size : nat) : hset := HSet size 0 (fun _ => None).

(* hset_insert, src/hash.c:456-486; [depth] bounds the recursion. *)
Fixpoint hset_insert (depth : nat) (h : hset) (k : K) : res hset :=
  match depth with
  | 0 => Fault
  | S d =>
    do! h <-
      (if ssize h / 2 <? smembers h then
         (fix rebuild (todo : nat) (i : nat) (h' : hset) : res hset :=
            match todo with
            | 0 => Ok h'
            | S t =>
              match skeys h i with
              | Some k' =>
                do! h'' <- hset_insert d h' k';
                rebuild t (S i) h''
              | None => rebuild t (S i) h'
              end
            end) (ssize h) 0 (hset_new (ssize h * 2))
       else Ok h);
    do! p <- probe (ssize h) (ssize h) (skeys h) (hash_slot (ssize h) k) k;
    match p with
    | Found _ => Ok h
    | Empty slot => Ok (HSet (ssize h) (smembers h + 1) (upd (skeys h) slot (Some k)))
    end
  end.

(* hset_contains, src/hash.c:488-498. *)
Definition hset_contains (h : hset) (k : K) : res bool :=
  do! p <- probe (ssize h) (ssize h) (skeys h) (hash_slot (ssize h) k) k;
  match p with Found _ => Ok true | Empty _ => Ok false end.

(* A client of one table. *)
Inductive map_op : Type :=
| MapPut (k : K) (v : option V)
| MapDelete (k : K)
| MapGet (k : K)
| MapIter.

Inductive map_out : Type :=
| MpUnit
| MpBool (b : bool)
| MpVal (v : option V)
| MpPairs (l : list (K * V)).

Definition hash_step (h : tab) (op : map_op) : res (map_out * tab) :=
  match op with
  | MapPut k v => do! (b, h') <- hash_put h k v; Ok (MpBool b, h')
  | MapDelete k => do! h' <- hash_delete h k; Ok (MpUnit, h')
  | MapGet k => do! v <- hash_get h k; Ok (MpVal v, h)
  | MapIter => Ok (MpPairs (hash_iter_all (S (tsize h)) h 0), h)
  end.

Definition shash_step (h : tab) (op : map_op) : res (map_out * tab) :=
  match op with
  | MapPut k v => do! h' <- shash_put h k v; Ok (MpUnit, h')
  | MapDelete k => do! h' <- hash_delete h k; Ok (MpUnit, h')
  | MapGet k => do! v <- hash_get h k; Ok (MpVal v, h)
  | MapIter => Ok (MpPairs (hash_iter_all (S (tsize h)) h 0), h)
  end.

(* ihash has neither delete nor iteration: those calls are ignored. *)
Definition ihash_step (h : itab) (op : map_op) : res (map_out * itab) :=
  match op with
  | MapPut k v => do! h' <- ihash_put 2 h k v; Ok (MpUnit, h')
  | MapGet k => do! (v, h') <- ihash_get h k; Ok (MpVal v, h')
  | _ => Fault
  end.

Fixpoint run_ops {S : Type} (step : S -> map_op -> res (map_out * S)) (s : S)
  (ops : list map_op) : res (list map_out * S) :=
  match ops with
  | [] => Ok ([], s)
  | op :: ops' =>
    do! (o, s1) <- step s op;
    do! (os, s2) <- run_ops step s1 ops';
    Ok (o :: os, s2)
  end.

Inductive set_op : Type := SetInsert (k : K) | SetContains (k : K).

Definition hset_step (h : hset) (op : set_op) : res (option bool * hset) :=
  match op with
  | SetInsert k => do! h' <- hset_insert 2 h k; Ok (None, h')
  | SetContains k => do! b <- hset_contains h k; Ok (Some b, h)
  end.

Fixpoint hset_run (h : hset) (ops : list set_op) : res (list (option bool) * hset) :=
  match ops with
  | [] => Ok ([], h)
  | op :: ops' =>
    do! (o, h1) <- hset_step h op;
    do! (os, h2) <- hset_run h1 ops';
    Ok (o :: os, h2)
  end.

End Hash.
Arguments tab : clear implicits.
Arguments itab : clear implicits.
Arguments hset : clear implicits.
Arguments map_op : clear implicits.
Arguments map_out : clear implicits.
Arguments set_op : clear implicits.
