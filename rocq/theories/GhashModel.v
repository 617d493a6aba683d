(* Model of the generic hash table ghash_t, src/hash.c:812-915, whose hash and
   comparison functions are supplied by the user.  Same conventions as
   HashModel.v; the test "keys[slot] == key || cmp_fn(keys[slot], key)" is the
   function [cmp] (which therefore has to be reflexive). *)
From Coq Require Import List Arith.
From Verif Require Import Base HashModel.
Import ListNotations.

Section Ghash.
Context {K V : Type} (cmp : K -> K -> bool) (hash : K -> nat).

(* The probe loop of ghash_put, src/hash.c:876-888: a matching key gets the new
   value but the loop goes on until a NULL key, where the key is stored as
   well. *)
Fixpoint gput_loop (fuel : nat) (h : tab K V) (slot : nat) (k : K) (v : option V)
  : res (tab K V) :=
  match fuel with
  | 0 => Fault
  | S f =>
    match tkeys h slot with
    | None => Ok (store h slot k v)
    | Some k' =>
      if cmp k' k
      then gput_loop f (Tab (tsize h) (tmembers h) (tkeys h) (upd (tvals h) slot v))
                     (next_slot (tsize h) slot) k v
      else gput_loop f h (next_slot (tsize h) slot) k v
    end
  end.

(* ghash_put, src/hash.c:852-889; [depth] bounds the recursion through the
   rebuild. *)
Fixpoint ghash_put (depth : nat) (h : tab K V) (k : K) (v : option V) : res (tab K V) :=
  match depth with
  | 0 => Fault
  | S d =>
    do! h <-
      (if tsize h / 2 <? tmembers h then
         (fix rebuild (todo : nat) (i : nat) (h' : tab K V) : res (tab K V) :=
            match todo with
            | 0 => Ok h'
            | S t =>
              match tkeys h i with
              | Some k' =>
                do! h'' <- ghash_put d h' k' (tvals h i);
                rebuild t (S i) h''
              | None => rebuild t (S i) h'
              end
            end) (tsize h) 0 (hash_new (tsize h * 2))
       else Ok h);
    gput_loop (tsize h) h (hash_slot hash (tsize h) k) k v
  end.

(* ghash_get, src/hash.c:891-901. *)
Definition ghash_get (h : tab K V) (k : K) : res (option V) :=
  do! p <- probe cmp (tsize h) (tsize h) (tkeys h) (hash_slot hash (tsize h) k) k;
  match p with
  | Found slot => Ok (tvals h slot)
  | Empty _ => Ok None
  end.

(* ghash_delete, src/hash.c:903-915, for a compare function that answers false
   on a NULL key (the code compares before testing for NULL). *)
Definition ghash_delete (h : tab K V) (k : K) : res (tab K V) :=
  do! p <- probe cmp (tsize h) (tsize h) (tkeys h) (hash_slot hash (tsize h) k) k;
  match p with
  | Found slot => Ok (Tab (tsize h) (tmembers h) (tkeys h) (upd (tvals h) slot None))
  | Empty _ => Ok h
  end.

(* ghash has no iteration. *)
Definition ghash_step (h : tab K V) (op : map_op K V) : res (map_out K V * tab K V) :=
  match op with
  | MapPut k v => do! h' <- ghash_put 2 h k v; Ok (MpUnit, h')
  | MapDelete k => do! h' <- ghash_delete h k; Ok (MpUnit, h')
  | MapGet k => do! v <- ghash_get h k; Ok (MpVal v, h)
  | MapIter => Fault
  end.
End Ghash.
