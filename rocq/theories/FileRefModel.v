(* The table of source files of a process.  A name is the list of its bytes,
   none of them zero. *)

From Coq Require Import NArith List Bool Arith.
Import ListNotations.

Definition SLASH : N := 47.

Fixpoint bytes_eqb (a b : list N) : bool :=
  match a, b with
  | [], [] => true
  | x :: a', y :: b' => (x =? y)%N && bytes_eqb a' b'
  | _, _ => false
  end.

(* The loop of loc_file_ref, src/diag.c 137-141: a slash is dropped when the
   next byte is one. *)
Fixpoint strip (name : list N) : list N :=
  match name with
  | [] => []
  | c :: rest =>
      if (negb (c =? SLASH) || negb (match rest with d :: _ => d =? SLASH | [] => false end))%N
      then c :: strip rest else strip rest
  end.

(* loc_file_ref, 130-133: the first entry of that name.  The ref of an entry is
   its index, 143-149. *)
Fixpoint lookup (files : list (list N)) (name : list N) : option nat :=
  match files with
  | [] => None
  | f :: rest => if bytes_eqb f name then Some 0 else option_map S (lookup rest name)
  end.

(* file_ref_t is a uint16_t, src/diag.h 33. *)
Definition ref16 (i : nat) : N := (N.of_nat i mod 65536)%N.

(* loc_file_ref, 125-152, for a name that is not NULL.  The reference and the
   table after the call. *)
Definition file_ref (files : list (list N)) (name : list N) : N * list (list N) :=
  match lookup files name with
  | Some i => (ref16 i, files)
  | None => (ref16 (length files), files ++ [strip name])
  end.

Fixpoint file_refs (files : list (list N)) (names : list (list N)) : list (list N) :=
  match names with
  | [] => files
  | n :: rest => file_refs (snd (file_ref files n)) rest
  end.

(* loc_file_data and loc_file_str, 120-123 and 154-160. *)
Definition file_str (files : list (list N)) (ref : N) : option (list N) :=
  nth_error files (N.to_nat ref).
