(* Names of user-defined cover points and scopes: src/rt/cover.c 336-485. *)

From Coq Require Import ZArith NArith List Bool Arith.
From Verif Require Import Base.
Import ListNotations.

(* Characters as bytes 0..255. *)
Definition str := list N.

(* isalpha_iso88591 and isalnum_iso88591, src/util.c 1184-1197. *)
Definition between (lo hi c : N) : bool := ((lo <=? c) && (c <=? hi))%N.
Definition isalpha (c : N) : bool :=
  between 65 90 c || between 97 122 c || between 192 214 c || between 216 222 c
  || between 224 246 c || between 248 254 c.
Definition isalnum (c : N) : bool := isalpha c || between 48 57 c.

(* printf's %u of a number; the fuel is enough. *)
Fixpoint digits (fuel : nat) (n : N) (acc : str) : str :=
  match fuel with
  | 0 => acc
  | S f =>
      let acc := (48 + n mod 10)%N :: acc in
      if (n <? 10)%N then acc else digits f (n / 10)%N acc
  end.
Definition decimal (n : N) : str := digits (S (N.to_nat (N.log2 n))) n [].

(* printf's %d. *)
Definition decimal_signed (z : Z) : str :=
  if (z <? 0)%Z then 45%N :: decimal (Z.to_N (- z)) else decimal (Z.to_N z).

(* char is signed. *)
Definition as_char (c : N) : Z := if (c <? 128)%N then Z.of_N c else (Z.of_N c - 256)%Z.

(* sanitise_name, 336-345. *)
Fixpoint sanitise (bytes : str) : str :=
  match bytes with
  | [] => []
  | ch :: rest =>
      (if isalnum ch || (ch =? 95)%N then [ch]
       else [38; 35]%N ++ decimal_signed (as_char ch) ++ [59]%N) ++ sanitise rest
  end.

Definition str_eqb (a b : str) : bool := if list_eq_dec N.eq_dec a b then true else false.

(* The loops at 377-383 and 445-451: base is what the buffer holds at first,
   tb what it holds now. *)
Fixpoint dedup (base : str) (existing : list str) (dup : N) (tb : str) : str :=
  match existing with
  | [] => tb
  | e :: rest =>
      if str_eqb e tb
      then dedup base rest (dup + 1) (base ++ 35%N :: decimal (dup + 1))
      else dedup base rest dup tb
  end.

(* _nvc_add_cover_item, 417-484, as far as the name goes: the names of the
   items of the scope, the prefix being the name of the scope and a dot.  An
   empty name is an error. *)
Definition add_item (hier : str) (items : list str) (name : str) : res (list str) :=
  match name with
  | [] => Fault
  | _ => let base := hier ++ 46%N :: sanitise name in
         Ok (items ++ [dedup base items 0 base])
  end.

Fixpoint add_items (hier : str) (items : list str) (names : list str) : res (list str) :=
  match names with
  | [] => Ok items
  | n :: rest => do! items' <- add_item hier items n; add_items hier items' rest
  end.

(* _nvc_create_cover_scope, 348-388, and _nvc_set_cover_scope_name, 391-414,
   on the names of the children of the instance.  A scope that has items
   cannot be renamed; the operation names a scope without items by its
   position. *)
Inductive scope_op := Create (name : str) | Rename (which : nat) (name : str).

Fixpoint set_name (l : list str) (k : nat) (x : str) : list str :=
  match l, k with
  | [], _ => []
  | _ :: r, 0 => x :: r
  | y :: r, S k' => y :: set_name r k' x
  end.

Definition scope_step (children : list str) (o : scope_op) : res (list str) :=
  match o with
  | Create [] | Rename _ [] => Fault
  | Create name => let base := sanitise name in
                   Ok (children ++ [dedup base children 0 base])
  | Rename k name => Ok (set_name children k (sanitise name))
  end.

Fixpoint scope_run (children : list str) (os : list scope_op) : res (list str) :=
  match os with
  | [] => Ok children
  | o :: rest => do! c <- scope_step children o; scope_run c rest
  end.
