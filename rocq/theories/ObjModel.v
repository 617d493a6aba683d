(* Objects of a design unit: which items they have, how large they are, and how
   their kind changes (src/object.c, src/object.h). *)

From Coq Require Import ZArith NArith List Bool Arith.
From Verif Require Import Base NumberModel CoverModel.
Import ListNotations.
Local Open Scope nat_scope.

(* What an item holds, by its bit: the masks of src/object.c 68-87 with the
   numbers of src/object.h 40-94. *)
Inductive ityp := TIdent | TObject | TArray | TInt | TDouble | TText | TNumber.

Definition ITEM_IDENT : list nat := [0; 9].
Definition ITEM_OBJECT : list nat :=
  [1; 10; 54; 7; 17; 18; 20; 21; 28; 31; 38; 51; 52; 15; 34; 35; 36; 39; 2; 45; 32; 48].
Definition ITEM_OBJ_ARRAY : list nat :=
  [5; 6; 4; 3; 13; 14; 24; 12; 11; 22; 23; 41; 43; 40; 47; 42; 27; 33; 25; 29].
Definition ITEM_INT64 : list nat := [19; 8].
Definition ITEM_INT32 : list nat := [16; 26; 49].
Definition ITEM_DOUBLE : list nat := [30].
Definition ITEM_TEXT : list nat := [50].
Definition ITEM_NUMBER : list nat := [53].

Definition is_in (l : list nat) (b : nat) : bool := existsb (Nat.eqb b) l.

(* The chain of tests in object_write, 854-883.  None is should_not_reach_here. *)
Definition type_of_bit (b : nat) : option ityp :=
  if is_in ITEM_IDENT b then Some TIdent
  else if is_in ITEM_OBJECT b then Some TObject
  else if is_in ITEM_OBJ_ARRAY b then Some TArray
  else if is_in ITEM_INT64 b then Some TInt
  else if is_in ITEM_INT32 b then Some TInt
  else if is_in ITEM_DOUBLE b then Some TDouble
  else if is_in ITEM_TEXT b then Some TText
  else if is_in ITEM_NUMBER b then Some TNumber
  else None.

(* An object is known by the key of its arena and its index in units of
   OBJECT_ALIGN bytes. *)
Definition oref : Type := (nat * nat)%type.

(* item_t, src/object.h 143-151: the member that the bit of the item selects. *)
Inductive item :=
| VIdent (i : option ident)
| VObject (o : option oref)
| VArray (a : option (list (option oref)))
| VInt (z : Z)
| VDouble (d : N)                  (* its 64 bits *)
| VText (t : option (list N))
| VNumber (n : option number).

(* Eight zero bytes. *)
Definition zero_item (t : option ityp) : item :=
  match t with
  | Some TIdent => VIdent None
  | Some TObject | None => VObject None
  | Some TArray => VArray None
  | Some TInt => VInt 0
  | Some TDouble => VDouble 0
  | Some TText => VText None
  | Some TNumber => VNumber None
  end.

(* __builtin_popcountll. *)
Definition popcount (x : N) : nat := length (filter (fun b => N.testbit x (N.of_nat b)) (seq 0 64)).

(* object_class_t, src/object.h 210-221; has_map is indexed by the kind. *)
Record class := Class {
  c_has : list N;
  c_change : list (nat * nat);
  c_roots : list nat;
  c_loc : bool }.

Definition has_map (c : class) (kind : nat) : N := nth kind (c_has c) 0%N.

(* ---- sizes: object_init, src/object.c 331-372 ---- *)

(* 344-346: sizeof(object_t) is 16, sizeof(item_t) is 8. *)
Definition first_sizes (c : class) : list nat := map (fun h => 16 + popcount h * 8) (c_has c).

Definition size_of (sizes : list nat) (k : nat) : nat := nth k sizes 0.

Definition set_size (sizes : list nat) (k v : nat) : list nat :=
  firstn k sizes ++ v :: skipn (S k) sizes.

(* 357-365 *)
Definition max_size (changes : list (nat * nat)) (sizes : list nat) (i : nat) : nat :=
  fold_left (fun m p => if fst p =? i then Nat.max m (size_of sizes (snd p))
                        else if snd p =? i then Nat.max m (size_of sizes (fst p))
                        else m) changes (size_of sizes i).

(* 356-371, for the kinds from i on. *)
Fixpoint size_pass (changes : list (nat * nat)) (kinds : list nat) (sizes : list nat) (changed : bool)
    : list nat * bool :=
  match kinds with
  | [] => (sizes, changed)
  | i :: rest =>
      let m := max_size changes sizes i in
      if m =? size_of sizes i then size_pass changes rest sizes changed
      else size_pass changes rest (set_size sizes i m) true
  end.

(* 353-372: until nothing changes. *)
Fixpoint size_loop (fuel : nat) (changes : list (nat * nat)) (sizes : list nat) : res (list nat) :=
  match fuel with
  | 0 => Fault
  | S f =>
      let '(s, changed) := size_pass changes (seq 0 (length sizes)) sizes false in
      if changed then size_loop f changes s else Ok s
  end.

Definition object_init (c : class) : res (list nat) :=
  let s := first_sizes c in
  size_loop (S (length s * fold_right Nat.max 0 s)) (c_change c) s.

(* ---- items ---- *)

(* The memory behind the header: the items of the kind come first. *)
Record object := Obj { o_kind : nat; o_tag : nat; o_loc : loc; o_items : list item }.

(* How many items fit in an object of that many bytes. *)
Definition room (size : nat) : nat := (size - 16) / 8.

(* lookup_item, src/object.h 110-122. *)
Definition slot (has : N) (bit : nat) : nat := popcount (N.land has (N.shiftl 1 (N.of_nat bit) - 1)).

Definition lookup_item (has : N) (items : list item) (bit : nat) : res item :=
  if N.testbit has (N.of_nat bit)
  then match nth_error items (slot has bit) with Some i => Ok i | None => Fault end
  else Fault.

(* ---- object_change_kind, 288-329 ---- *)

Definition put_item (items : list item) (n : nat) (v : item) : res (list item) :=
  if n <? length items then Ok (firstn n items ++ v :: skipn (S n) items) else Fault.

(* The loop of 315-326 over the bits that are left. *)
Fixpoint change_loop (bits : list nat) (old new : N) (tmp : list item) (op np n : nat)
    (items : list item) : res (list item) :=
  if n <=? np then Ok items
  else
    match bits with
    | [] => Fault
    | b :: rest =>
        let o := N.testbit old (N.of_nat b) in
        let w := N.testbit new (N.of_nat b) in
        if o && w then
          match nth_error tmp op with
          | None => Fault
          | Some v =>
              do! items <- put_item items np v;
              change_loop rest old new tmp (S op) (S np) n items
          end
        else if o then change_loop rest old new tmp (S op) np n items
        else if w then
          do! items <- put_item items np (zero_item (type_of_bit b));
          change_loop rest old new tmp op (S np) n items
        else change_loop rest old new tmp op np n items
    end.

Definition change_kind (c : class) (o : object) (kind : nat) : res object :=
  if kind =? o_kind o then Ok o
  else if negb (existsb (fun p => (fst p =? o_kind o) && (snd p =? kind)) (c_change c)) then Fault
  else
    let old := has_map c (o_kind o) in
    let new := has_map c kind in
    let max := Nat.max (popcount old) (popcount new) in
    if length (o_items o) <? max then Fault
    else
      do! items <- change_loop (seq 0 64) old new (firstn max (o_items o)) 0 0 (popcount new) (o_items o);
      Ok (Obj kind (o_tag o) (o_loc o) items).
