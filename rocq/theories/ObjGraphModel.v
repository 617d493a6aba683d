(* Objects that refer to each other: traversal (object_visit) and removal of the
   unreachable ones when an arena is frozen (object_arena_gc), src/object.c. *)

From Coq Require Import ZArith NArith List Bool Arith.
From Verif Require Import Base NumberModel CoverModel ObjModel.
Import ListNotations.
Local Open Scope nat_scope.

(* classes[], 100, indexed by tag: the class and class->object_size. *)
Record registry := Registry { reg_class : list class; reg_sizes : list (list nat) }.

Definition class0 : class := Class [] [] [] false.
Definition class_of (rg : registry) (tag : nat) : class := nth tag (reg_class rg) class0.
Definition obj_has (rg : registry) (o : object) : N := has_map (class_of rg (o_tag o)) (o_kind o).

(* ALIGN_UP(class->object_size[kind], OBJECT_ALIGN), 468, in units of OBJECT_ALIGN
   (16, src/object.h 104-105). *)
Definition units (rg : registry) (o : object) : nat :=
  (size_of (nth (o_tag o) (reg_sizes rg) []) (o_kind o) + 15) / 16.

(* object_new, 452-500: objects lie one behind the other.  The walk over an arena
   (for instance 556-568) meets them with these indexes. *)
Fixpoint place (rg : registry) (at_ : nat) (objs : list object) : list (nat * object) :=
  match objs with
  | [] => []
  | o :: rest => (at_, o) :: place rg (at_ + units rg o) rest
  end.

(* all_arenas: the objects of each arena in the order they were made. *)
Definition heap : Type := list (list object).

Definition find_at {A} (i : nat) (l : list (nat * A)) : option A :=
  match find (fun p => fst p =? i) l with Some p => Some (snd p) | None => None end.

Definition lookup (rg : registry) (h : heap) (r : oref) : option object :=
  match nth_error h (fst r) with
  | Some objs => find_at (snd r) (place rg 0 objs)
  | None => None
  end.

(* The objects an item refers to, 516-527: a member of the union that is not the
   one for the type of the item is a fault. *)
Definition refs_of (t : option ityp) (it : item) : res (list (option oref)) :=
  match t, it with
  | Some TObject, VObject o => Ok [o]
  | Some TArray, VArray None => Ok []
  | Some TArray, VArray (Some l) => Ok l
  | Some TObject, _ | Some TArray, _ => Fault
  | _, _ => Ok []
  end.

(* The loop over the items, 515-529 and 630-646.  The C loop ends behind the last
   item of the kind: no further bit is set there. *)
Fixpoint refs_from (bits : list nat) (has mask : N) (items : list item) : res (list (option oref)) :=
  match bits with
  | [] => Ok []
  | b :: rest =>
      if N.testbit has (N.of_nat b) then
        match items with
        | [] => Fault
        | it :: items =>
            do! here <- (if N.testbit mask (N.of_nat b) then refs_of (type_of_bit b) it else Ok []);
            do! more <- refs_from rest has mask items;
            Ok (here ++ more)
        end
      else refs_from rest has mask items
  end.

Definition refs (rg : registry) (mask : N) (o : object) : res (list (option oref)) :=
  refs_from (seq 0 64) (obj_has rg o) mask (o_items o).

Definition oref_eqb (a b : oref) : bool := (fst a =? fst b) && (snd a =? snd b).
Definition met (seen : list oref) (r : oref) : bool := existsb (oref_eqb r) seen.

Inductive event := Enter (r : oref) | Leave (r : oref).

(* Members one after the other. *)
Fixpoint visit_each (f : list oref -> option oref -> res (list oref * list event))
    (seen : list oref) (l : list (option oref)) : res (list oref * list event) :=
  match l with
  | [] => Ok (seen, [])
  | r :: rest =>
      do! (seen, e1) <- f seen r;
      do! (seen, e2) <- visit_each f seen rest;
      Ok (seen, e1 ++ e2)
  end.

(* object_visit, 611-657, and gc_mark_from_root, 502-531, which has the test
   object_in_arena_p (`inside`) in addition.  object_marked_p (C68) is membership in
   `seen` here.  The callbacks are recorded: that they do not change the objects is
   an assumption. *)
Fixpoint visit (fuel : nat) (rg : registry) (h : heap) (inside : oref -> bool) (mask : N)
    (seen : list oref) (r : option oref) : res (list oref * list event) :=
  match r with
  | None => Ok (seen, [])
  | Some r =>
      if negb (inside r) then Ok (seen, [])
      else if met seen r then Ok (seen, [])
      else
        match fuel with
        | 0 => Fault
        | S f =>
            match lookup rg h r with
            | None => Fault
            | Some o =>
                do! l <- refs rg mask o;
                do! (seen, ev) <- visit_each (visit f rg h inside mask) (r :: seen) l;
                Ok (seen, Enter r :: ev ++ [Leave r])
            end
        end
  end.

(* No path is longer than the number of objects. *)
Definition enough (h : heap) : nat := S (length (concat h)).

(* 628: all items, or without I_TYPE (bit 15) and I_REF (bit 20). *)
Definition visit_mask (deep : bool) : N :=
  if deep then N.ones 64 else N.ldiff (N.ones 64) (N.lor (N.shiftl 1 15) (N.shiftl 1 20)).

(* The test of 623-625; last_kind is the length of the table of the class. *)
Definition selects (rg : registry) (tag kind : nat) (o : object) : bool :=
  ((o_tag o =? tag) && (o_kind o =? kind)) || (kind =? length (c_has (class_of rg (o_tag o)))).

(* object_visit for a new context, as tree_visit_only, src/tree.c 1279-1298: the
   objects the function is called for, in order, and the count. *)
Definition called (rg : registry) (h : heap) (tag kind : nat) (e : event) : list oref :=
  match e with
  | Leave r => match lookup rg h r with
               | Some o => if selects rg tag kind o then [r] else []
               | None => []
               end
  | Enter _ => []
  end.

Definition visit_only (rg : registry) (h : heap) (deep : bool) (tag kind : nat) (r : oref)
    : res (list oref * nat) :=
  do! (_, ev) <- visit (enough h) rg h (fun _ => true) (visit_mask deep) [] (Some r);
  let l := flat_map (called rg h tag kind) ev in
  Ok (l, length l).

(* ---- object_arena_gc, 551-609 ---- *)

Definition is_root (rg : registry) (o : object) : bool :=
  existsb (Nat.eqb (o_kind o)) (c_roots (class_of rg (o_tag o))).

(* 556-568: the objects of a root kind, in order. *)
Definition root_refs (rg : registry) (key : nat) (objs : list object) : list (option oref) :=
  map (fun p => Some (key, fst p)) (filter (fun p => is_root rg (snd p)) (place rg 0 objs)).

Definition gc_mark (rg : registry) (h : heap) (key : nat) (objs : list object) : res (list oref) :=
  do! (seen, _) <- visit_each (visit (enough h) rg h (fun r => fst r =? key) (N.ones 64)) []
                     (root_refs rg key objs);
  Ok seen.

(* 578-603: the new index of the objects that are kept, None for the others.
   woffset counts units of OBJECT_ALIGN here; that it fits in 32 bits as a number of
   bytes is left out. *)
Fixpoint forward_loop (rg : registry) (key : nat) (marked : list oref) (at_ woff : nat) (objs : list object)
    : list (nat * option nat) * nat :=
  match objs with
  | [] => ([], woff)
  | o :: rest =>
      if met marked (key, at_)
      then let '(l, w) := forward_loop rg key marked (at_ + units rg o) (woff + units rg o) rest in
           ((at_, Some woff) :: l, w)
      else let '(l, w) := forward_loop rg key marked (at_ + units rg o) woff rest in
           ((at_, None) :: l, w)
  end.

(* The result is arena->forward and arena->live_bytes in units. *)
Definition gc (rg : registry) (h : heap) (key : nat) : res (list (nat * option nat) * nat) :=
  match nth_error h key with
  | None => Fault
  | Some objs =>
      do! marked <- gc_mark rg h key objs;
      let '(fwd, live) := forward_loop rg key marked 0 0 objs in
      if live =? 0 then Fault else Ok (fwd, live)
  end.

(* arena->forward[index]; 0xffffffff is None. *)
Definition forwarded (fwd : list (nat * option nat)) (i : nat) : option nat :=
  match find_at i fwd with Some v => v | None => None end.

(* object_locus, 1314-1327, in a frozen arena that was not read from a file. *)
Definition locus (fwd : list (nat * option nat)) (i : nat) : option nat := forwarded fwd i.

(* The search in object_from_locus, 1364-1373: the first that matches. *)
Definition from_locus (fwd : list (nat * option nat)) (off : nat) : option nat :=
  match find (fun p => match snd p with Some w => w =? off | None => false end) fwd with
  | Some p => Some (fst p)
  | None => None
  end.
