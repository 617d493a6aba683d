(* What traversals and the removal of objects are about: objects that refer to
   objects. *)

From Coq Require Import NArith List Bool Arith Relations.
From Verif Require Import Base NumberModel CoverModel ObjModel ObjGraphModel.
Import ListNotations.
Local Open Scope nat_scope.

(* The object has an item, among those of the mask, that refers to r. *)
Definition refers (rg : registry) (mask : N) (o : object) (r : oref) : Prop :=
  exists bit it, bit < 64 /\ N.testbit mask (N.of_nat bit) = true /\
    lookup_item (obj_has rg o) (o_items o) bit = Ok it /\
    (it = VObject (Some r) \/ exists l, it = VArray (Some l) /\ In (Some r) l).

Definition edge (rg : registry) (h : heap) (mask : N) (a b : oref) : Prop :=
  exists o, lookup rg h a = Some o /\ refers rg mask o b.

(* One object leads to another through any number of references. *)
Definition leads (rg : registry) (h : heap) (mask : N) : oref -> oref -> Prop :=
  clos_refl_trans oref (edge rg h mask).

(* The items of an object are of the types of their bits. *)
Definition fits (t : option ityp) (it : item) : Prop :=
  match t, it with
  | Some TIdent, VIdent _ | Some TObject, VObject _ | Some TArray, VArray _
  | Some TInt, VInt _ | Some TDouble, VDouble _ | Some TText, VText _ | Some TNumber, VNumber _ => True
  | _, _ => False
  end.

Definition well_typed (rg : registry) (o : object) : Prop :=
  forall bit, bit < 64 -> N.testbit (obj_has rg o) (N.of_nat bit) = true ->
    exists it, lookup_item (obj_has rg o) (o_items o) bit = Ok it /\ fits (type_of_bit bit) it.

(* Items are typed and refer to objects that exist. *)
Definition sound (rg : registry) (h : heap) : Prop :=
  (forall r o, lookup rg h r = Some o -> well_typed rg o) /\
  (forall a b, edge rg h (N.ones 64) a b -> exists o, lookup rg h b = Some o).

(* Every object takes room. *)
Definition sized (rg : registry) (h : heap) : Prop :=
  forall objs o, In objs h -> In o objs -> 1 <= units rg o.

(* In a list of events, one comes before the other. *)
Definition before {A} (l : list A) (x y : A) : Prop :=
  exists l1 l2 l3, l = l1 ++ x :: l2 ++ y :: l3.

(* Objects of one class and kind, or of all kinds of the class. *)
Definition picked (rg : registry) (tag kind : nat) (o : object) : Prop :=
  o_tag o = tag /\ (o_kind o = kind \/ kind = length (c_has (class_of rg tag))).

(* Through references within one arena. *)
Definition leads_within (rg : registry) (h : heap) (key : nat) : oref -> oref -> Prop :=
  clos_refl_trans oref (fun a b => edge rg h (N.ones 64) a b /\ fst b = key).

(* The object at the index leads nowhere from the roots unless some object of a root
   kind in the arena leads to it. *)
Definition needed (rg : registry) (h : heap) (key i : nat) : Prop :=
  exists j o, lookup rg h (key, j) = Some o /\ In (o_kind o) (c_roots (class_of rg (o_tag o))) /\
    leads_within rg h key (key, j) (key, i).
