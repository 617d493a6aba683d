(* Specification of driving values: IEEE 1076-2008 section 14.7.3.2 for a signal
   with drivers, force, release and deposit. *)
From Coq Require Import List Arith Bool.
From Verif Require Import ResolveModel.
Import ListNotations.

(* The resolution function applied to element [j] of each driver's value, in
   driver order. *)
Definition resolve_elem (f : resfn) (vs : list (list nat)) (j : nat) : outcome :=
  f (map (fun v => nth j v 0) vs).

(* [v] is the result of resolving [vs]: every element is the value returned by
   the resolution function for the elements of the drivers. *)
Definition resolves_to (f : resfn) (width : nat) (vs : list (list nat)) (v : list nat) : Prop :=
  length v = width /\
  forall j, j < width -> exists clean, resolve_elem f vs j = Returns (nth j v 0) clean.

(* Some call aborts. *)
Definition resolve_aborts (f : resfn) (width : nat) (vs : list (list nat)) : Prop :=
  exists j, j < width /\ exists s, resolve_elem f vs j = Aborts s.

(* A value of a signal with [width] elements of an enumeration type with [nlits]
   literals. *)
Definition typed (width nlits : nat) (v : list nat) : Prop :=
  length v = width /\ Forall (fun x => x < nlits) v.

(* ---- force, release and deposit ---- *)

(* What an observer of the calls knows: the force in effect, the deposit that
   has not taken effect yet, what each driver contributes ([None] when it is
   disconnected) and the value of the signal. *)
Record obs := Obs { o_force : option (list nat); o_deposit : option (list nat);
                    o_drivers : list (option (list nat)); o_value : list nat }.

Fixpoint connected (ds : list (option (list nat))) : list (list nat) :=
  match ds with
  | [] => []
  | Some v :: ds' => v :: connected ds'
  | None :: ds' => connected ds'
  end.

(* The value determined by the drivers alone; [None] if the resolution function
   aborts the simulation. *)
Definition driven (width : nat) (res : option resfn) (register : bool)
  (initial current : list nat) (ds : list (option (list nat))) : option (list nat) :=
  match connected ds, res with
  | [], None => Some (if register then current else initial)
  | v :: _, None => Some v
  | [], Some f => if register then Some current
                  else match call_general f [] width with Put v => Some v | Stop => None end
  | vs, Some f => match call_general f vs width with Put v => Some v | Stop => None end
  end.

Fixpoint set_nth {A} (k : nat) (x : A) (l : list A) : list A :=
  match l, k with
  | [], _ => []
  | _ :: l', 0 => x :: l'
  | a :: l', S k' => a :: set_nth k' x l'
  end.

(* A recalculation: a force decides; otherwise an outstanding deposit decides
   and is used up; otherwise the drivers decide. *)
Definition settle (width : nat) (res : option resfn) (register : bool) (initial : list nat)
  (o : obs) : option obs :=
  match o_force o, o_deposit o with
  | Some v, _ => Some (Obs (o_force o) (o_deposit o) (o_drivers o) v)
  | None, Some v => Some (Obs None None (o_drivers o) v)
  | None, None =>
    match driven width res register initial (o_value o) (o_drivers o) with
    | Some v => Some (Obs None None (o_drivers o) v)
    | None => None
    end
  end.

Definition ostep (width : nat) (res : option resfn) (register : bool) (initial : list nat)
  (o : obs) (op : nop) : option obs :=
  match op with
  | OForce v => Some (Obs (Some v) (o_deposit o) (o_drivers o) (o_value o))
  | ORelease => Some (Obs None (o_deposit o) (o_drivers o) (o_value o))
  | ODeposit v => Some (Obs (o_force o) (Some v) (o_drivers o) (o_value o))
  | ODriver k x => settle width res register initial
                     (Obs (o_force o) (o_deposit o) (set_nth k x (o_drivers o)) (o_value o))
  | ODelta => settle width res register initial o
  end.

Fixpoint orun (width : nat) (res : option resfn) (register : bool) (initial : list nat)
  (o : obs) (ops : list nop) : option obs :=
  match ops with
  | [] => Some o
  | op :: ops' => match ostep width res register initial o op with
                  | Some o' => orun width res register initial o' ops'
                  | None => None
                  end
  end.

(* No force and deposit are outstanding at the same time anywhere in a history. *)
Fixpoint never_both (width : nat) (res : option resfn) (register : bool) (initial : list nat)
  (o : obs) (ops : list nop) : Prop :=
  (o_force o = None \/ o_deposit o = None) /\
  match ops with
  | [] => True
  | op :: ops' => match ostep width res register initial o op with
                  | Some o' => never_both width res register initial o' ops'
                  | None => True
                  end
  end.

(* The values in a history satisfy P. *)
Definition op_vals (P : list nat -> Prop) (op : nop) : Prop :=
  match op with
  | OForce v | ODeposit v => P v
  | ODriver _ (Some v) => P v
  | _ => True
  end.
