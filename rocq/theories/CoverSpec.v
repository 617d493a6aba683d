(* What a coverage database says and what merging is supposed to mean. *)

From Coq Require Import ZArith List Bool Arith.
From Verif Require Import Base CoverModel.
Import ListNotations.

(* The scope reached from s by the given names. *)
Fixpoint scope_at (s : scope) (path : list ident) : option scope :=
  match path with
  | [] => Some s
  | n :: p =>
      match List.find (fun c => Nat.eqb (s_name c) n) (s_children s) with
      | Some c => scope_at c p
      | None => None
      end
  end.

(* What is recorded for the item with hierarchical name h and flags f in the
   scope at that path: its kind and its count. *)
Definition recorded (s : scope) (path : list ident) (h : ident) (f : Z) : option (item_kind * Z) :=
  match scope_at s path with
  | None => None
  | Some c =>
      match List.find (fun it => Nat.eqb (i_hier it) h && Z.eqb (i_flags it) f) (s_items c) with
      | Some it => Some (i_kind it, i_data it)
      | None => None
      end
  end.

(* Two counts together: their sum, at most 2^31-1.  A toggle bin that was
   constant in one of them stays marked so (by the value -2^31). *)
Definition together (k : item_kind) (a b : Z) : Z :=
  match k with
  | KToggle => if (Z.min a b <? 0)%Z then INT_MIN else Z.min (a + b) INT_MAX
  | _ => Z.min (a + b) INT_MAX
  end.

Definition both (x y : option (item_kind * Z)) : option (item_kind * Z) :=
  match x, y with
  | None, _ => y
  | _, None => x
  | Some (k, a), Some (_, b) => Some (k, together k a b)
  end.

(* Counts that a run (of less than 2^31 executions of each item, see C63) or an
   earlier merge leaves. *)
Definition sane (it : item) : Prop :=
  (0 <= i_data it <= INT_MAX)%Z \/ (i_kind it = KToggle /\ i_data it = INT_MIN).

(* In a scope no two items have the same name and flags and no two children
   the same name. *)
Inductive tidy : scope -> Prop :=
  tidy_scope : forall t n h l b items children,
    NoDup (map (fun it => (i_hier it, i_flags it)) items) ->
    NoDup (map s_name children) ->
    (forall it, In it items -> sane it) ->
    (forall c, In c children -> tidy c) ->
    tidy (Scope t n h l b items children).

(* An item that is in both is of the same kind in both. *)
Definition alike (a b : scope) : Prop :=
  forall path h f k x k' y,
    recorded a path h f = Some (k, x) -> recorded b path h f = Some (k', y) -> k = k'.

(* Somewhere the first items of the new scope are all the items of the old
   one, of which there is at least one, and further items follow. *)
Inductive overrun : scope -> scope -> Prop :=
| overrun_here : forall old new,
    s_items old <> [] ->
    length (s_items old) < length (s_items new) ->
    (forall it, In it (firstn (length (s_items old)) (s_items new)) ->
       exists o, In o (s_items old) /\ i_hier o = i_hier it /\ i_flags o = i_flags it) ->
    overrun old new
| overrun_below : forall old new o n,
    In o (s_children old) -> In n (s_children new) -> s_name o = s_name n ->
    overrun o n -> overrun old new.
