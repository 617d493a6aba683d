(* What reading and writing variables means, independently of how it is compiled.

   A memory holds the scalar variables of a subprogram or process and other locations,
   such as the variables of callers and heap objects.  A basic block is a list of
   actions.  Some actions have a value, and later ones name those values by position. *)
From Coq Require Import List ZArith Bool.
Import ListNotations.

Inductive loc := Var (v : nat) | Other (n : nat).
Inductive value := Int (z : Z) | Ptr (l : loc) | Null.

Record mem := Mem { vars : list value; others : list value }.

Fixpoint replace (l : list value) (n : nat) (x : value) : list value :=
  match l, n with
  | [], _ => []
  | _ :: l, O => x :: l
  | y :: l, S n => y :: replace l n x
  end.

(* The content of a location, if there is one. *)
Definition look (m : mem) (l : loc) : option value :=
  match l with Var v => nth_error (vars m) v | Other n => nth_error (others m) n end.
Definition put (m : mem) (l : loc) (x : value) : mem :=
  match l with
  | Var v => Mem (replace (vars m) v x) (others m)
  | Other n => Mem (vars m) (replace (others m) n x)
  end.

Inductive act :=
| Given (n : nat)                        (* a value from an earlier block or a parameter *)
| Compute (g : nat) (args : list nat)    (* an operation on values *)
| Read (v : nat)                         (* a variable *)
| Write (n : nat) (v : nat)              (* v := value n *)
| Take (v : nat)                         (* the address of a variable, to pass it on *)
| Context                                (* the address of all variables, for nested subprograms *)
| ReadAt (p : nat)                       (* through a pointer *)
| WriteAt (n p : nat)
| Invoke (k : nat) (args : list nat)     (* a subprogram *)
| FileRead (p : nat) (k : nat)           (* stores what is read *)
| FileOpen (p : nat) (s : option nat) (k : nat)   (* stores a handle and possibly a status *)
| Free (p : nat)                         (* deallocate: stores null *)
| Copy (p : nat) (k : nat).              (* copies or fills an array or record *)

(* The rest of the world. *)
Record world := World {
  given : nat -> value;
  compute : nat -> list value -> value;
  invoke : nat -> list value -> mem -> mem * value;
  file : nat -> nat -> value
}.

Definition state : Type := mem * list value.

Fixpoint pick_all (vs : list value) (l : list nat) : option (list value) :=
  match l with
  | [] => Some []
  | n :: l =>
    match nth_error vs n, pick_all vs l with
    | Some x, Some xs => Some (x :: xs)
    | _, _ => None
    end
  end.

(* The location a value points to. *)
Definition target (vs : list value) (p : nat) : option loc :=
  match nth_error vs p with Some (Ptr l) => Some l | _ => None end.

Definition store (m : mem) (l : option loc) (x : value) : option mem :=
  match l with
  | Some l => match look m l with Some _ => Some (put m l x) | None => None end
  | None => None
  end.

(* One action; [None] if it refers to something that is not there. *)
Definition step (w : world) (s : state) (a : act) : option state :=
  let (m, vs) := s in
  match a with
  | Given n => Some (m, vs ++ [given w n])
  | Compute g args =>
    match pick_all vs args with Some xs => Some (m, vs ++ [compute w g xs]) | None => None end
  | Read v => match look m (Var v) with Some x => Some (m, vs ++ [x]) | None => None end
  | Write n v =>
    match nth_error vs n with
    | Some x => match store m (Some (Var v)) x with Some m => Some (m, vs) | None => None end
    | None => None
    end
  | Take v => Some (m, vs ++ [Ptr (Var v)])
  | Context => Some (m, vs ++ [Null])
  | ReadAt p =>
    match target vs p with
    | Some l => match look m l with Some x => Some (m, vs ++ [x]) | None => None end
    | None => None
    end
  | WriteAt n p =>
    match nth_error vs n with
    | Some x => match store m (target vs p) x with Some m => Some (m, vs) | None => None end
    | None => None
    end
  | Invoke k args =>
    match pick_all vs args with
    | Some xs => let (m, x) := invoke w k xs m in Some (m, vs ++ [x])
    | None => None
    end
  | FileRead p k | Copy p k =>
    match store m (target vs p) (file w k 0) with Some m => Some (m, vs) | None => None end
  | FileOpen p s k =>
    match store m (target vs p) (file w k 0) with
    | Some m =>
      match s with
      | Some s => match store m (target vs s) (file w k 1) with Some m => Some (m, vs) | None => None end
      | None => Some (m, vs)
      end
    | None => None
    end
  | Free p => match store m (target vs p) Null with Some m => Some (m, vs) | None => None end
  end.

Fixpoint run (w : world) (s : state) (l : list act) : option state :=
  match l with
  | [] => Some s
  | a :: l => match step w s a with Some s => run w s l | None => None end
  end.

(* ---- conditions ---- *)

(* A subprogram changes a location in some memory. *)
Definition touches (w : world) (k : nat) (xs : list value) (l : loc) : Prop :=
  exists m, look (fst (invoke w k xs m)) l <> look m l.

(* The variables whose address the actions [before] take. *)
Definition taken (before : list act) (v : nat) : Prop :=
  In (Take v) before \/ In Context before.

(* The action may write location l other than by an assignment to a variable. *)
Definition indirect (w : world) (vs : list value) (a : act) (l : loc) : Prop :=
  match a with
  | WriteAt _ p | FileRead p _ | Free p => target vs p = Some l
  | FileOpen p s _ => target vs p = Some l \/ exists s', s = Some s' /\ target vs s' = Some l
  | Invoke k args => exists xs, pick_all vs args = Some xs /\ touches w k xs l
  | _ => False
  end.

(* The actions free location l, or store a file or its status there. *)
Definition releases (vs : list value) (a : act) (l : loc) : Prop :=
  match a with
  | Free p => target vs p = Some l
  | FileOpen p s _ => target vs p = Some l \/ exists s', s = Some s' /\ target vs s' = Some l
  | _ => False
  end.

(* The conditions on one action after the actions [before] of the block: a variable is
   written indirectly only if its address was taken in this block; copies do not go to
   scalar variables; reads through pointers do not go to variables of this subprogram or
   process, and not to locations that were released in this block ([gone]). *)
Definition fits (w : world) (before : list act) (gone : loc -> Prop) (vs : list value) (a : act) : Prop :=
  (forall v, indirect w vs a (Var v) -> taken before v) /\
  match a with
  | Copy p _ => forall v, target vs p <> Some (Var v)
  | ReadAt p => forall l, target vs p = Some l -> (forall v, l <> Var v) /\ ~ gone l
  | _ => True
  end.

Fixpoint all_fit (w : world) (before : list act) (gone : loc -> Prop) (s : state) (l : list act) : Prop :=
  match l with
  | [] => True
  | a :: l =>
    fits w before gone (snd s) a /\
    match step w s a with
    | Some s' => all_fit w (before ++ [a]) (fun x => gone x \/ releases (snd s) a x) s' l
    | None => True
    end
  end.
