(* Model of the emission of memory operations in vcode: emit_load, emit_store,
   emit_index, emit_context_upref, emit_load_indirect and emit_store_indirect of
   src/vcode.c, which reuse the result of an earlier load or the stored value, and
   remove stores that are overwritten, and of the execution of one basic block.

   Scalar variables and other locations hold values; a location of an array or record
   stands for the whole of it.  Left out: the offset of emit_index, types and bounds,
   PCALL (which ends a block). *)
From Coq Require Import List ZArith Arith Bool.
From Verif Require Import Base LoadSpec.
Import ListNotations.

(* op_t, src/vcode.c:82-104.  [res] is the result register.  OInput stands for a
   register of an earlier block or a parameter, OPure for an operation without effects,
   OCopy for VCODE_OP_COPY and VCODE_OP_MEMSET, and OComment for a removed operation. *)
Inductive op :=
| OInput (n res : nat)
| OPure (g : nat) (args : list nat) (res : nat)
| OLoad (v res : nat)
| OStore (r v : nat)
| OIndex (v res : nat)
| OContext (res : nat)
| OLoadIndirect (p res : nat)
| OStoreIndirect (r p : nat)
| OCall (k : nat) (args : list nat) (res : nat)
| OFileRead (p k : nat)
| OFileOpen (p : nat) (s : option nat) (k : nat)
| ODeallocate (p : nat)
| OCopy (p k : nat)
| OComment.

(* A block with its newest operation first, and the number of registers. *)
Record code := Code { ops : list op; nregs : nat }.

(* vcode_add_op and vcode_add_reg, src/vcode.c:244-281 *)
Definition add (c : code) (mk : nat -> op) : code * nat :=
  (Code (mk (nregs c) :: ops c) (S (nregs c)), nregs c).
Definition add_void (c : code) (o : op) : code := Code (o :: ops c) (nregs c).

(* src/vcode.c:3713-3770: the scan of emit_load in its states CONSERVATIVE (with
   UNSAFE, in which nothing is reused) and EAGER *)
Fixpoint scan_conservative (v : nat) (fold : option nat) (l : list op) : option nat :=
  match l with
  | [] => fold
  | OLoad v' r :: l =>
    scan_conservative v (match fold with
                         | None => if Nat.eqb v' v then Some r else None
                         | Some _ => fold
                         end) l
  | OStore r v' :: l =>
    scan_conservative v (match fold with
                         | None => if Nat.eqb v' v then Some r else None
                         | Some _ => fold
                         end) l
  | OIndex v' _ :: l => if Nat.eqb v' v then None else scan_conservative v fold l
  | OContext _ :: _ => None
  | _ :: l => scan_conservative v fold l
  end.
Fixpoint scan_eager (v : nat) (l : list op) : option nat :=
  match l with
  | [] => None
  | OLoad v' r :: l => if Nat.eqb v' v then Some r else scan_eager v l
  | OStore r v' :: l => if Nat.eqb v' v then Some r else scan_eager v l
  | OCall _ _ _ :: l | OFileRead _ _ :: l | OFileOpen _ _ _ :: l | OStoreIndirect _ _ :: l
  | ODeallocate _ :: l => scan_conservative v None l
  | _ :: l => scan_eager v l
  end.
Definition emit_load (c : code) (v : nat) : code * nat :=
  match scan_eager v (ops c) with
  | Some r => (c, r)
  | None => add c (OLoad v)
  end.

(* src/vcode.c:3772-3802 *)
Fixpoint scan_indirect (p : nat) (l : list op) : option nat :=
  match l with
  | [] => None
  | OLoadIndirect p' r :: l => if Nat.eqb p' p then Some r else scan_indirect p l
  | OCall _ _ _ :: _ | OStore _ _ :: _ | OStoreIndirect _ _ :: _ | OCopy _ _ :: _
  | OFileRead _ _ :: _ => None
  | _ :: l => scan_indirect p l
  end.
Definition emit_load_indirect (c : code) (p : nat) : code * nat :=
  match scan_indirect p (ops c) with
  | Some r => (c, r)
  | None => add c (OLoadIndirect p)
  end.

(* src/vcode.c:3804-3833: earlier stores to the variable become comments. *)
Fixpoint kill (v : nat) (l : list op) : list op :=
  match l with
  | [] => []
  | OStore r v' :: l => if Nat.eqb v' v then OComment :: kill v l else OStore r v' :: kill v l
  | OCall k args res :: l => OCall k args res :: l
  | OIndex v' res :: l => if Nat.eqb v' v then OIndex v' res :: l else OIndex v' res :: kill v l
  | OLoad v' res :: l => if Nat.eqb v' v then OLoad v' res :: l else OLoad v' res :: kill v l
  | o :: l => o :: kill v l
  end.
Definition emit_store (c : code) (r v : nat) : code :=
  Code (OStore r v :: kill v (ops c)) (nregs c).

(* src/vcode.c:4192-4216: the first INDEX of the variable. *)
Fixpoint find_op (f : op -> option nat) (l : list op) : option nat :=
  match l with
  | [] => None
  | o :: l => match f o with Some r => Some r | None => find_op f l end
  end.
Definition emit_index (c : code) (v : nat) : code * nat :=
  match find_op (fun o => match o with
                          | OIndex v' r => if Nat.eqb v' v then Some r else None
                          | _ => None
                          end) (rev (ops c)) with
  | Some r => (c, r)
  | None => add c (OIndex v)
  end.

(* src/vcode.c:5136-5155 with hops 0 *)
Definition emit_context_upref (c : code) : code * nat :=
  match find_op (fun o => match o with OContext r => Some r | _ => None end) (rev (ops c)) with
  | Some r => (c, r)
  | None => add c OContext
  end.

(* ---- execution ---- *)

Definition env := list value.

(* The value of an operation goes to a new register. *)
Definition define (m : mem) (e : env) (res : nat) (x : value) : option (mem * env) :=
  if Nat.eqb res (length e) then Some (m, e ++ [x]) else None.

Definition keep (e : env) (m : option mem) : option (mem * env) :=
  match m with Some m => Some (m, e) | None => None end.

(* The loads, stores and calls of src/jit/jit-irgen.c; VCODE_OP_DEALLOCATE stores a
   null pointer, src/mir/mir-vcode.c:841-846. *)
Definition exec_op (w : world) (o : op) (s : mem * env) : option (mem * env) :=
  let (m, e) := s in
  match o with
  | OInput n res => define m e res (given w n)
  | OPure g args res =>
    match pick_all e args with Some xs => define m e res (compute w g xs) | None => None end
  | OLoad v res => match look m (Var v) with Some x => define m e res x | None => None end
  | OStore r v =>
    match nth_error e r with Some x => keep e (store m (Some (Var v)) x) | None => None end
  | OIndex v res => define m e res (Ptr (Var v))
  | OContext res => define m e res Null
  | OLoadIndirect p res =>
    match target e p with
    | Some l => match look m l with Some x => define m e res x | None => None end
    | None => None
    end
  | OStoreIndirect r p =>
    match nth_error e r with Some x => keep e (store m (target e p) x) | None => None end
  | OCall k args res =>
    match pick_all e args with
    | Some xs => let (m, x) := invoke w k xs m in define m e res x
    | None => None
    end
  | OFileRead p k | OCopy p k => keep e (store m (target e p) (file w k 0))
  | OFileOpen p s k =>
    match store m (target e p) (file w k 0) with
    | Some m =>
      match s with
      | Some s => keep e (store m (target e s) (file w k 1))
      | None => Some (m, e)
      end
    | None => None
    end
  | ODeallocate p => keep e (store m (target e p) Null)
  | OComment => Some (m, e)
  end.

(* The operations of a list, newest first. *)
Fixpoint exec (w : world) (m : mem) (l : list op) : option (mem * env) :=
  match l with
  | [] => Some (m, [])
  | o :: l => match exec w m l with Some s => exec_op w o s | None => None end
  end.

(* ---- a sequence of calls of the emitters ---- *)

Definition pick (rs : list nat) (n : nat) : res nat :=
  match nth_error rs n with Some r => Ok r | None => Fault end.
Fixpoint picks (rs : list nat) (l : list nat) : res (list nat) :=
  match l with
  | [] => Ok []
  | n :: l => do! r <- pick rs n; do! l <- picks rs l; Ok (r :: l)
  end.

(* [rs] holds the registers of the earlier values. *)
Definition emit_act (c : code) (rs : list nat) (a : act) : res (code * list nat) :=
  let value (x : code * nat) : res (code * list nat) := Ok (fst x, rs ++ [snd x]) in
  match a with
  | Given n => value (add c (OInput n))
  | Compute g args => do! l <- picks rs args; value (add c (OPure g l))
  | Read v => value (emit_load c v)
  | Write n v => do! r <- pick rs n; Ok (emit_store c r v, rs)
  | Take v => value (emit_index c v)
  | Context => value (emit_context_upref c)
  | ReadAt p => do! p <- pick rs p; value (emit_load_indirect c p)
  | WriteAt n p =>
    do! r <- pick rs n;
    do! p <- pick rs p;
    Ok (add_void c (OStoreIndirect r p), rs)
  | Invoke k args => do! l <- picks rs args; value (add c (OCall k l))
  | FileRead p k => do! p <- pick rs p; Ok (add_void c (OFileRead p k), rs)
  | FileOpen p s k =>
    do! p <- pick rs p;
    match s with
    | Some s => do! s <- pick rs s; Ok (add_void c (OFileOpen p (Some s) k), rs)
    | None => Ok (add_void c (OFileOpen p None k), rs)
    end
  | Free p => do! p <- pick rs p; Ok (add_void c (ODeallocate p), rs)
  | Copy p k => do! p <- pick rs p; Ok (add_void c (OCopy p k), rs)
  end.

Fixpoint emit_acts (c : code) (rs : list nat) (l : list act) : res (code * list nat) :=
  match l with
  | [] => Ok (c, rs)
  | a :: l => do! (c, rs) <- emit_act c rs a; emit_acts c rs l
  end.
Definition compile (l : list act) : res (code * list nat) := emit_acts (Code [] 0) [] l.
