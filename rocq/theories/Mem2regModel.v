(* The promotion of memory on the stack frame to registers in the JIT's optimiser,
   jit_do_mem2reg. *)
From Coq Require Import List ZArith Arith Bool.
From Verif Require Import Base JitModel JitPassModel.
Import ListNotations.
Local Open Scope Z_scope.

(* Modelled: src/jit/jit-optim.c:1156-1165 (get_value_reg). *)
Definition value_reg (v : value) : option nat :=
  match v with VAddrReg r _ | VReg r => Some r | _ => None end.
Definition on_reg (v : value) (reg : nat) : bool :=
  match value_reg v with Some r => Nat.eqb r reg | None => false end.

(* The field disp of an operand, src/jit/jit-priv.h:200-219; it is zero in an operand
   made by jit_value_from_reg. *)
Definition value_disp (v : value) : Z := match v with VAddrReg _ d => d | _ => 0 end.

Definition same_size (a b : size) : bool :=
  match a, b with
  | SZ_8, SZ_8 | SZ_16, SZ_16 | SZ_32, SZ_32 | SZ_64, SZ_64 | SZ_UNSPEC, SZ_UNSPEC => true
  | _, _ => false
  end.

(* Modelled: src/jit/jit-optim.c:1171-1180 and src/util.h:86 (is_power_of_2): the
   size of the accesses to an allocation of [n] bytes, none if it is not promoted. *)
Definition slot_size (n : Z) : option size :=
  if (8 <? n) || negb (Z.land n (n - 1) =? 0) then None
  else Some (if n =? 1 then SZ_8 else if n =? 2 then SZ_16 else if n =? 4 then SZ_32
             else if n =? 8 then SZ_64 else SZ_UNSPEC).

(* Modelled: src/jit/jit-optim.c:1186-1208, the body of the first loop: whether the
   instruction at index [n] rules out the promotion of the allocation at index [k]. *)
Definition blocks (reg : nat) (s : size) (k n : nat) (i : ir) : bool :=
  if match result i with Some r => Nat.eqb r reg | None => false end && negb (Nat.eqb n k) then true
  else match op i with
    | J_LOAD | J_STORE =>
      let addr := match op i with J_LOAD => arg1 i | _ => arg2 i end in
      if negb (on_reg addr reg) then false
      else if negb (value_disp addr =? 0) || negb (same_size (sz i) s) then true
      else match op i with J_STORE => on_reg (arg1 i) reg | _ => false end
    | _ => on_reg (arg1 i) reg || on_reg (arg2 i) reg
    end.

Fixpoint any_blocks (reg : nat) (s : size) (k n : nat) (f : prog) : bool :=
  match f with
  | [] => false
  | i :: f' => blocks reg s k n i || any_blocks reg s k (S n) f'
  end.

(* Modelled: src/jit/jit-optim.c:1212-1226.  Simplified: the program goes from the
   first to the last access through the register, outside of which there is none. *)
Definition promoted (reg : nat) (i : ir) : ir :=
  match op i with
  | J_STORE => if on_reg (arg2 i) reg then Ir J_MOV SZ_UNSPEC (target i) CC_NONE (Some reg) (arg1 i) VInvalid else i
  | J_LOAD => if on_reg (arg1 i) reg then Ir J_MOV SZ_UNSPEC (target i) CC_NONE (result i) (VReg reg) (arg2 i) else i
  | _ => i
  end.

(* Modelled: src/jit/jit-optim.c:1167-1236 (try_promote_allocation) for the
   instruction at index [k]; the assertions fault. *)
Definition try_promote (f : prog) (k : nat) : res (option prog) :=
  match nth_error f k with
  | None => Fault
  | Some alloc =>
    match arg2 alloc with
    | VInt n =>
      match slot_size n with
      | None => Ok None
      | Some s =>
        match result alloc with
        | None => Fault
        | Some reg =>
          if any_blocks reg s k 0 f then Ok None
          else Ok (Some (set_nth (map (promoted reg) f) k (nop_of alloc)))
        end
      end
    | _ => Fault
    end
  end.

Definition is_salloc (i : ir) : bool := op_eqb (op i) MACRO_SALLOC.

(* Modelled: src/jit/jit-optim.c:1243-1250, the loop from index [n]; [left] counts
   the instructions not yet seen. *)
Fixpoint promote_loop (left n : nat) (f : prog) (replaced : bool) : res (prog * bool) :=
  match left with
  | O => Ok (f, replaced)
  | S left' =>
    match nth_error f n with
    | None => Ok (f, replaced)
    | Some i =>
      if is_salloc i then
        do! p <- try_promote f n;
        match p with
        | Some f' => promote_loop left' (S n) f' true
        | None => promote_loop left' (S n) f replaced
        end
      else if is_terminator f n then Ok (f, replaced)
      else promote_loop left' (S n) f replaced
    end
  end.

(* src/util.h:89-93 with a second argument of eight. *)
Definition align8 (z : Z) : Z := (z + 7) / 8 * 8.

(* Modelled: src/jit/jit-optim.c:1255-1268: the loop that gives the remaining
   allocations new places, with its assertions. *)
Fixpoint compact (left n : nat) (f : prog) (newsize : Z) : res (prog * Z) :=
  match left with
  | O => Ok (f, newsize)
  | S left' =>
    match nth_error f n with
    | None => Ok (f, newsize)
    | Some i =>
      if is_salloc i then
        match arg1 i, arg2 i with
        | VInt off, VInt size =>
          if newsize <=? off then
            compact left' (S n)
              (set_nth f n (Ir (op i) (sz i) (target i) (cc i) (result i) (VInt newsize) (arg2 i)))
              (newsize + align8 size)
          else Fault
        | _, _ => Fault
        end
      else if is_terminator f n then Ok (f, newsize)
      else compact left' (S n) f newsize
    end
  end.

(* Modelled: src/jit/jit-optim.c:1238-1272 (jit_do_mem2reg): the code and the size of
   the frame. *)
Definition mem2reg (f : prog) (framesz : Z) : res (prog * Z) :=
  if framesz =? 0 then Ok (f, framesz)
  else
    do! p <- promote_loop (length f) 0 f false;
    let '(f1, replaced) := p in
    if replaced then
      do! q <- compact (length f1) 0 f1 0;
      let '(f2, newsize) := q in
      if newsize <=? framesz then Ok (f2, newsize) else Fault
    else Ok (f, framesz).
