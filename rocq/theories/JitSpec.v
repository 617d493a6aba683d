(* What it means for a pass over JIT code to preserve behaviour, and the shape of
   the code the passes are given. *)
From Coq Require Import List ZArith Arith Bool.
From Verif Require Import Base JitModel.
Import ListNotations.

(* ---- the shape of code ---- *)

Definition value_regs (v : value) : list nat :=
  match v with VReg r | VAddrReg r _ => [r] | _ => [] end.
Definition ir_regs (i : ir) : list nat :=
  value_regs (arg1 i) ++ value_regs (arg2 i) ++ match result i with Some r => [r] | None => [] end.

(* Registers are numbered below [nregs]. *)
Definition regs_below (nregs : nat) (f : prog) : Prop :=
  forall i r, In i f -> In r (ir_regs i) -> r < nregs.

(* A label leads to an instruction, and that instruction is marked as a target. *)
Definition labels_marked (f : prog) : Prop :=
  forall i l, In i f -> arg1 i = VLabel l \/ arg2 i = VLabel l ->
    exists j, nth_error f l = Some j /\ target j = true.

(* The kind of an operand is one the instruction can work with. *)
Definition accepts (m : mode) (v : value) : bool :=
  match m, v with
  | MNone, _ => true
  | (MInt | MReal | MPtr | MScalar), VReg _ => true
  | (MInt | MReal | MScalar | MConst), VInt _ => true
  | (MInt | MReal | MScalar), VDouble _ => true
  | (MInt | MPtr | MScalar), VAddrAbs _ => true
  | (MPtr | MScalar), (VAddrReg _ _ | VAddrCpool _ | VAddrCover _) => true
  | (MScalar | MLabel), VLabel _ => true
  | (MScalar | MHandle), VHandle _ => true
  | MScalar, VLocus _ => true
  | MExit, VExit _ => true
  | _, _ => false
  end.
Definition kinds_ok (f : prog) : Prop :=
  forall i, In i f -> accepts (mode1 (op i)) (arg1 i) = true /\ accepts (mode2 (op i)) (arg2 i) = true.

(* A move does not compute an address. *)
Definition plain_moves (f : prog) : Prop :=
  forall i r d, In i f -> op i = J_MOV -> arg1 i <> VAddrReg r d.

(* Only instructions that produce a value, or read the register, name a result. *)
Definition produces (o : opcode) : bool :=
  match o with
  | J_RECV | J_AND | J_OR | J_XOR | J_ADD | J_SUB | J_MUL | J_DIV | J_REM | J_SHL | J_ASR | J_NEG
  | J_NOT | J_CLAMP | J_CSET | J_CSEL | J_MOV | J_LEA | J_FADD | J_FSUB | J_FMUL | J_FDIV | J_FNEG
  | J_SCVTF | J_FCVTNS | MACRO_FEXP | J_LOAD | J_ULOAD | MACRO_GETPRIV | MACRO_SALLOC | MACRO_EXP
  | MACRO_GALLOC | MACRO_LALLOC => true
  | _ => false
  end.
Definition results_ok (f : prog) : Prop :=
  forall i r, In i f -> result i = Some r -> produces (op i) = true \/ reads_result i = true.

(* Arithmetic is either unchecked or checked for overflow or carry. *)
Definition checks_ok (f : prog) : Prop :=
  forall i, In i f ->
    match op i with
    | J_ADD | J_SUB | J_MUL => cc i = CC_NONE \/ cc i = CC_O \/ cc i = CC_C
    | _ => True
    end.

(* Nothing is allocated in vain: the result of an allocation is an operand somewhere. *)
Definition allocs_used (f : prog) : Prop :=
  forall i r, In i f -> op i = MACRO_GALLOC \/ op i = MACRO_LALLOC -> result i = Some r ->
    exists j, In j f /\ (In r (value_regs (arg1 j)) \/ In r (value_regs (arg2 j)) \/
                         reads_result j = true /\ result j = Some r).

(* ---- behaviour ---- *)

Section Behaviour.
Variable W : Type.
Variable cpool_base : Z.
Variable cover_addr : Z -> Z.
Variable prim : opcode -> size -> ccode -> Z -> Z -> Z -> bool -> (nat -> Z) -> W ->
                option (Z * bool * (nat -> Z) * W).
Notation run := (run W cpool_base cover_addr prim).

(* The function returns with [ar] in the argument slots and [w] outside. *)
Definition returns (f : prog) (s : state W) (ar : nat -> Z) (w : W) : Prop :=
  exists n, run n f s = Done W ar w.
(* The function does something that has no meaning. *)
Definition goes_wrong (f : prog) (s : state W) : Prop := exists n, run n f s = Crash W.
(* The function runs for ever. *)
Definition diverges (f : prog) (s : state W) : Prop := forall n, exists s', run n f s = Next W s'.

(* What two functions started at the first instruction with the same flag,
   arguments and outside state do alike. *)
Definition start (rg : nat -> Z) (fl : bool) (ar : nat -> Z) (w : W) : state W := State W 0 rg fl ar w.
End Behaviour.

(* Labels are only jumped to. *)
Definition labels_plain (f : prog) : Prop :=
  forall i l, In i f -> (arg1 i = VLabel l -> mode1 (op i) <> MScalar) /\
                        (arg2 i = VLabel l -> mode2 (op i) <> MScalar).

(* The same place, the same arguments and the same outside state. *)
Definition same_view {W} (s s' : state W) : Prop :=
  pc W s' = pc W s /\ args W s' = args W s /\ outside W s' = outside W s.

(* [o'] is what is expected when the original code gives [o]. *)
Definition agrees {W} (o o' : outcome W) : Prop :=
  match o with
  | Next _ s => exists s', o' = Next W s' /\ same_view s s'
  | Done _ ar w => o' = Done W ar w
  | Crash _ => True
  end.
