(* Model of the JIT intermediate code and of its interpreter,
   src/jit/jit-priv.h and src/jit/jit-interp.c.

   A register, an argument slot and a flag hold a 64-bit pattern, given as the
   signed integer it stands for; pointers and reals are such patterns too.
   Everything outside the registers and the argument slots - memory, the heap,
   the simulation kernel, other functions - is one opaque state of type [W], and
   what the instructions that work on it do is a parameter [prim] of the model.
   Instructions on integers are modelled exactly.  Undefined behaviour and failed
   assertions are [Crash]. *)
From Coq Require Import List ZArith Arith Bool.
From Verif Require Import Base.
Import ListNotations.
Local Open Scope Z_scope.

(* src/jit/jit-priv.h:32-93 *)
Inductive opcode :=
| J_SEND | J_RECV | J_ADD | J_RET | J_TRAP | J_ULOAD | J_STORE | J_JUMP | J_CMP
| J_CSET | J_SUB | J_MOV | J_FADD | J_MUL | J_FMUL | J_CALL | J_NEG | J_LOAD
| J_CSEL | J_LEA | J_NOT | J_DIV | J_FDIV | J_SCVTF | J_FNEG | J_FCVTNS | J_FCMP
| J_AND | J_OR | J_XOR | J_FSUB | J_REM | J_DEBUG | J_NOP | J_ASR | J_SHL
| J_CLAMP | J_CCMP | J_FCCMP
| MACRO_COPY | MACRO_GALLOC | MACRO_EXIT | MACRO_FEXP | MACRO_EXP | MACRO_BZERO
| MACRO_GETPRIV | MACRO_PUTPRIV | MACRO_LALLOC | MACRO_SALLOC | MACRO_CASE
| MACRO_TRIM | MACRO_MOVE | MACRO_MEMSET | MACRO_REEXEC | MACRO_SADD.

Definition opcode_eq_dec (a b : opcode) : {a = b} + {a <> b}.
Proof. decide equality. Defined.
Definition op_eqb (a b : opcode) : bool := if opcode_eq_dec a b then true else false.

(* src/jit/jit-priv.h:95-102 *)
Inductive size := SZ_8 | SZ_16 | SZ_32 | SZ_64 | SZ_UNSPEC.
(* src/jit/jit-priv.h:104-118 *)
Inductive ccode := CC_NONE | CC_T | CC_F | CC_EQ | CC_NE | CC_LT | CC_GE | CC_GT | CC_LE
                 | CC_O | CC_NO | CC_C | CC_NC.
Definition cc_none (c : ccode) : bool := match c with CC_NONE => true | _ => false end.

(* src/jit/jit-priv.h:182-219; [VOther] stands for locations and positions, which
   no instruction reads. *)
Inductive value :=
| VInvalid
| VReg (r : nat)
| VInt (z : Z)
| VDouble (bits : Z)
| VAddrReg (r : nat) (disp : Z)
| VAddrAbs (z : Z)
| VAddrCpool (z : Z)
| VAddrCover (z : Z)
| VLabel (l : nat)
| VHandle (h : Z)
| VExit (e : Z)
| VLocus (p : Z)
| VOther.

(* src/jit/jit-priv.h:223-231; no result is JIT_REG_INVALID. *)
Record ir := Ir {
  op : opcode; sz : size; target : bool; cc : ccode;
  result : option nat; arg1 : value; arg2 : value }.

(* irbuf *)
Definition prog := list ir.

(* ---- static properties of an instruction ---- *)

(* Modelled: src/jit/jit-core.c:1040-1048. *)
Definition writes_flags (i : ir) : bool :=
  match op i with
  | J_CMP | J_FCMP | J_CCMP | J_FCCMP => true
  | J_ADD | J_SUB | J_MUL | MACRO_EXP => negb (cc_none (cc i))
  | _ => false
  end.

(* Modelled: src/jit/jit-core.c:1050-1055. *)
Definition reads_flags (i : ir) : bool :=
  match op i with
  | J_JUMP => negb (cc_none (cc i))
  | J_CSET | J_CSEL | J_CCMP | J_FCCMP => true
  | _ => false
  end.

(* Modelled: src/jit/jit-optim.c:31-38 (cfg_is_terminator) for the instruction at
   index [n]. *)
Definition is_terminator (f : prog) (n : nat) : bool :=
  match nth_error f n with
  | None => false
  | Some i =>
    match op i with
    | MACRO_CASE =>
      match nth_error f (S n) with
      | Some j => negb (op_eqb (op j) MACRO_CASE)
      | None => false
      end
    | J_JUMP | J_RET | MACRO_REEXEC => true
    | _ => false
    end
  end.

(* Modelled: src/jit/jit-optim.c:79-88. *)
Definition reads_result (i : ir) : bool :=
  match op i with
  | MACRO_COPY | MACRO_CASE | MACRO_BZERO | MACRO_MOVE | MACRO_MEMSET => true
  | _ => false
  end.

(* ---- 64-bit arithmetic ---- *)

Definition M64 : Z := 18446744073709551616.
Definition M63 : Z := 9223372036854775808.
(* The signed value of the low 64 bits. *)
Definition wrap (z : Z) : Z := (z + M63) mod M64 - M63.

(* The range of a size: number of bits. *)
Definition bits (s : size) : Z :=
  match s with SZ_8 => 8 | SZ_16 => 16 | SZ_32 => 32 | SZ_64 => 64 | SZ_UNSPEC => 64 end.
Definition strunc (s : size) (z : Z) : Z := (z + 2 ^ (bits s - 1)) mod 2 ^ bits s - 2 ^ (bits s - 1).
Definition utrunc (s : size) (z : Z) : Z := z mod 2 ^ bits s.

Definition b2z (b : bool) : Z := if b then 1 else 0.

(* FOR_EACH_SIZE asserts that the size is given, src/jit/jit-interp.c:64-73. *)
Definition spec_size (s : size) : bool := match s with SZ_UNSPEC => false | _ => true end.

(* The arithmetic of interp_add, interp_sub and interp_mul, src/jit/jit-interp.c:
   268-301, 327-360, 370-403: the new result and, if the instruction sets it, the
   flag.  [f] is the exact operation. *)
Definition checked (f : Z -> Z -> Z) (s : size) (c : ccode) (a b : Z) : option (Z * option bool) :=
  match c with
  | CC_O =>
    if spec_size s then
      let exact := f (strunc s a) (strunc s b) in
      Some (strunc s exact, Some (negb (strunc s exact =? exact)))
    else None
  | CC_C =>
    if spec_size s then
      let exact := f (utrunc s a) (utrunc s b) in
      Some (wrap (utrunc s exact), Some (negb (utrunc s exact =? exact)))
    else None
  | _ => Some (wrap (f a b), None)
  end.

(* src/jit/jit-interp.c:508-538 *)
Definition compare (c : ccode) (a b : Z) : option bool :=
  match c with
  | CC_EQ => Some (a =? b)
  | CC_NE => Some (negb (a =? b))
  | CC_LT => Some (a <? b)
  | CC_GT => Some (b <? a)
  | CC_LE => Some (a <=? b)
  | CC_GE => Some (b <=? a)
  | _ => None
  end.

(* ---- operands ---- *)

(* How an instruction fetches an operand: interp_get_int, interp_get_real,
   interp_get_pointer, interp_get_scalar (src/jit/jit-interp.c:134-222), the label,
   handle, exit number or constant taken directly, or not at all. *)
Inductive mode := MInt | MReal | MPtr | MScalar | MLabel | MHandle | MExit | MConst | MNone.

Definition mode1 (o : opcode) : mode :=
  match o with
  | J_SEND | J_RECV | MACRO_SALLOC => MConst
  | J_ADD | J_SUB | J_MUL | J_DIV | J_REM | J_AND | J_OR | J_XOR | J_SHL | J_ASR | J_CMP | J_CCMP
  | J_NEG | J_NOT | J_CLAMP | J_CSEL | J_SCVTF | MACRO_EXP | MACRO_GALLOC | MACRO_LALLOC
  | MACRO_CASE => MInt
  | J_FADD | J_FSUB | J_FMUL | J_FDIV | J_FNEG | J_FCVTNS | J_FCMP | J_FCCMP | MACRO_FEXP => MReal
  | J_LOAD | J_ULOAD | J_LEA | MACRO_COPY | MACRO_MOVE | MACRO_BZERO | MACRO_MEMSET | MACRO_SADD => MPtr
  | J_STORE | J_MOV => MScalar
  | J_JUMP => MLabel
  | J_CALL | MACRO_GETPRIV | MACRO_PUTPRIV => MHandle
  | MACRO_EXIT => MExit
  | J_RET | J_TRAP | J_CSET | J_DEBUG | J_NOP | MACRO_TRIM | MACRO_REEXEC => MNone
  end.

Definition mode2 (o : opcode) : mode :=
  match o with
  | J_ADD | J_SUB | J_MUL | J_DIV | J_REM | J_AND | J_OR | J_XOR | J_SHL | J_ASR | J_CMP | J_CCMP
  | J_CSEL | MACRO_EXP | MACRO_MEMSET | MACRO_SADD => MInt
  | J_FADD | J_FSUB | J_FMUL | J_FDIV | J_FCMP | J_FCCMP | MACRO_FEXP => MReal
  | J_STORE | MACRO_COPY | MACRO_MOVE | MACRO_PUTPRIV => MPtr
  | J_SEND => MScalar
  | MACRO_CASE => MLabel
  | MACRO_SALLOC => MConst
  | _ => MNone
  end.

Section Machine.
Variable W : Type.
Variable cpool_base : Z.
Variable cover_addr : Z -> Z.

(* What the remaining instructions do, given the operands, the value of the result
   register, the flag, the argument slots and the outside state: the value for the
   result register, the flag, the argument slots and the outside state, or
   undefined behaviour. *)
Variable prim : opcode -> size -> ccode -> Z -> Z -> Z -> bool -> (nat -> Z) -> W ->
                option (Z * bool * (nat -> Z) * W).

(* Modelled: src/jit/jit-interp.c:134-222. *)
Definition fetch (m : mode) (regs : nat -> Z) (v : value) : option Z :=
  match m, v with
  | MNone, _ => Some 0
  | (MInt | MReal | MPtr | MScalar), VReg r => Some (regs r)
  | (MInt | MReal | MScalar | MConst), VInt z => Some z
  | (MInt | MReal | MScalar), VDouble b => Some b
  | (MInt | MPtr | MScalar), VAddrAbs z => Some z
  | (MPtr | MScalar), VAddrReg r d => Some (wrap (regs r + d))
  | (MPtr | MScalar), VAddrCpool z => Some (wrap (cpool_base + z))
  | (MPtr | MScalar), VAddrCover z => Some (cover_addr z)
  | (MScalar | MLabel), VLabel l => Some (Z.of_nat l)
  | (MScalar | MHandle), VHandle h => Some h
  | MScalar, VLocus p => Some p
  | MExit, VExit e => Some e
  | _, _ => None
  end.

(* The effect of an instruction. *)
Record effect := Effect {
  e_res : option Z; e_flag : bool; e_args : nat -> Z; e_w : W;
  e_jump : option nat; e_done : bool }.

Definition setr (v : Z) (fl : bool) (ar : nat -> Z) (w : W) : option effect :=
  Some (Effect (Some v) fl ar w None false).
Definition jump (t : option nat) (fl : bool) (ar : nat -> Z) (w : W) : option effect :=
  Some (Effect None fl ar w t false).

(* Modelled: src/jit/jit-interp.c:224-1058, one function per instruction.  [a] and
   [b] are the operands, [rv] the value of the result register. *)
Definition exec (o : opcode) (s : size) (c : ccode) (a b rv : Z) (fl : bool) (ar : nat -> Z) (w : W)
  : option effect :=
  match o with
  | J_RECV => setr (ar (Z.to_nat a)) fl ar w
  | J_SEND => Some (Effect None fl (upd ar (Z.to_nat a) b) w None false)
  | J_AND => setr (Z.land a b) fl ar w
  | J_OR => setr (Z.lor a b) fl ar w
  | J_XOR => setr (Z.lxor a b) fl ar w
  | J_ADD | J_SUB | J_MUL =>
    let f := match o with J_ADD => Z.add | J_SUB => Z.sub | _ => Z.mul end in
    match checked f s c a b with
    | Some (v, Some fl') => setr v fl' ar w
    | Some (v, None) => setr v fl ar w
    | None => None
    end
  | J_DIV => if (b =? 0) || ((a =? - M63) && (b =? -1)) then None else setr (Z.quot a b) fl ar w
  | J_REM => if (b =? 0) || ((a =? - M63) && (b =? -1)) then None
             else setr (a - Z.quot a b * b) fl ar w
  | J_SHL => if (0 <=? b) && (b <? 64) then setr (wrap (Z.shiftl a b)) fl ar w else None
  | J_ASR => if (0 <=? b) && (b <? 64) then setr (Z.shiftr a b) fl ar w else None
  | J_NEG => setr (wrap (- a)) fl ar w
  | J_NOT => setr (b2z (a =? 0)) fl ar w
  | J_CLAMP => setr (if a <? 0 then 0 else a) fl ar w
  | J_CMP => jump None (match compare c a b with Some r => r | None => false end) ar w
  | J_CCMP => jump None (match compare c a b with Some r => fl && r | None => false end) ar w
  | J_CSET => setr (b2z fl) fl ar w
  | J_CSEL => setr (if fl then a else b) fl ar w
  | J_MOV | J_LEA => setr a fl ar w
  | J_JUMP =>
    match c with
    | CC_NONE => jump (Some (Z.to_nat a)) fl ar w
    | CC_T => jump (if fl then Some (Z.to_nat a) else None) fl ar w
    | CC_F => jump (if fl then None else Some (Z.to_nat a)) fl ar w
    | _ => None
    end
  | MACRO_CASE => jump (if rv =? a then Some (Z.to_nat b) else None) fl ar w
  | J_RET => Some (Effect None fl ar w None true)
  | J_NOP | J_DEBUG => jump None fl ar w
  | J_TRAP => None
  | MACRO_REEXEC =>
    match prim o s c 0 0 0 false ar w with
    | Some (_, _, ar', w') => Some (Effect None fl ar' w' None true)
    | None => None
    end
  (* comparisons of reals *)
  | J_FCMP =>
    match prim o s c a b 0 false ar w with Some (_, fl', _, _) => jump None fl' ar w | None => None end
  | J_FCCMP =>
    match prim o s c a b 0 fl ar w with Some (_, fl', _, _) => jump None fl' ar w | None => None end
  (* operations on reals, exponentiation, reads of memory and addresses: a result and nothing else *)
  | J_FADD | J_FSUB | J_FMUL | J_FDIV | J_FNEG | J_SCVTF | J_FCVTNS | MACRO_FEXP
  | J_LOAD | J_ULOAD | MACRO_GETPRIV | MACRO_SALLOC =>
    match prim o s c a b 0 false ar w with Some (v, _, _, _) => setr v fl ar w | None => None end
  | MACRO_EXP =>
    match prim o s c a b 0 false ar w with
    | Some (v, fl', _, _) => setr v (if cc_none c then fl else fl') ar w
    | None => None
    end
  (* allocation: a result and a change outside *)
  | MACRO_GALLOC | MACRO_LALLOC =>
    match prim o s c a b 0 false ar w with Some (v, _, _, w') => setr v fl ar w' | None => None end
  (* writes of memory: only a change outside *)
  | J_STORE | MACRO_PUTPRIV | MACRO_TRIM | MACRO_SADD =>
    match prim o s c a b 0 false ar w with Some (_, _, _, w') => jump None fl ar w' | None => None end
  | MACRO_COPY | MACRO_MOVE | MACRO_BZERO | MACRO_MEMSET =>
    match prim o s c a b rv false ar w with Some (_, _, _, w') => jump None fl ar w' | None => None end
  (* calls: argument slots and the outside *)
  | J_CALL | MACRO_EXIT =>
    match prim o s c a b 0 false ar w with
    | Some (_, _, ar', w') => jump None fl ar' w'
    | None => None
    end
  end.

Record state := State { pc : nat; regs : nat -> Z; flag : bool; args : nat -> Z; outside : W }.

Inductive outcome :=
| Next (s : state)
| Done (ar : nat -> Z) (w : W)
| Crash.

(* Storing an effect; a result without a register, or a register that is read but
   not there, is undefined behaviour. *)
Definition apply (i : ir) (s : state) (e : effect) : outcome :=
  if e_done e then Done (e_args e) (e_w e)
  else
    let pc' := match e_jump e with Some t => t | None => S (pc s) end in
    match e_res e, result i with
    | None, _ => Next (State pc' (regs s) (e_flag e) (e_args e) (e_w e))
    | Some v, Some r => Next (State pc' (upd (regs s) r v) (e_flag e) (e_args e) (e_w e))
    | Some _, None => Crash
    end.

(* One iteration of interp_loop, src/jit/jit-interp.c:886-1058. *)
Definition step (f : prog) (s : state) : outcome :=
  match nth_error f (pc s) with
  | None => Crash
  | Some i =>
    match fetch (mode1 (op i)) (regs s) (arg1 i), fetch (mode2 (op i)) (regs s) (arg2 i) with
    | Some a, Some b =>
      match (if reads_result i then option_map (regs s) (result i) else Some 0) with
      | None => Crash
      | Some rv =>
        match exec (op i) (sz i) (cc i) a b rv (flag s) (args s) (outside s) with
        | None => Crash
        | Some e => apply i s e
        end
      end
    | _, _ => Crash
    end
  end.

(* [n] steps. *)
Fixpoint run (n : nat) (f : prog) (s : state) : outcome :=
  match n with
  | O => Next s
  | S n' => match step f s with Next s' => run n' f s' | o => o end
  end.
End Machine.
