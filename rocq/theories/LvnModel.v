(* Local value numbering and its peepholes, src/jit/jit-optim.c:267-993. *)
From Coq Require Import List ZArith NArith Arith Bool.
From Verif Require Import Base JitModel JitPassModel.
Import ListNotations.
Local Open Scope Z_scope.

(* ---- numbers of opcodes, sizes and conditions, src/jit/jit-priv.h:32-118 ---- *)

Definition opnum (o : opcode) : Z :=
  match o with
  | J_SEND => 0 | J_RECV => 1 | J_ADD => 2 | J_RET => 3 | J_TRAP => 4 | J_ULOAD => 5
  | J_STORE => 6 | J_JUMP => 7 | J_CMP => 8 | J_CSET => 9 | J_SUB => 10 | J_MOV => 11
  | J_FADD => 12 | J_MUL => 13 | J_FMUL => 14 | J_CALL => 15 | J_NEG => 16 | J_LOAD => 17
  | J_CSEL => 18 | J_LEA => 19 | J_NOT => 20 | J_DIV => 21 | J_FDIV => 22 | J_SCVTF => 23
  | J_FNEG => 24 | J_FCVTNS => 25 | J_FCMP => 26 | J_AND => 27 | J_OR => 28 | J_XOR => 29
  | J_FSUB => 30 | J_REM => 31 | J_DEBUG => 32 | J_NOP => 33 | J_ASR => 34 | J_SHL => 35
  | J_CLAMP => 36 | J_CCMP => 37 | J_FCCMP => 38
  | MACRO_COPY => 128 | MACRO_GALLOC => 129 | MACRO_EXIT => 130 | MACRO_FEXP => 131
  | MACRO_EXP => 132 | MACRO_BZERO => 133 | MACRO_GETPRIV => 134 | MACRO_PUTPRIV => 135
  | MACRO_LALLOC => 136 | MACRO_SALLOC => 137 | MACRO_CASE => 138 | MACRO_TRIM => 139
  | MACRO_MOVE => 140 | MACRO_MEMSET => 141 | MACRO_REEXEC => 142 | MACRO_SADD => 143
  end.
Definition sznum (s : size) : Z :=
  match s with SZ_8 => 0 | SZ_16 => 1 | SZ_32 => 2 | SZ_64 => 3 | SZ_UNSPEC => 7 end.
Definition ccnum (c : ccode) : Z :=
  match c with
  | CC_NONE => 0 | CC_T => 1 | CC_F => 2 | CC_EQ => 3 | CC_NE => 4 | CC_LT => 5 | CC_GE => 6
  | CC_GT => 7 | CC_LE => 8 | CC_O => 9 | CC_NO => 10 | CC_C => 11 | CC_NC => 12
  end.

(* ---- the state, src/jit/jit-optim.c:281-305 ---- *)

(* A value number; None is VN_INVALID.  Simplified: [nextvn] does not wrap. *)
Definition vnum := option N.
Definition SMALL_CONST : N := 100.
Definition MAX_CONSTS : nat := 32.
Definition FIRST_VN : N := 132.
Definition TRACK_ARGS : nat := 8.

(* lvn_state_t.  [regvn] has the registers, then at [nregs] the flag and behind it
   the argument slots.  An entry of the hash table points to an instruction that has
   been processed and does not change any more; here it is the instruction. *)
Record lvn := Lvn {
  regvn : nat -> vnum;
  nextvn : N;
  tab : nat -> option (ir * N);
  consts : list Z }.

Definition set_vn (st : lvn) (r : nat) (v : vnum) : lvn :=
  Lvn (upd (regvn st) r v) (nextvn st) (tab st) (consts st).

(* Modelled: src/jit/jit-optim.c:309-312. *)
Definition new_value (st : lvn) : N * lvn :=
  (nextvn st, Lvn (regvn st) (N.succ (nextvn st)) (tab st) (consts st)).

(* Modelled: src/jit/jit-optim.c:314-326. *)
Definition get_const (st : lvn) (k : N) : option Z :=
  if (k <? SMALL_CONST)%N then Some (Z.of_N k)
  else if (k <? FIRST_VN)%N then Some (nth (N.to_nat (k - SMALL_CONST)) (consts st) 0)
  else None.

Definition vn_const (st : lvn) (v : vnum) : option Z :=
  match v with Some k => get_const st k | None => None end.

(* Modelled: src/jit/jit-optim.c:328-339. *)
Definition is_const (st : lvn) (v : value) : option Z :=
  match v with
  | VInt z => Some z
  | VReg r => vn_const st (regvn st r)
  | _ => None
  end.

(* Modelled: src/jit/jit-optim.c:341-346. *)
Definition can_fold (st : lvn) (i : ir) : option (Z * Z) :=
  match is_const st (arg1 i), is_const st (arg2 i) with
  | Some a, Some b => Some (a, b)
  | _, _ => None
  end.

Fixpoint index_of (z : Z) (l : list Z) (n : nat) : option nat :=
  match l with
  | [] => None
  | x :: l' => if x =? z then Some n else index_of z l' (S n)
  end.

(* Modelled: src/jit/jit-optim.c:369-405. *)
Definition value_num (st : lvn) (v : value) : res (vnum * lvn) :=
  match v with
  | VReg r =>
    match regvn st r with
    | Some k => Ok (Some k, st)
    | None => let '(k, st1) := new_value st in Ok (Some k, set_vn st1 r (Some k))
    end
  | VInt z =>
    if (0 <=? z) && (z <? 100) then Ok (Some (Z.to_N z), st)
    else match index_of z (consts st) 0 with
         | Some n => Ok (Some (SMALL_CONST + N.of_nat n)%N, st)
         | None =>
           if (length (consts st) <? MAX_CONSTS)%nat
           then Ok (Some (SMALL_CONST + N.of_nat (length (consts st)))%N,
                    Lvn (regvn st) (nextvn st) (tab st) (consts st ++ [z]))
           else let '(k, st1) := new_value st in Ok (Some k, st1)
         end
  | VInvalid => Ok (None, st)
  | VHandle _ | VDouble _ => let '(k, st1) := new_value st in Ok (Some k, st1)
  | _ => Fault
  end.

(* Modelled: src/jit/jit-optim.c:407-410. *)
Definition commutative (o : opcode) : bool :=
  match o with J_ADD | J_MUL | J_AND | J_OR => true | _ => false end.

(* VN_INVALID is UINT_MAX. *)
Definition vn_gt (a b : vnum) : bool :=
  match a, b with
  | None, None => false
  | None, Some _ => true
  | Some _, None => false
  | Some x, Some y => (y <? x)%N
  end.

(* Modelled: src/jit/jit-optim.c:435-450. *)
Definition get_tuple (st : lvn) (i : ir) : res (Z * vnum * vnum * lvn) :=
  let t0 := Z.lor (Z.lor (opnum (op i)) (Z.shiftl (sznum (sz i)) 8)) (Z.shiftl (ccnum (cc i)) 11) in
  do! (vn1, st1) <- value_num st (arg1 i);
  do! (vn2, st2) <- value_num st1 (arg2 i);
  if commutative (op i) && vn_gt vn1 vn2 then Ok (t0, vn2, vn1, st2) else Ok (t0, vn1, vn2, st2).

(* src/util.h:180-185 mix_bits_32. *)
Definition mix_bits_32 (n : Z) : Z :=
  let n1 := (n mod 2 ^ 32) * 0xcc9e2d51 mod 2 ^ 32 in
  let n2 := Z.lor (Z.shiftl n1 15 mod 2 ^ 32) (Z.shiftr n1 17) in
  n2 * 0x1b873593 mod 2 ^ 32.
Definition vz (v : vnum) : Z := match v with Some k => Z.of_N k | None => -1 end.
Definition tuple_hash (t0 : Z) (t1 t2 : vnum) : Z := mix_bits_32 (t0 * 29 + vz t1 * 1093 + vz t2 * 6037).

Definition vnum_eqb (a b : vnum) : bool :=
  match a, b with
  | Some x, Some y => (x =? y)%N
  | None, None => true
  | _, _ => false
  end.

Definition mov_of (i : ir) (v : value) : ir := Ir J_MOV SZ_UNSPEC (target i) CC_NONE (result i) v VInvalid.

(* Modelled: src/jit/jit-optim.c:462-503, the loop of jit_lvn_generic: [limit]
   places are still looked at. *)
Fixpoint probe (tabsz : nat) (limit : nat) (idx : nat) (stale : option nat)
  (t0 : Z) (t1 t2 : vnum) (vn : vnum) (i : ir) (r : nat) (st : lvn) : res (ir * lvn) :=
  match limit with
  | O => Ok (i, st)
  | S limit' =>
    let next := ((idx + 1) mod tabsz)%nat in
    match tab st idx with
    | None =>
      let place := match stale with Some p => p | None => idx end in
      let '(k, st1) := match vn with Some k => (k, st) | None => new_value st end in
      Ok (i, Lvn (upd (regvn st1) r (Some k)) (nextvn st1) (upd (tab st1) place (Some (i, k)))
                 (consts st1))
    | Some (e, k) =>
      match result e with
      | None => Fault
      | Some re =>
        if negb (vnum_eqb (regvn st re) (Some k))
        then probe tabsz limit' next (Some idx) t0 t1 t2 vn i r st
        else
          do! (c0, c1, c2, st1) <- get_tuple st e;
          if (c0 =? t0) && vnum_eqb c1 t1 && vnum_eqb c2 t2 then
            let v := match vn_const st1 (regvn st1 re) with
                     | Some z => VInt z
                     | None => VReg re
                     end in
            Ok (mov_of i v, set_vn st1 r (Some k))
          else probe tabsz limit' next stale t0 t1 t2 vn i r st1
      end
    end
  end.

Section Pass.
Variable nregs : nat.
Variable tabsz : nat.
(* The bytes of the constant pool, as loaded with a size. *)
Variable cpool_load : size -> Z -> Z.

(* Modelled: src/jit/jit-optim.c:452-504. *)
Definition generic (i : ir) (st : lvn) (vn : vnum) : res (ir * lvn) :=
  match result i with
  | None => Fault
  | Some r =>
    do! (t0, t1, t2, st1) <- get_tuple st i;
    probe tabsz 10 (Z.to_nat (tuple_hash t0 t1 t2 mod Z.of_nat tabsz)) None t0 t1 t2 vn i r st1
  end.

(* Modelled: src/jit/jit-optim.c:412-433. *)
Definition kill_flags (st : lvn) : lvn := set_vn st nregs None.
Definition kill_args (st : lvn) : lvn :=
  Lvn (fun r => if (nregs <? r)%nat && (r <=? nregs + TRACK_ARGS)%nat then None else regvn st r)
      (nextvn st) (tab st) (consts st).
Definition commute_const (st : lvn) (i : ir) : ir :=
  match is_const st (arg1 i) with
  | Some _ => Ir (op i) (sz i) (target i) (cc i) (result i) (arg2 i) (arg1 i)
  | None => i
  end.

(* Modelled: src/jit/jit-optim.c:667-682. *)
Definition lvn_mov (i : ir) (st : lvn) : res (ir * lvn) :=
  match result i with
  | None => Fault
  | Some r =>
    if is_reg (arg1 i) r then Ok (nop_of i, st)
    else
      do! (vn, st1) <- value_num st (arg1 i);
      if vnum_eqb (regvn st1 r) vn then Ok (nop_of i, st1) else generic i st1 vn
  end.

(* Modelled: src/jit/jit-optim.c:348-357. *)
Definition convert_mov (i : ir) (st : lvn) (v : value) : res (ir * lvn) := lvn_mov (mov_of i v) st.

(* LVN_REG(ir->arg1.reg).  Simplified: reading the member [reg] of an operand that
   is not a register is a [Fault]. *)
Definition arg1_reg (i : ir) : res value :=
  match arg1 i with VReg r => Ok (VReg r) | _ => Fault end.

(* __builtin_*_overflow with a result of the size. *)
Definition fits (s : size) (z : Z) : bool := strunc s z =? z.
Definition kill_if_checked (i : ir) (st : lvn) : lvn := if cc_none (cc i) then st else kill_flags st.

Definition set_op (i : ir) (o : opcode) (a b : value) : ir :=
  Ir o (sz i) (target i) (cc i) (result i) a b.

Definition is_power_of_2 (z : Z) : bool := 2 ^ Z.log2 z =? z.

(* Modelled: src/jit/jit-optim.c:506-545. *)
Definition lvn_mul (i : ir) (st0 : lvn) : res (ir * lvn) :=
  let st := kill_if_checked i st0 in
  let rest :=
    let j := commute_const st i in
    match is_const st (arg2 j) with
    | Some rhs =>
      if rhs =? 0 then convert_mov j st (VInt 0)
      else if rhs =? 1 then do! v <- arg1_reg j; convert_mov j st v
      else if (0 <? rhs) && is_power_of_2 rhs && match sz j with SZ_UNSPEC => true | _ => false end
      then generic (set_op j J_SHL (arg1 j) (VInt (Z.log2 rhs))) st None
      else generic j st None
    | None => generic j st None
    end in
  match can_fold st i with
  | Some (lhs, rhs) => if fits (sz i) (lhs * rhs) then convert_mov i st (VInt (lhs * rhs)) else rest
  | None => rest
  end.

(* Modelled: src/jit/jit-optim.c:547-570.  Division by zero after truncation and
   INT_MIN / -1 stop the compiler. *)
Definition lvn_div (i : ir) (st0 : lvn) : res (ir * lvn) :=
  let st := kill_if_checked i st0 in
  let rest :=
    match is_const st (arg2 i) with
    | Some rhs => if rhs =? 1 then do! v <- arg1_reg i; convert_mov i st v else generic i st None
    | None => generic i st None
    end in
  match can_fold st i with
  | Some (lhs, rhs) =>
    if rhs =? 0 then rest
    else
      let a := strunc (sz i) lhs in
      let b := strunc (sz i) rhs in
      if (b =? 0) || ((a =? - M63) && (b =? -1)) then Fault
      else convert_mov i st (VInt (strunc (sz i) (Z.quot a b)))
  | None => rest
  end.

(* Modelled: src/jit/jit-optim.c:572-599. *)
Definition lvn_add (i : ir) (st0 : lvn) : res (ir * lvn) :=
  let st := kill_if_checked i st0 in
  let rest :=
    let j := commute_const st i in
    match is_const st (arg2 j) with
    | Some rhs => if rhs =? 0 then do! v <- arg1_reg j; convert_mov j st v else generic j st None
    | None => generic j st None
    end in
  match can_fold st i with
  | Some (lhs, rhs) => if fits (sz i) (lhs + rhs) then convert_mov i st (VInt (lhs + rhs)) else rest
  | None => rest
  end.

(* Modelled: src/jit/jit-optim.c:601-634. *)
Definition lvn_sub (i : ir) (st0 : lvn) : res (ir * lvn) :=
  let st := kill_if_checked i st0 in
  let neg :=
    match is_const st (arg1 i) with
    | Some lhs =>
      if (lhs =? 0) && cc_none (cc i) && match sz i with SZ_UNSPEC => true | _ => false end
      then generic (set_op i J_NEG (arg2 i) VInvalid) st None
      else generic i st None
    | None => generic i st None
    end in
  let rest :=
    match is_const st (arg2 i) with
    | Some rhs => if rhs =? 0 then do! v <- arg1_reg i; convert_mov i st v else neg
    | None => neg
    end in
  match can_fold st i with
  | Some (lhs, rhs) => if fits (sz i) (lhs - rhs) then convert_mov i st (VInt (lhs - rhs)) else rest
  | None => rest
  end.

(* Modelled: src/jit/jit-optim.c:636-665 and 754-761. *)
Definition lvn_neg (i : ir) (st : lvn) : res (ir * lvn) :=
  match is_const st (arg1 i) with
  | Some z => convert_mov i st (VInt (wrap (- z)))
  | None => generic i st None
  end.
Definition lvn_xor (i : ir) (st : lvn) : res (ir * lvn) :=
  match is_const st (arg1 i), is_const st (arg2 i) with
  | Some a, Some b => convert_mov i st (VInt (Z.lxor a b))
  | Some a, None => if a =? 0 then convert_mov i st (arg2 i) else generic i st None
  | None, Some b => if b =? 0 then convert_mov i st (arg1 i) else generic i st None
  | None, None => generic i st None
  end.
Definition lvn_asr (i : ir) (st : lvn) : res (ir * lvn) :=
  match can_fold st i with
  | Some (a, b) =>
    if (0 <=? b) && (b <? 64) then convert_mov i st (VInt (Z.shiftr a b)) else generic i st None
  | None => generic i st None
  end.
Definition lvn_clamp (i : ir) (st : lvn) : res (ir * lvn) :=
  match is_const st (arg1 i) with
  | Some z => convert_mov i st (VInt (if z <? 0 then 0 else z))
  | None => generic i st None
  end.

(* Modelled: src/jit/jit-optim.c:684-704. *)
Definition lvn_cmp (i : ir) (st : lvn) : res (ir * lvn) :=
  match can_fold st i with
  | Some (a, b) =>
    match compare (cc i) a b with
    | Some r => Ok (i, set_vn st nregs (Some (if r then 1%N else 0%N)))
    | None => Fault
    end
  | None => Ok (i, set_vn st nregs None)
  end.
(* Modelled: src/jit/jit-optim.c:706-717. *)
Definition lvn_ccmp (i : ir) (st : lvn) : res (ir * lvn) :=
  match regvn st nregs with
  | Some k => if (k =? 0)%N then Ok (nop_of i, st)
              else lvn_cmp (set_op i J_CMP (arg1 i) (arg2 i)) st
  | None => Ok (i, kill_flags st)
  end.
(* Modelled: src/jit/jit-optim.c:719-731. *)
Definition lvn_csel (i : ir) (st : lvn) : res (ir * lvn) :=
  match regvn st nregs with
  | Some k => convert_mov i st (if (k =? 0)%N then arg2 i else arg1 i)
  | None => Ok (i, st)
  end.
Definition lvn_cset (i : ir) (st : lvn) : res (ir * lvn) :=
  match regvn st nregs with
  | Some k => convert_mov i st (VInt (Z.of_N k))
  | None => Ok (i, st)
  end.

(* Modelled: src/jit/jit-optim.c:733-752 jit_lvn_jump: [cur] is irbuf, [n] the index
   of the jump. *)
Definition lvn_jump (cur : prog) (n : nat) (i : ir) (st : lvn) : res (ir * lvn) :=
  match arg1 i with
  | VLabel l =>
    if (length cur <=? l)%nat then Fault
    else
      let known :=
        match regvn st nregs with
        | Some k =>
          if cc_none (cc i) then Some (cc i)
          else if (k =? match cc i with CC_T => 1 | _ => 0 end)%N then Some CC_NONE else None
        | None => Some (cc i)
        end in
      match known with
      | None => Ok (nop_of i, st)
      | Some c =>
        let j := Ir (op i) (sz i) (target i) c (result i) (arg1 i) (arg2 i) in
        if (l =? S n)%nat then Ok (nop_of j, st)
        else
          match (if (l =? n)%nat then Some j else nth_error cur l) with
          | None => Fault
          | Some dest =>
            if op_eqb (op dest) J_JUMP && cc_none (cc dest)
            then Ok (Ir (op j) (sz j) (target j) (cc j) (result j) (arg1 dest) (arg2 j), st)
            else Ok (j, st)
          end
      end
  | _ => Fault
  end.

(* Modelled: src/jit/jit-optim.c:763-793. *)
Definition slot_of (v : value) : res nat :=
  match v with VInt z => Ok (Z.to_nat (z mod 2 ^ 32)) | _ => Fault end.
Definition lvn_recv (i : ir) (st : lvn) : res (ir * lvn) :=
  match result i with
  | None => Fault
  | Some r =>
    do! nth <- slot_of (arg1 i);
    if (TRACK_ARGS <=? nth)%nat then Ok (i, st)
    else
      let vreg := (nregs + 1 + nth)%nat in
      match regvn st vreg with
      | Some k => Ok (i, set_vn st r (Some k))
      | None => let '(k, st1) := new_value st in
                Ok (i, set_vn (set_vn st1 vreg (Some k)) r (Some k))
      end
  end.
Definition lvn_send (i : ir) (st : lvn) : res (ir * lvn) :=
  do! nth <- slot_of (arg1 i);
  if (TRACK_ARGS <=? nth)%nat then Ok (i, st)
  else match arg2 i with
       | VReg r =>
         do! (vn, st1) <- value_num st (VReg r);
         match vn with
         | Some k => if vnum_eqb (regvn st1 (nregs + 1 + nth)) (Some k) then Ok (nop_of i, st1)
                     else Ok (i, st1)
         | None => Ok (i, st1)
         end
       | _ => Ok (i, st)
       end.

Definition clobber (i : ir) (st : lvn) : res (ir * lvn) :=
  match result i with
  | None => Fault
  | Some r => let '(k, st1) := new_value st in Ok (i, set_vn st1 r (Some k))
  end.
Definition size_of (bytes : Z) : size :=
  match Z.log2 bytes with 0 => SZ_8 | 1 => SZ_16 | 2 => SZ_32 | _ => SZ_64 end.
Definition store_of (i : ir) (v : Z) (s : size) : ir :=
  Ir J_STORE s (target i) (cc i) None (VInt v) (arg1 i).
Definition count_of (i : ir) (st : lvn) : option Z :=
  match result i with Some r => vn_const st (regvn st r) | None => None end.

(* Modelled: src/jit/jit-optim.c:795-842. *)
Definition lvn_copy (i : ir) (st : lvn) : res (ir * lvn) :=
  let j := match op i, arg2 i with
           | MACRO_MOVE, VAddrCpool _ => set_op i MACRO_COPY (arg1 i) (arg2 i)
           | _, _ => i
           end in
  match count_of j st with
  | Some count =>
    if count =? 0 then Ok (nop_of j, st)
    else if (0 <? count) && (count <=? 8) && is_power_of_2 count then
      match arg2 j with
      | VAddrCpool z => Ok (store_of j (cpool_load (size_of count) z) (size_of count), st)
      | _ => clobber j st
      end
    else clobber j st
  | None => clobber j st
  end.
(* Modelled: src/jit/jit-optim.c:844-865. *)
Definition lvn_bzero (i : ir) (st : lvn) : res (ir * lvn) :=
  match count_of i st with
  | Some count =>
    if count =? 0 then Ok (nop_of i, st)
    else if (0 <? count) && (count <=? 8) && is_power_of_2 count
    then Ok (store_of i 0 (size_of count), st)
    else clobber i st
  | None => clobber i st
  end.
(* Modelled: src/jit/jit-optim.c:867-915. *)
Definition U64 (z : Z) : Z := z mod 2 ^ 64.
Definition compress (s : size) : option Z :=
  match s with
  | SZ_8 => Some 0x01 | SZ_16 => Some 0x0101 | SZ_32 => Some 0x01010101
  | SZ_64 => Some 0x0101010101010101 | SZ_UNSPEC => None
  end.
Definition expand (s : size) : Z :=
  match s with
  | SZ_8 => 0x0101010101010101 | SZ_16 => 0x0001000100010001 | SZ_32 => 0x100000001 | _ => 1
  end.
Definition lvn_memset (i : ir) (st : lvn) : res (ir * lvn) :=
  match is_const st (arg2 i) with
  | Some value =>
    if value =? 0
    then lvn_bzero (Ir MACRO_BZERO SZ_UNSPEC (target i) (cc i) (result i) (arg1 i) VInvalid) st
    else
      match compress (sz i) with
      | None => Fault
      | Some comp =>
        let bits := U64 value in
        let '(j, bits') :=
          if bits =? U64 (Z.land bits 0xff * comp)
          then (Ir (op i) SZ_8 (target i) (cc i) (result i) (arg1 i) (VInt (Z.land bits 0xff)),
                Z.land bits 0xff)
          else (i, bits) in
        match count_of j st with
        | Some bytes =>
          if bytes =? 0 then Ok (nop_of j, st)
          else if (0 <? bytes) && (bytes <=? 8) && is_power_of_2 bytes
          then Ok (store_of j (wrap (Z.land (U64 (bits' * expand (sz j))) (2 ^ (8 * bytes) - 1)))
                            (size_of bytes), st)
          else clobber j st
        | None => clobber j st
        end
      end
  | None => clobber i st
  end.
(* Modelled: src/jit/jit-optim.c:917-933; src/util.c:1226-1248 ipow.  With a base
   that is not written as a number, [arg1.int64 = 1] overwrites the register. *)
Definition lvn_exp (i : ir) (st : lvn) : res (ir * lvn) :=
  if negb (cc_none (cc i)) then generic i (kill_flags st) None
  else match can_fold st i with
       | Some (b, e) => if e <? 0 then Fault else convert_mov i st (VInt (wrap (b ^ e)))
       | None =>
         match is_const st (arg1 i) with
         | Some b =>
           if b =? 2 then
             do! a <- match arg1 i with
                      | VInt _ => Ok (VInt 1)
                      | VReg _ => Ok (VReg 1)
                      | _ => Fault
                      end;
             generic (set_op i J_SHL a (arg2 i)) st None
           else generic i st None
         | None => generic i st None
         end
       end.

(* Modelled: src/jit/jit-optim.c:982-985. *)
Definition lvn_other (i : ir) (st : lvn) : lvn :=
  let st1 := if writes_flags i then kill_flags st else st in
  match result i with Some r => set_vn st1 r None | None => st1 end.

(* Modelled: src/jit/jit-optim.c:955-986. *)
Definition lvn_one (cur : prog) (n : nat) (i : ir) (st : lvn) : res (ir * lvn) :=
  match op i with
  | J_MUL => lvn_mul i st
  | J_DIV => lvn_div i st
  | J_ADD => lvn_add i st
  | J_SUB => lvn_sub i st
  | J_NEG => lvn_neg i st
  | J_XOR => lvn_xor i st
  | J_ASR => lvn_asr i st
  | J_MOV => lvn_mov i st
  | J_CMP => lvn_cmp i st
  | J_CCMP => lvn_ccmp i st
  | J_CSEL => lvn_csel i st
  | J_CSET => lvn_cset i st
  | J_JUMP => lvn_jump cur n i st
  | J_CLAMP => lvn_clamp i st
  | J_RECV => lvn_recv i st
  | J_SEND => lvn_send i st
  | MACRO_MOVE | MACRO_COPY => lvn_copy i st
  | MACRO_BZERO => lvn_bzero i st
  | MACRO_MEMSET => lvn_memset i st
  | MACRO_EXP => lvn_exp i st
  | MACRO_EXIT | J_CALL => Ok (i, lvn_other i (kill_args st))
  | _ => Ok (i, lvn_other i st)
  end.

(* Modelled: src/jit/jit-optim.c:950-953. *)
Definition reset_vns (st : lvn) : lvn := Lvn (fun _ => None) (nextvn st) (tab st) (consts st).
Definition enter (reset : bool) (i : ir) (st : lvn) : lvn :=
  if reset || target i then reset_vns st else st.

(* Modelled: src/jit/jit-optim.c:946-987: [k] instructions from [n] on. *)
Fixpoint lvn_loop (k n : nat) (reset : bool) (st : lvn) (cur : prog) : res prog :=
  match k with
  | O => Ok cur
  | S k' =>
    match nth_error cur n with
    | None => Fault
    | Some i =>
      do! (i', st') <- lvn_one cur n i (enter reset i st);
      let cur' := set_nth cur n i' in
      lvn_loop k' (S n) (is_terminator cur' n) st' cur'
    end
  end.
End Pass.

Definition lvn_init : lvn := Lvn (fun _ => None) FIRST_VN (fun _ => None) [].

(* src/util.c:1199-1209, for positive numbers. *)
Definition next_power_of_2 (n : nat) : nat := Z.to_nat (2 ^ Z.log2_up (Z.of_nat n)).

(* Modelled: src/jit/jit-optim.c:935-993. *)
Definition lvn_pass (nregs : nat) (cpool_load : size -> Z -> Z) (f : prog) : res prog :=
  lvn_loop nregs (next_power_of_2 (length f)) cpool_load (length f) 0 true lvn_init f.
