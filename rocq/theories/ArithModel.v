(* Model of the emission of integer arithmetic in vcode, the intermediate code made
   from VHDL statements: the emit_* functions of src/vcode.c for constants,
   arithmetic, comparisons, logic and run-time checks, with their folding of
   constants, reuse of earlier operations, value bounds and removal of checks, and
   of the way the emitted operations are executed.

   Modelled: one block without jumps, whose registers hold integers.  Left out:
   reals, the offset type, exponentiation, arrays, memory (a loaded value or a
   parameter is an [OInput]), the debug locus of an operation (a number here), and
   types that are equal but stored twice (src/vcode.c:2433-2447; a type is its two
   bounds here).  Failed assertions and undefined behaviour at compile time, such as
   overflow of int64_t, are [Fault]. *)
From Coq Require Import List ZArith Arith Bool.
From Verif Require Import Base JitModel ArithSpec.
Import ListNotations.
Local Open Scope Z_scope.

(* int64_t *)
Definition I64_MIN : Z := -9223372036854775808.
Definition I64_MAX : Z := 9223372036854775807.
Definition in_i64 (z : Z) : bool := (I64_MIN <=? z) && (z <=? I64_MAX).
(* A signed operation of C: undefined if the result does not fit. *)
Definition c_int64 (z : Z) : res Z := if in_i64 z then Ok z else Fault.

(* src/vcode.c:217-242 *)
Definition sadd64 (a b : Z) : Z :=
  if in_i64 (a + b) then a + b else if b <? 0 then I64_MIN else I64_MAX.
Definition ssub64 (a b : Z) : Z :=
  if in_i64 (a - b) then a - b else if 0 <? b then I64_MIN else I64_MAX.
Definition smul64 (a b : Z) : Z :=
  if in_i64 (a * b) then a * b
  else if ((0 <? a) && (0 <? b)) || ((a <? 0) && (b <? 0)) then I64_MAX else I64_MIN.

(* ---- types ---- *)

(* src/vcode.h:197-208 *)
Inductive repr := U1 | U8 | U16 | U32 | U64 | I8 | I16 | I32 | I64.

(* The kind VCODE_TYPE_INT of vtype_t, src/vcode.c:118-141. *)
Record vtype := VT { tlow : Z; thigh : Z }.

(* vtype_eq, src/vcode.c: the VCODE_TYPE_INT case. *)
Definition vtype_eqb (a b : vtype) : bool :=
  (tlow a =? tlow b) && (thigh a =? thigh b).

(* bits_for_range, src/common.c:882-910, and the choice of representation in
   vtype_int, src/vcode.c:2449-2480. *)
Definition vtype_repr (t : vtype) : repr :=
  let (low, high) := t in
  if high <? low then I64
  else if low <? 0 then
    if (-128 <=? low) && (high <=? 127) then I8
    else if (-32768 <=? low) && (high <=? 32767) then I16
    else if (-2147483648 <=? low) && (high <=? 2147483647) then I32
    else I64
  else
    if high <=? 1 then U1
    else if high <=? 255 then U8
    else if high <=? 65535 then U16
    else if high <=? 4294967295 then U32
    else U64.

(* src/vcode.c:2875-2879 *)
Definition vtype_repr_signed (r : repr) : bool :=
  match r with I8 | I16 | I32 | I64 => true | _ => false end.

(* src/vcode.c:2881-2895 *)
Definition vtype_repr_low (r : repr) : Z :=
  match r with
  | I8 => -128 | I16 => -32768 | I32 => -2147483648 | I64 => I64_MIN
  | _ => 0
  end.

(* src/vcode.c:2897-2911 *)
Definition vtype_repr_high (r : repr) : Z :=
  match r with
  | U1 => 1 | U8 => 255 | U16 => 65535 | U32 => 4294967295
  | U64 => 18446744073709551615
  | I8 => 127 | I16 => 32767 | I32 => 2147483647 | I64 => I64_MAX
  end.

(* The conversion of int64_t to uint64_t. *)
Definition to_u64 (z : Z) : Z := z mod 18446744073709551616.

(* src/vcode.c:2913-2925.  The high bound is signed and its limit unsigned, so that
   the bound is converted for the comparison and in MIN; the result of MIN is
   assigned back to an int64_t. *)
Definition vtype_clamp_to_repr (r : repr) (low high : Z) : bool * Z * Z :=
  let clamp_low := vtype_repr_low r in
  let clamp_high := vtype_repr_high r in
  if (clamp_low <=? low) && (to_u64 high <=? clamp_high) then (true, low, high)
  else
    (false, Z.max clamp_low low,
     wrap (if clamp_high <? to_u64 high then clamp_high else to_u64 high)).

(* src/vcode.c:2490-2493 *)
Definition vtype_bool : vtype := VT 0 1.

(* ---- registers and operations ---- *)

(* reg_t, src/vcode.c:113-116: the type and the bounds, a type as well. *)
Record reg := Reg { rtype : vtype; rbounds : vtype }.

(* The operations emitted through emit_arith. *)
Inductive kind :=
| KAdd | KSub | KMul | KTrapAdd | KTrapSub | KTrapMul | KDiv | KMod | KRem
| KAnd | KOr | KXor | KXnor | KNand | KNor.
Definition kind_eqb (a b : kind) : bool :=
  match a, b with
  | KAdd, KAdd | KSub, KSub | KMul, KMul | KTrapAdd, KTrapAdd | KTrapSub, KTrapSub
  | KTrapMul, KTrapMul | KDiv, KDiv | KMod, KMod | KRem, KRem | KAnd, KAnd | KOr, KOr
  | KXor, KXor | KXnor, KXnor | KNand, KNand | KNor, KNor => true
  | _, _ => false
  end.

(* src/vcode.h:31-40 *)
Inductive cmp := CEq | CNeq | CLt | CGt | CLeq | CGeq.
Definition cmp_eqb (a b : cmp) : bool :=
  match a, b with
  | CEq, CEq | CNeq, CNeq | CLt, CLt | CGt, CGt | CLeq, CLeq | CGeq, CGeq => true
  | _, _ => false
  end.

(* op_t, src/vcode.c:82-104.  Every operation that has a result has it in [res]; a
   locus stands for the source location a run-time error is reported at.  The type [t]
   of [OArith] and [OTrapNeg] is the one of the result register. *)
Inductive op :=
| OInput (n : nat) (res : nat)
| OConst (v : Z) (t : vtype) (res : nat)
| OArith (k : kind) (t : vtype) (l r : nat) (locus : nat) (res : nat)
| ONeg (a : nat) (res : nat)
| OTrapNeg (t : vtype) (a : nat) (locus : nat) (res : nat)
| OAbs (a : nat) (res : nat)
| ONot (a : nat) (res : nat)
| OCmp (c : cmp) (l r : nat) (res : nat)
| OSelect (t a b : nat) (res : nat)
| OCast (t : vtype) (a : nat) (res : nat)
| OZeroCheck (a : nat) (locus : nat)
| ORangeCheck (a left_ right_ dir : nat) (locus : nat).

Record code := Code { regs : list reg; ops : list op }.

(* vcode_reg_data, src/vcode.c: the register must exist. *)
Definition reg_data (c : code) (r : nat) : res reg :=
  match nth_error (regs c) r with Some x => Ok x | None => Fault end.

(* vcode_add_op and vcode_add_reg, src/vcode.c:244-281: the bounds of a new register
   are its type. *)
Definition add_op (c : code) (t : vtype) (mk : nat -> op) : code * nat :=
  let r := length (regs c) in
  (Code (regs c ++ [Reg t t]) (ops c ++ [mk r]), r).
Definition add_check (c : code) (o : op) : code := Code (regs c) (ops c ++ [o]).

Fixpoint set_nth (l : list reg) (n : nat) (x : reg) : list reg :=
  match l, n with
  | [], _ => []
  | _ :: l, O => x :: l
  | y :: l, S n => y :: set_nth l n x
  end.
(* vcode_reg_data(reg)->bounds = vtype_int(low, high) *)
Definition set_bounds (c : code) (r : nat) (low high : Z) : code :=
  match nth_error (regs c) r with
  | Some x => Code (set_nth (regs c) r (Reg (rtype x) (VT low high))) (ops c)
  | None => c
  end.

(* vcode_reg_const, src/vcode.c:613-634 *)
Definition reg_const (c : code) (r : nat) : res (option Z) :=
  do! x <- reg_data c r;
  Ok (if tlow (rbounds x) =? thigh (rbounds x) then Some (tlow (rbounds x)) else None).

(* VCODE_FOR_EACH_MATCHING_OP, src/vcode.c:204-210: the first operation of the block
   that [f] accepts, and what it returns. *)
Fixpoint find_op {A} (f : op -> option A) (l : list op) : option A :=
  match l with
  | [] => None
  | o :: l => match f o with Some a => Some a | None => find_op f l end
  end.

(* src/vcode.c:3481-3503 *)
Definition emit_const (c : code) (t : vtype) (v : Z) : res (code * nat) :=
  match find_op (fun o => match o with
                          | OConst v' t' r => if (v' =? v) && vtype_eqb t t' then Some r else None
                          | _ => None
                          end) (ops c) with
  | Some r => Ok (c, r)
  | None =>
    let (c, r) := add_op c t (OConst v t) in
    Ok (set_bounds c r v v, r)
  end.

(* src/vcode.c:3850-3874.  The assertion that both arguments have the same type comes
   after the search. *)
Definition emit_arith (c : code) (k : kind) (l r : nat) (locus : nat) : res (code * nat) :=
  match find_op (fun o => match o with
                          | OArith k' _ l' r' _ x =>
                            if kind_eqb k' k && Nat.eqb l' l && Nat.eqb r' r then Some x else None
                          | _ => None
                          end) (ops c) with
  | Some x => Ok (c, x)
  | None =>
    do! lr <- reg_data c l;
    do! rr <- reg_data c r;
    if vtype_eqb (rtype lr) (rtype rr) then
      Ok (add_op c (rtype lr) (OArith k (rtype lr) l r locus))
    else Fault
  end.

(* The end of emit_mul_op, emit_add_op and emit_sub_op: clamp, emit, set bounds.
   [trap] and [plain] are the two operations. *)
Definition emit_bounded (c : code) (is_trap : bool) (trap plain : kind) (l r : nat) (locus : nat)
  (t : vtype) (low high : Z) : res (code * nat) :=
  if is_trap then
    match vtype_clamp_to_repr (vtype_repr t) low high with
    | (true, low, high) =>
      do! (c, x) <- emit_arith c plain l r 0;      (* Cannot overflow *)
      Ok (set_bounds c x low high, x)
    | (false, low, high) =>
      do! (c, x) <- emit_arith c trap l r locus;
      Ok (set_bounds c x low high, x)
    end
  else
    do! (c, x) <- emit_arith c plain l r 0;
    Ok (set_bounds c x low high, x).

(* src/vcode.c:3876-3933 *)
Definition emit_mul_op (c : code) (is_trap : bool) (l r : nat) (locus : nat) : res (code * nat) :=
  do! lc <- reg_const c l;
  do! rc <- reg_const c r;
  do! lr <- reg_data c l;
  do! rr <- reg_data c r;
  match lc, rc with
  | Some a, Some b => do! v <- c_int64 (a * b); emit_const c (rtype lr) v
  | _, _ =>
    if match rc with Some b => b =? 1 | None => false end then Ok (c, l)
    else if match lc with Some a => a =? 1 | None => false end then Ok (c, r)
    else if match rc with Some b => b =? 0 | None => false end
            || match lc with Some a => a =? 0 | None => false end then
      emit_const c (rtype lr) 0
    else
      let bl := rbounds lr in
      let br := rbounds rr in
      let ll := smul64 (tlow bl) (tlow br) in
      let lh := smul64 (tlow bl) (thigh br) in
      let hl := smul64 (thigh bl) (tlow br) in
      let hh := smul64 (thigh bl) (thigh br) in
      let min := Z.min (Z.min ll lh) (Z.min hl hh) in
      let max := Z.max (Z.max ll lh) (Z.max hl hh) in
      emit_bounded c is_trap KTrapMul KMul l r locus (rtype lr) min max
  end.

(* src/vcode.c:4043-4082 *)
Definition emit_add_op (c : code) (is_trap : bool) (l r : nat) (locus : nat) : res (code * nat) :=
  do! lc <- reg_const c l;
  do! rc <- reg_const c r;
  do! lr <- reg_data c l;
  do! rr <- reg_data c r;
  match lc, rc with
  | Some a, Some b => do! v <- c_int64 (a + b); emit_const c (rtype lr) v
  | _, _ =>
    if match rc with Some b => b =? 0 | None => false end then Ok (c, l)
    else if match lc with Some a => a =? 0 | None => false end then Ok (c, r)
    else
      let bl := rbounds lr in
      let br := rbounds rr in
      emit_bounded c is_trap KTrapAdd KAdd l r locus (rtype lr)
        (sadd64 (tlow bl) (tlow br)) (sadd64 (thigh bl) (thigh br))
  end.

(* src/vcode.c:4389-4400 *)
Definition emit_neg (c : code) (a : nat) : res (code * nat) :=
  do! ac <- reg_const c a;
  do! ar <- reg_data c a;
  match ac with
  | Some v => do! v <- c_int64 (- v); emit_const c (rtype ar) v
  | None => Ok (add_op c (rtype ar) (ONeg a))
  end.

(* src/vcode.c:4099-4138 *)
Definition emit_sub_op (c : code) (is_trap : bool) (l r : nat) (locus : nat) : res (code * nat) :=
  do! lc <- reg_const c l;
  do! rc <- reg_const c r;
  do! lr <- reg_data c l;
  do! rr <- reg_data c r;
  match lc, rc with
  | Some a, Some b => do! v <- c_int64 (a - b); emit_const c (rtype lr) v
  | _, _ =>
    if match rc with Some b => b =? 0 | None => false end then Ok (c, l)
    else if match lc with Some a => a =? 0 | None => false end then emit_neg c r
    else
      let bl := rbounds lr in
      let br := rbounds rr in
      emit_bounded c is_trap KTrapSub KSub l r locus (rtype lr)
        (ssub64 (tlow bl) (thigh br)) (ssub64 (thigh bl) (tlow br))
  end.

(* Division of C: undefined for zero and if the quotient does not fit. *)
Definition c_div (a b : Z) : res Z := if b =? 0 then Fault else c_int64 (Z.quot a b).

(* src/vcode.c:3950-3973 *)
Definition emit_div (c : code) (l r : nat) : res (code * nat) :=
  do! lc <- reg_const c l;
  do! rc <- reg_const c r;
  do! lr <- reg_data c l;
  match lc, rc with
  | Some a, Some b =>
    if b =? 0 then emit_arith c KDiv l r 0
    else do! v <- c_div a b; emit_const c (rtype lr) v
  | _, Some b =>
    if b =? 1 then Ok (c, l)
    else
      do! (c, x) <- emit_arith c KDiv l r 0;
      if b =? 0 then Ok (c, x)
      else
        do! low <- c_div (tlow (rbounds lr)) b;
        do! high <- c_div (thigh (rbounds lr)) b;
        Ok (set_bounds c x low high, x)
  | _, None => emit_arith c KDiv l r 0
  end.

(* src/vcode.c:4023-4041 *)
Definition emit_rem (c : code) (l r : nat) : res (code * nat) :=
  do! lc <- reg_const c l;
  do! rc <- reg_const c r;
  do! lr <- reg_data c l;
  do! rr <- reg_data c r;
  let general :=
    do! (c, x) <- emit_arith c KRem l r 0;
    if (0 <=? tlow (rbounds lr)) && (0 <=? tlow (rbounds rr)) then
      do! h <- c_int64 (thigh (rbounds rr) - 1);
      Ok (set_bounds c x 0 h, x)
    else Ok (c, x) in
  match lc, rc with
  | Some a, Some b =>
    if (0 <? a) && (0 <? b) then emit_const c (rtype lr) (Z.rem a b) else general
  | _, _ => general
  end.

(* src/vcode.c:3999-4021 *)
Definition emit_mod (c : code) (l r : nat) : res (code * nat) :=
  do! lc <- reg_const c l;
  do! rc <- reg_const c r;
  do! lr <- reg_data c l;
  do! rr <- reg_data c r;
  let general :=
    if (0 <=? tlow (rbounds lr)) && (0 <=? tlow (rbounds rr)) then
      do! (c, x) <- emit_arith c KRem l r 0;
      do! h <- c_int64 (thigh (rbounds rr) - 1);
      Ok (set_bounds c x 0 (Z.max 0 h), x)
    else emit_arith c KMod l r 0 in
  match lc, rc with
  | Some a, Some b =>
    if (0 <? a) && (0 <? b) then emit_const c (rtype lr) (Z.rem a b) else general
  | _, _ => general
  end.

(* src/vcode.c:4402-4420 *)
Definition emit_trap_neg (c : code) (a : nat) (locus : nat) : res (code * nat) :=
  do! ac <- reg_const c a;
  do! ar <- reg_data c a;
  match ac with
  | Some v =>
    if 0 <=? v then do! v <- c_int64 (- v); emit_const c (rtype ar) v
    else Ok (add_op c (rtype ar) (OTrapNeg (rtype ar) a locus))
  | None =>
    if 0 <=? tlow (rbounds ar) then emit_neg c a      (* Cannot overflow *)
    else Ok (add_op c (rtype ar) (OTrapNeg (rtype ar) a locus))
  end.

(* src/vcode.c:4422-4433; llabs of the lowest integer is undefined. *)
Definition emit_abs (c : code) (a : nat) : res (code * nat) :=
  do! ac <- reg_const c a;
  do! ar <- reg_data c a;
  match ac with
  | Some v => do! v <- c_int64 (Z.abs v); emit_const c (rtype ar) v
  | None => Ok (add_op c (rtype ar) (OAbs a))
  end.

(* src/vcode.c:3335-3389 *)
Definition emit_cmp (c : code) (k : cmp) (l r : nat) : res (code * nat) :=
  if Nat.eqb l r then
    emit_const c vtype_bool (match k with CEq | CLeq | CGeq => 1 | CNeq | CLt | CGt => 0 end)
  else
    do! lc <- reg_const c l;
    do! rc <- reg_const c r;
    match lc, rc with
    | Some a, Some b =>
      emit_const c vtype_bool
        (b2z (match k with
              | CEq => a =? b | CNeq => negb (a =? b) | CLt => a <? b | CGt => b <? a
              | CLeq => a <=? b | CGeq => b <=? a
              end))
    | _, _ =>
      match find_op (fun o => match o with
                              | OCmp k' l' r' x =>
                                if Nat.eqb l' l && Nat.eqb r' r && cmp_eqb k' k then Some x else None
                              | _ => None
                              end) (ops c) with
      | Some x => Ok (c, x)
      | None =>
        do! lr <- reg_data c l;
        do! rr <- reg_data c r;
        if vtype_eqb (rtype lr) (rtype rr) then Ok (add_op c vtype_bool (OCmp k l r)) else Fault
      end
    end.

(* src/vcode.c:4574-4589 *)
Definition emit_not (c : code) (a : nat) : res (code * nat) :=
  do! ac <- reg_const c a;
  do! ar <- reg_data c a;
  match ac with
  | Some v => emit_const c vtype_bool (b2z (v =? 0))
  | None =>
    if vtype_eqb (rtype ar) vtype_bool then Ok (add_op c vtype_bool (ONot a)) else Fault
  end.

(* src/vcode.c:4481-4493 *)
Definition emit_logical_identity (c : code) (k : kind) (r : nat) (b : bool) : res (code * nat) :=
  match k with
  | KAnd => if b then Ok (c, r) else emit_const c vtype_bool 0
  | KOr => if b then emit_const c vtype_bool 1 else Ok (c, r)
  | KXor => if b then emit_not c r else Ok (c, r)
  | KXnor => if b then Ok (c, r) else emit_not c r
  | KNand => if b then emit_not c r else emit_const c vtype_bool 1
  | KNor => if b then emit_const c vtype_bool 0 else emit_not c r
  | _ => Fault
  end.

(* The truth of an integer in C. *)
Definition truth (z : Z) : bool := negb (z =? 0).

(* src/vcode.c:4495-4541 *)
Definition emit_logical (c : code) (k : kind) (l r : nat) : res (code * nat) :=
  do! lc <- reg_const c l;
  do! rc <- reg_const c r;
  match lc, rc with
  | Some a, Some b =>
    match k with
    | KAnd => emit_const c vtype_bool (b2z (truth a && truth b))
    | KOr => emit_const c vtype_bool (b2z (truth a || truth b))
    | KXor => emit_const c vtype_bool (Z.lxor a b)
    | KXnor => emit_const c vtype_bool (b2z (Z.lxor a b =? 0))
    | KNand => emit_const c vtype_bool (b2z (negb (truth a && truth b)))
    | KNor => emit_const c vtype_bool (b2z (negb (truth a || truth b)))
    | _ => Fault
    end
  | Some a, None => emit_logical_identity c k r (truth a)
  | None, Some b => emit_logical_identity c k l (truth b)
  | None, None =>
    if Nat.eqb l r then
      match k with
      | KAnd | KOr => Ok (c, l)
      | KNand | KNor => emit_not c l
      | KXor => emit_const c vtype_bool 0
      | KXnor => emit_const c vtype_bool 1
      | _ => Fault
      end
    else
      do! lr <- reg_data c l;
      do! rr <- reg_data c r;
      if vtype_eqb (rtype lr) vtype_bool && vtype_eqb (rtype rr) vtype_bool then
        emit_arith c k l r 0
      else Fault
  end.

(* src/vcode.c:4451-4479 *)
Definition emit_select (c : code) (t a b : nat) : res (code * nat) :=
  do! tc <- reg_const c t;
  match tc with
  | Some v => Ok (c, if truth v then a else b)
  | None =>
    if Nat.eqb a b then Ok (c, a)
    else
      match find_op (fun o => match o with
                              | OSelect t' a' b' x =>
                                if Nat.eqb t' t && Nat.eqb a' a && Nat.eqb b' b then Some x else None
                              | _ => None
                              end) (ops c) with
      | Some x => Ok (c, x)
      | None =>
        do! tr <- reg_data c t;
        do! ar <- reg_data c a;
        do! br <- reg_data c b;
        if vtype_eqb (rtype tr) vtype_bool && vtype_eqb (rtype ar) (rtype br) then
          Ok (add_op c (rtype ar) (OSelect t a b))
        else Fault
      end
  end.

(* src/vcode.c:4217-4274, between integer types; [bounds] is the optional third
   argument. *)
Definition emit_cast (c : code) (t : vtype) (bounds : option vtype) (a : nat) : res (code * nat) :=
  do! ar <- reg_data c a;
  if vtype_eqb (rtype ar) t then Ok (c, a)
  else
    do! ac <- reg_const c a;
    match ac with
    | Some v => emit_const c t v
    | None =>
      match find_op (fun o => match o with
                              | OCast t' a' x =>
                                if vtype_eqb t' t && Nat.eqb a' a then Some x else None
                              | _ => None
                              end) (ops c) with
      | Some x => Ok (c, x)
      | None =>
        let (c, x) := add_op c t (OCast t a) in
        let low := Z.max (tlow t) (tlow (rbounds ar)) in
        let high := Z.min (thigh t) (thigh (rbounds ar)) in
        match bounds with
        | Some b => Ok (set_bounds c x (Z.max low (tlow b)) (Z.min high (thigh b)), x)
        | None => Ok (set_bounds c x low high, x)
        end
      end
    end.

(* A parameter or a loaded value: vcode_add_reg and the bounds of the parameter or
   variable, src/vcode.c:3756-3770. *)
Definition emit_input (c : code) (t : vtype) (bounds : vtype) (n : nat) : res (code * nat) :=
  let (c, x) := add_op c t (OInput n) in
  Ok (set_bounds c x (tlow bounds) (thigh bounds), x).

(* src/vcode.c:5702-5721 *)
Definition emit_zero_check (c : code) (a : nat) (locus : nat) : res code :=
  do! ac <- reg_const c a;
  if match ac with Some v => negb (v =? 0) | None => false end then Ok c
  else
    match find_op (fun o => match o with
                            | OZeroCheck a' _ => if Nat.eqb a' a then Some tt else None
                            | _ => None
                            end) (ops c) with
    | Some _ => Ok c
    | None => Ok (add_check c (OZeroCheck a locus))
    end.

(* src/tree.h:88-89 *)
Definition RANGE_TO : Z := 0.
Definition RANGE_DOWNTO : Z := 1.

(* vcode_can_elide_bounds, src/vcode.c:5723-5763, for integers. *)
Definition can_elide_bounds (c : code) (a left_ right_ dir : nat) : res bool :=
  do! dc <- reg_const c dir;
  do! lc <- reg_const c left_;
  do! rc <- reg_const c right_;
  do! ar <- reg_data c a;
  match dc, lc, rc with
  | Some d, Some l, Some r =>
    let is_null := ((d =? RANGE_TO) && (r <? l)) || ((d =? RANGE_DOWNTO) && (l <? r)) in
    Ok (((d =? RANGE_TO) && (l <=? tlow (rbounds ar)) && (thigh (rbounds ar) <=? r))
        || ((d =? RANGE_DOWNTO) && (r <=? tlow (rbounds ar)) && (thigh (rbounds ar) <=? l))
        || (negb is_null && (Nat.eqb a left_ || Nat.eqb a right_)))
  | _, _, _ => Ok false
  end.

(* emit_bounds_check, src/vcode.c:5765-5799 *)
Definition emit_range_check (c : code) (a left_ right_ dir : nat) (locus : nat) : res code :=
  match find_op (fun o => match o with
                          | ORangeCheck a' l' r' d' _ =>
                            if Nat.eqb a' a && Nat.eqb l' left_ && Nat.eqb r' right_
                               && Nat.eqb d' dir then Some tt else None
                          | _ => None
                          end) (ops c) with
  | Some _ => Ok c
  | None =>
    do! elide <- can_elide_bounds c a left_ right_ dir;
    if elide then Ok c else Ok (add_check c (ORangeCheck a left_ right_ dir locus))
  end.

(* lower_check_scalar_bounds, src/lower.c:1013-1036, for a type whose range is
   [low to high]: no code at all if the value bounds lie in it, and otherwise the two
   limits and the direction as constants and a range check. *)
Definition lower_check_scalar_bounds (c : code) (a : nat) (t : vtype) (low high : Z) (locus : nat)
  : res code :=
  do! ar <- reg_data c a;
  if (low <=? high) && (low <=? tlow (rbounds ar)) && (thigh (rbounds ar) <=? high) then Ok c
  else
    do! (c, l) <- emit_const c t low;
    do! (c, r) <- emit_const c t high;
    do! (c, d) <- emit_const c vtype_bool RANGE_TO;
    emit_range_check c a l r d locus.

(* ---- execution ---- *)

(* What executing an operation does: undefined behaviour, an error at a location, or
   a value. *)
Inductive eff (A : Type) := Crash | Err (f : fail) (locus : nat) | Val (a : A).
Arguments Crash {A}.
Arguments Err {A} f locus.
Arguments Val {A} a.

(* irgen_repr_bits and irgen_jit_size, src/jit/jit-irgen.c:739-755, 787-806,
   873-885 *)
Definition jit_size (t : vtype) : size :=
  match vtype_repr t with
  | U1 | U8 | I8 => SZ_8 | U16 | I16 => SZ_16 | U32 | I32 => SZ_32 | U64 | I64 => SZ_64
  end.

(* irgen_op_trap_add, irgen_op_trap_sub and irgen_op_trap_mul, src/jit/jit-irgen.c:
   1471-1493, 1506-1528, 1598-1620, executed by interp_add, interp_sub and interp_mul. *)
Definition trapping (f : Z -> Z -> Z) (t : vtype) (locus : nat) (a b : Z) : eff Z :=
  match checked f (jit_size t) (if vtype_repr_signed (vtype_repr t) then CC_O else CC_C) a b with
  | Some (v, Some false) => Val v
  | Some (_, Some true) => Err Overflow locus
  | _ => Crash
  end.

(* interp_div and interp_rem, src/jit/jit-interp.c:311-317, 572-578 *)
Definition div_crash (a b : Z) : bool := (b =? 0) || ((a =? - M63) && (b =? -1)).

(* src/jit/jit-irgen.c:1414-1620, 1675-1717 *)
Definition exec_arith (k : kind) (t : vtype) (locus : nat) (a b : Z) : eff Z :=
  match k with
  | KAdd => Val (wrap (a + b))
  | KSub => Val (wrap (a - b))
  | KMul => Val (wrap (a * b))
  | KTrapAdd => trapping Z.add t locus a b
  | KTrapSub => trapping Z.sub t locus a b
  | KTrapMul => trapping Z.mul t locus a b
  | KDiv => if div_crash a b then Crash else Val (Z.quot a b)
  | KRem => if div_crash a b then Crash else Val (a - Z.quot a b * b)
  | KMod =>
    if div_crash a b then Crash
    else
      let r := a - Z.quot a b * b in
      if ((0 <? r) && (b <? 0)) || ((r <? 0) && (0 <? b)) then Val (wrap (r + b)) else Val r
  | KAnd => Val (Z.land a b)
  | KOr => Val (Z.lor a b)
  | KXor => Val (Z.lxor a b)
  | KXnor => Val (b2z (Z.lxor a b =? 0))
  | KNand => Val (b2z (Z.land a b =? 0))
  | KNor => Val (b2z (Z.lor a b =? 0))
  end.

(* The lowest integer of a size, src/jit/jit-irgen.c:1637-1644 *)
Definition size_min (s : size) : Z :=
  match s with
  | SZ_8 => -128 | SZ_16 => -32768 | SZ_32 => -2147483648 | SZ_64 => I64_MIN | SZ_UNSPEC => 0
  end.

Definition env := list Z.

Definition get (e : env) (r : nat) : eff Z :=
  match nth_error e r with Some v => Val v | None => Crash end.

Definition ebind {A B} (x : eff A) (f : A -> eff B) : eff B :=
  match x with Crash => Crash | Err e l => Err e l | Val a => f a end.

(* Executes one operation: src/jit/jit-irgen.c:1622-1673 (negation and absolute
   value), 1719-1734 (comparison), 2270-2290 (select), 2128-2160 (cast), 2536-2580
   (range check), 2596-2611 (zero check).  [inputs] gives the parameters and loaded
   values.  A value is added to the registers. *)
Definition exec_op (inputs : nat -> Z) (e : env) (o : op) : eff env :=
  match o with
  | OInput n _ => Val (e ++ [inputs n])
  | OConst v _ _ => Val (e ++ [v])
  | OArith k t l r locus _ =>
    ebind (get e l) (fun a => ebind (get e r) (fun b =>
      ebind (exec_arith k t locus a b) (fun v => Val (e ++ [v]))))
  | ONeg a _ => ebind (get e a) (fun a => Val (e ++ [wrap (- a)]))
  | OTrapNeg t a locus _ =>
    ebind (get e a) (fun a =>
      if size_min (jit_size t) <? a then Val (e ++ [wrap (- a)]) else Err Overflow locus)
  | OAbs a _ => ebind (get e a) (fun a => Val (e ++ [if a <? 0 then wrap (- a) else a]))
  | ONot a _ => ebind (get e a) (fun a => Val (e ++ [b2z (a =? 0)]))
  | OCmp c l r _ =>
    ebind (get e l) (fun a => ebind (get e r) (fun b =>
      Val (e ++ [b2z (match c with
                      | CEq => a =? b | CNeq => negb (a =? b) | CLt => a <? b | CGt => b <? a
                      | CLeq => a <=? b | CGeq => b <=? a
                      end)])))
  | OSelect t a b _ =>
    ebind (get e t) (fun t => ebind (get e a) (fun a => ebind (get e b) (fun b =>
      Val (e ++ [if truth t then a else b]))))
  | OCast _ a _ => ebind (get e a) (fun a => Val (e ++ [a]))
  | OZeroCheck a locus =>
    ebind (get e a) (fun a => if a =? 0 then Err DivZero locus else Val e)
  | ORangeCheck a l r d locus =>
    ebind (get e a) (fun a => ebind (get e l) (fun l => ebind (get e r) (fun r => ebind (get e d) (fun d =>
      let low := if d =? RANGE_DOWNTO then r else l in
      let high := if d =? RANGE_DOWNTO then l else r in
      if (low <=? a) && (a <=? high) then Val e else Err OutOfRange locus))))
  end.

Fixpoint exec_ops (inputs : nat -> Z) (e : env) (l : list op) : eff env :=
  match l with
  | [] => Val e
  | o :: l => ebind (exec_op inputs e o) (fun e => exec_ops inputs e l)
  end.

Definition exec_code (c : code) (inputs : nat -> Z) : eff env :=
  exec_ops inputs [] (ops c).

(* ---- a sequence of calls of the emitters ---- *)

Definition to_vtype (r : range) : vtype := VT (fst r) (snd r).

Definition logic_kind (o : logic) : kind :=
  match o with
  | LAnd => KAnd | LOr => KOr | LXor => KXor | LXnor => KXnor | LNand => KNand | LNor => KNor
  end.
Definition relation_cmp (o : relation) : cmp :=
  match o with
  | REq => CEq | RNeq => CNeq | RLt => CLt | RGt => CGt | RLeq => CLeq | RGeq => CGeq
  end.

Definition pick (m : list nat) (n : nat) : res nat :=
  match nth_error m n with Some r => Ok r | None => Fault end.

(* The calls lower_builtin and lower_arith make for the predefined operators,
   src/lower.c:1625-1660, 2105-2165, and the checks of lower_check_scalar_bounds and
   emit_range_check.  [m] gives the registers of the earlier steps; the register of a
   check is the one of the checked value. *)
Definition emit_call (c : code) (m : list nat) (k : call) : res (code * nat) :=
  match k with
  | Input t b n => emit_input c (to_vtype t) (to_vtype b) n
  | Const t v => emit_const c (to_vtype t) v
  | Sum o chk a b loc =>
    do! l <- pick m a;
    do! r <- pick m b;
    match o with
    | SPlus => emit_add_op c chk l r loc
    | SMinus => emit_sub_op c chk l r loc
    | STimes => emit_mul_op c chk l r loc
    end
  | Division o a b loc =>
    do! l <- pick m a;
    do! r <- pick m b;
    do! c <- emit_zero_check c r loc;
    match o with
    | DDiv => emit_div c l r
    | DMod => emit_mod c l r
    | DRem => emit_rem c l r
    end
  | Negate chk a loc =>
    do! a <- pick m a;
    if chk then emit_trap_neg c a loc else emit_neg c a
  | Absolute a _ => do! a <- pick m a; emit_abs c a
  | Logic o a b =>
    do! l <- pick m a;
    do! r <- pick m b;
    emit_logical c (logic_kind o) l r
  | Not a => do! a <- pick m a; emit_not c a
  | Compare o a b =>
    do! l <- pick m a;
    do! r <- pick m b;
    emit_cmp c (relation_cmp o) l r
  | Select t a b =>
    do! t <- pick m t;
    do! a <- pick m a;
    do! b <- pick m b;
    emit_select c t a b
  | Convert t b a => do! a <- pick m a; emit_cast c (to_vtype t) (Some (to_vtype b)) a
  | CheckRange a l r d loc =>
    do! a <- pick m a;
    do! l <- pick m l;
    do! r <- pick m r;
    do! d <- pick m d;
    do! c <- emit_range_check c a l r d loc;
    Ok (c, a)
  | CheckType a t r loc =>
    do! a <- pick m a;
    do! c <- lower_check_scalar_bounds c a (to_vtype t) (fst r) (snd r) loc;
    Ok (c, a)
  end.

Fixpoint emit_calls (c : code) (m : list nat) (ks : list call) : res (code * list nat) :=
  match ks with
  | [] => Ok (c, m)
  | k :: ks =>
    do! (c, r) <- emit_call c m k;
    emit_calls c (m ++ [r]) ks
  end.
Definition compile (ks : list call) : res (code * list nat) := emit_calls (Code [] []) [] ks.

(* Whether vcode_reg_const answers for step n when step i of [ks] is compiled. *)
Definition fixed_in (c : code) (m : list nat) (n : nat) : bool :=
  match nth_error m n with
  | Some r => match reg_const c r with Ok (Some _) => true | _ => false end
  | None => false
  end.
Definition fixed_at (ks : list call) (i n : nat) : bool :=
  match compile (firstn i ks) with
  | Ok (c, m) => fixed_in c m n
  | Fault => false
  end.
