(* Model of the second intermediate code, MIR, for integer arithmetic: the builders
   mir_build_* of src/mir/mir-node.c with their folding, the value ranges ("stamps") of
   src/mir/mir-type.c, the import of vcode in src/mir/mir-vcode.c, and the execution of
   the nodes.

   Modelled: one block without jumps.  Left out: reals, the offset type, exponentiation,
   enumeration constants, arrays and memory.  A parameter or a loaded value is a node
   [NInput] (a parameter has a tag of its own in the code, and like a load a null
   stamp).  A locus is a number.  A type is its two bounds, as in ArithModel: types with
   equal bounds are shared, src/mir/mir-type.c:451-472, and have the same representation
   as in vcode.  Failed assertions and undefined behaviour are [Fault]. *)
From Coq Require Import List ZArith Arith Bool.
From Verif Require Import Base JitModel ArithSpec ArithModel.
Import ListNotations.
Local Open Scope Z_scope.

(* mir_value_t, src/mir/mir-node.h:45-55: a small constant or a node *)
Inductive value := Small (z : Z) | Node (n : nat).

(* mir_equals, src/mir/mir-node.h:95 *)
Definition value_eqb (a b : value) : bool :=
  match a, b with
  | Small x, Small y => x =? y
  | Node x, Node y => Nat.eqb x y
  | _, _ => false
  end.

(* MIR_STAMP_INT; MIR_NULL_STAMP is None. *)
Definition stamp := option (Z * Z).

Inductive nodeop :=
| NInput (n : nat)
| NConst (v : Z)
| NArith (k : kind) (l r : value) (locus : nat)
| NNeg (a : value)
| NTrapNeg (a : value) (locus : nat)
| NAbs (a : value)
| NNot (a : value)
| NCmp (c : cmp) (l r : value)
| NSelect (t a b : value)
| NCast (a : value)
| NZeroCheck (a : value) (locus : nat)
| NRangeCheck (a l r d : value) (locus : nat).

(* node_data_t, src/mir/mir-structs.h; the type of an operation without a result is
   never looked at. *)
Record node := Nd { nop : nodeop; ntype : vtype; nstamp : stamp }.
Definition unit_ := list node.

(* mir_add_node, src/mir/mir-node.c:314-328 *)
Definition add_node (u : unit_) (o : nodeop) (t : vtype) (s : stamp) : unit_ * value :=
  (u ++ [Nd o t s], Node (length u)).

(* mir_int_stamp, src/mir/mir-type.c:911-921 *)
Definition int_stamp (low high : Z) : res stamp :=
  if low <=? high then Ok (Some (low, high)) else Fault.

(* mir_get_const, src/mir/mir-node.c:510-533 *)
Definition get_const (u : unit_) (v : value) : option Z :=
  match v with
  | Small z => Some z
  | Node n =>
    match nth_error u n with
    | Some {| nop := NConst v |} => Some v
    | _ => None
    end
  end.

(* mir_get_stamp, src/mir/mir-node.c:565-583 *)
Definition get_stamp (u : unit_) (v : value) : stamp :=
  match v with
  | Small z => Some (z, z)
  | Node n => match nth_error u n with Some d => nstamp d | None => None end
  end.

(* mir_get_type, src/mir/mir-node.c:551-563: a small constant has no type. *)
Definition get_type (u : unit_) (v : value) : option vtype :=
  match v with
  | Small _ => None
  | Node n => match nth_error u n with Some d => Some (ntype d) | None => None end
  end.

(* src/mir/mir-node.c:30-32 with _MIR_ID_BITS of src/mir/mir-node.h:40 *)
Definition SMALL_CONST_MIN : Z := - 134217728.
Definition SMALL_CONST_MAX : Z := 134217727.

(* src/mir/mir-node.c:829-852 *)
Definition mir_const (u : unit_) (t : vtype) (v : Z) : unit_ * value :=
  if (SMALL_CONST_MIN <=? v) && (v <=? SMALL_CONST_MAX) then (u, Small v)
  else add_node u (NConst v) t (Some (v, v)).

(* ---- stamps ---- *)

(* src/mir/mir-type.c:977-1007 *)
Definition stamp_add (a b : stamp) : res stamp :=
  match a, b with
  | Some (al, ah), Some (bl, bh) => int_stamp (sadd64 al bl) (sadd64 ah bh)
  | _, _ => Ok None
  end.

(* src/mir/mir-type.c:1009-1039 *)
Definition stamp_sub (a b : stamp) : res stamp :=
  match a, b with
  | Some (al, ah), Some (bl, bh) => int_stamp (ssub64 al bh) (ssub64 ah bl)
  | _, _ => Ok None
  end.

(* src/mir/mir-type.c:1041-1081 *)
Definition stamp_mul (a b : stamp) : res stamp :=
  match a, b with
  | Some (al, ah), Some (bl, bh) =>
    let ll := smul64 al bl in
    let lh := smul64 al bh in
    let hl := smul64 ah bl in
    let hh := smul64 ah bh in
    int_stamp (Z.min (Z.min ll lh) (Z.min hl hh)) (Z.max (Z.max ll lh) (Z.max hl hh))
  | _, _ => Ok None
  end.

(* src/mir/mir-type.c:1083-1089 *)
Definition stamp_div (a b : stamp) : res stamp := Ok None.

(* src/mir/mir-type.c:1091-1111 *)
Definition stamp_rem (a b : stamp) : res stamp :=
  match a, b with
  | Some (al, _), Some (_, bh) =>
    if (0 <=? al) && (0 <? bh) then int_stamp 0 (bh - 1) else Ok None
  | _, _ => Ok None
  end.

(* src/mir/mir-type.c:1113-1176 *)
Definition stamp_cmp (k : cmp) (x y : stamp) : res stamp :=
  match x, y with
  | Some (a, b), Some (c, d) =>
    let is (v : bool) : res stamp := int_stamp (b2z v) (b2z v) in
    let differ trueval :=
      if Z.max a c <=? Z.min b d then Ok None else is trueval in
    let less trueval :=
      if b <? c then is trueval else if d <=? a then is (negb trueval) else Ok None in
    let more trueval :=
      if d <? a then is trueval else if b <=? c then is (negb trueval) else Ok None in
    match k with
    | CEq => differ false
    | CNeq => differ true
    | CGeq => less false
    | CLt => less true
    | CLeq => more false
    | CGt => more true
    end
  | _, _ => Ok None
  end.

(* src/mir/mir-type.c:1178-1210 *)
Definition stamp_union (a b : stamp) : res stamp :=
  match a, b with
  | None, _ => Ok b
  | _, None => Ok a
  | Some (al, ah), Some (bl, bh) => int_stamp (Z.min al bl) (Z.max ah bh)
  end.

(* src/mir/mir-type.c:1212-1233 *)
Definition stamp_cast (t : vtype) (s : stamp) : res stamp :=
  match s with
  | Some (l, h) => int_stamp (Z.max (tlow t) l) (Z.min (thigh t) h)
  | None => Ok None
  end.

(* src/mir/mir-type.c:1235-1247 *)
Definition stamp_const (s : stamp) : option Z :=
  match s with
  | Some (l, h) => if l =? h then Some l else None
  | None => None
  end.

(* ---- builders ---- *)

Definition is_const (c : option Z) (v : Z) : bool :=
  match c with Some x => x =? v | None => false end.

(* An operation of two constants that does not overflow int64_t. *)
Definition fold_consts (f : Z -> Z -> Z) (l r : option Z) : option Z :=
  match l, r with
  | Some a, Some b => if in_i64 (f a b) then Some (f a b) else None
  | _, _ => None
  end.

(* mir_build_arith, src/mir/mir-node.c:959-981 *)
Definition build_arith (u : unit_) (k : kind) (t : vtype) (l r : value) (locus : nat) (s : stamp)
  : res (unit_ * value) :=
  Ok (add_node u (NArith k l r locus) t s).

(* src/mir/mir-node.c:983-1014 *)
Definition build_add_op (u : unit_) (k : kind) (t : vtype) (l r : value) (locus : nat)
  : res (unit_ * value) :=
  let lc := get_const u l in
  let rc := get_const u r in
  if is_const lc 0 then Ok (u, r)
  else if is_const rc 0 then Ok (u, l)
  else
    match fold_consts Z.add lc rc with
    | Some v => Ok (mir_const u t v)
    | None =>
      do! s <- stamp_add (get_stamp u l) (get_stamp u r);
      build_arith u k t l r locus s
    end.

(* src/mir/mir-node.c:1029-1065 *)
Definition build_sub_op (u : unit_) (k : kind) (t : vtype) (l r : value) (locus : nat)
  : res (unit_ * value) :=
  let lc := get_const u l in
  let rc := get_const u r in
  if is_const lc 0 then Ok (u, r)
  else if is_const rc 0 then Ok (u, l)
  else
    match fold_consts Z.sub lc rc with
    | Some v => Ok (mir_const u t v)
    | None =>
      if value_eqb l r then Ok (mir_const u t 0)
      else
        do! s <- stamp_sub (get_stamp u l) (get_stamp u r);
        build_arith u k t l r locus s
    end.

(* src/mir/mir-node.c:1080-1092 *)
Definition build_neg (u : unit_) (t : vtype) (a : value) : res (unit_ * value) :=
  match get_const u a with
  | Some v => do! v <- c_int64 (- v); Ok (mir_const u t v)
  | None => Ok (add_node u (NNeg a) t None)
  end.

(* src/mir/mir-node.c:1094-1111 *)
Definition build_trap_neg (u : unit_) (t : vtype) (a : value) (locus : nat) : res (unit_ * value) :=
  match get_const u a with
  | Some v =>
    if 0 <=? v then do! v <- c_int64 (- v); Ok (mir_const u t v)
    else Ok (add_node u (NTrapNeg a locus) t None)
  | None => Ok (add_node u (NTrapNeg a locus) t None)
  end.

(* src/mir/mir-node.c:1113-1125 *)
Definition build_abs (u : unit_) (t : vtype) (a : value) : res (unit_ * value) :=
  match get_const u a with
  | Some v => do! v <- c_int64 (Z.abs v); Ok (mir_const u t v)
  | None => Ok (add_node u (NAbs a) t None)
  end.

(* src/mir/mir-node.c:1127-1155 *)
Definition build_mul_op (u : unit_) (k : kind) (t : vtype) (l r : value) (locus : nat)
  : res (unit_ * value) :=
  let lc := get_const u l in
  let rc := get_const u r in
  if is_const lc 0 then Ok (u, l)
  else if is_const rc 0 then Ok (u, r)
  else
    match fold_consts Z.mul lc rc with
    | Some v => Ok (mir_const u t v)
    | None =>
      do! s <- stamp_mul (get_stamp u l) (get_stamp u r);
      build_arith u k t l r locus s
    end.

(* src/mir/mir-node.c:1163-1168: the function for subtraction is called. *)
Definition build_trap_mul (u : unit_) (t : vtype) (l r : value) (locus : nat) : res (unit_ * value) :=
  build_sub_op u KTrapMul t l r locus.

(* src/mir/mir-node.c:1170-1189 *)
Definition build_div (u : unit_) (t : vtype) (l r : value) : res (unit_ * value) :=
  let lc := get_const u l in
  let rc := get_const u r in
  let go :=
    if is_const rc 1 then Ok (u, l)
    else
      do! s <- stamp_div (get_stamp u l) (get_stamp u r);
      build_arith u KDiv t l r 0 s in
  match lc, rc with
  | Some a, Some b => if b =? 0 then go else do! v <- c_int64 (Z.quot a b); Ok (mir_const u t v)
  | _, _ => go
  end.

Definition fold_rem (l r : option Z) : option Z :=
  match l, r with
  | Some a, Some b => if (0 <? a) && (0 <? b) then Some (Z.rem a b) else None
  | _, _ => None
  end.

(* src/mir/mir-node.c:1191-1207 *)
Definition build_rem (u : unit_) (t : vtype) (l r : value) : res (unit_ * value) :=
  match fold_rem (get_const u l) (get_const u r) with
  | Some v => Ok (mir_const u t v)
  | None =>
    do! s <- stamp_rem (get_stamp u l) (get_stamp u r);
    build_arith u KRem t l r 0 s
  end.

(* src/mir/mir-node.c:1209-1238 *)
Definition build_mod (u : unit_) (t : vtype) (l r : value) : res (unit_ * value) :=
  match fold_rem (get_const u l) (get_const u r) with
  | Some v => Ok (mir_const u t v)
  | None =>
    match get_stamp u l, get_stamp u r with
    | Some (ll, lh), Some (rl, rh) =>
      if (0 <=? ll) && (0 <=? rl) then
        do! s <- stamp_rem (Some (ll, lh)) (Some (rl, rh));
        build_arith u KRem t l r 0 s
      else build_arith u KMod t l r 0 None
    | _, _ => build_arith u KMod t l r 0 None
    end
  end.

(* mir_build_logical, src/mir/mir-node.c:1271-1284 *)
Definition build_logical (u : unit_) (k : kind) (l r : value) : res (unit_ * value) :=
  Ok (add_node u (NArith k l r 0) vtype_bool None).

(* src/mir/mir-node.c:1286-1385 *)
Definition build_and (u : unit_) (l r : value) : res (unit_ * value) :=
  match get_const u l, get_const u r with
  | Some a, Some b => Ok (mir_const u vtype_bool (b2z (truth a && truth b)))
  | Some a, None => Ok (if truth a then (u, r) else mir_const u vtype_bool 0)
  | None, Some b => Ok (if truth b then (u, l) else mir_const u vtype_bool 0)
  | None, None => build_logical u KAnd l r
  end.
Definition build_nand (u : unit_) (l r : value) : res (unit_ * value) :=
  match get_const u l, get_const u r with
  | Some a, Some b => Ok (mir_const u vtype_bool (b2z (negb (truth a && truth b))))
  | _, _ => build_logical u KNand l r
  end.
Definition build_or (u : unit_) (l r : value) : res (unit_ * value) :=
  match get_const u l, get_const u r with
  | Some a, Some b => Ok (mir_const u vtype_bool (b2z (truth a || truth b)))
  | Some a, None => Ok (if truth a then mir_const u vtype_bool 1 else (u, r))
  | None, Some b => Ok (if truth b then mir_const u vtype_bool 1 else (u, l))
  | None, None => build_logical u KOr l r
  end.
Definition build_nor (u : unit_) (l r : value) : res (unit_ * value) :=
  match get_const u l, get_const u r with
  | Some a, Some b => Ok (mir_const u vtype_bool (b2z (negb (truth a || truth b))))
  | _, _ => build_logical u KNor l r
  end.
Definition build_xor (u : unit_) (l r : value) : res (unit_ * value) :=
  match get_const u l, get_const u r with
  | Some a, Some b => Ok (mir_const u vtype_bool (Z.lxor a b))
  | _, _ => if value_eqb l r then Ok (mir_const u vtype_bool 0) else build_logical u KXor l r
  end.
Definition build_xnor (u : unit_) (l r : value) : res (unit_ * value) :=
  match get_const u l, get_const u r with
  | Some a, Some b => Ok (mir_const u vtype_bool (b2z (negb (truth (Z.lxor a b)))))
  | _, _ => build_logical u KXnor l r
  end.

(* src/mir/mir-node.c:1369-1387 *)
Definition build_not (u : unit_) (a : value) : res (unit_ * value) :=
  match get_const u a with
  | Some v => Ok (mir_const u vtype_bool (b2z (negb (truth v))))
  | None =>
    match a with
    | Node n =>
      match nth_error u n with
      | Some {| nop := NNot b |} => Ok (u, b)
      | _ => Ok (add_node u (NNot a) vtype_bool None)
      end
    | _ => Ok (add_node u (NNot a) vtype_bool None)
    end
  end.

Definition cmp_value (k : cmp) (a b : Z) : bool :=
  match k with
  | CEq => a =? b | CNeq => negb (a =? b) | CLt => a <? b | CGt => b <? a
  | CLeq => a <=? b | CGeq => b <=? a
  end.

(* src/mir/mir-node.c:1389-1425 *)
Definition build_cmp (u : unit_) (k : cmp) (l r : value) : res (unit_ * value) :=
  match get_const u l, get_const u r with
  | Some a, Some b => Ok (mir_const u vtype_bool (b2z (cmp_value k a b)))
  | _, _ =>
    do! s <- stamp_cmp k (get_stamp u l) (get_stamp u r);
    match stamp_const s with
    | Some v => Ok (mir_const u vtype_bool v)
    | None => Ok (add_node u (NCmp k l r) vtype_bool s)
    end
  end.

(* src/mir/mir-node.c:1787-1810 *)
Definition build_select (u : unit_) (ty : vtype) (t a b : value) : res (unit_ * value) :=
  match get_const u t with
  | Some v => Ok (u, if truth v then a else b)
  | None =>
    if value_eqb a b then Ok (u, a)
    else
      do! s <- stamp_union (get_stamp u a) (get_stamp u b);
      Ok (add_node u (NSelect t a b) ty s)
  end.

(* src/mir/mir-node.c:2999-3015 *)
Definition build_cast (u : unit_) (t : vtype) (a : value) : res (unit_ * value) :=
  if (match get_type u a with Some f => vtype_eqb f t | None => false end) then Ok (u, a)
  else
    match get_const u a with
    | Some v => Ok (mir_const u t v)
    | None =>
      do! s <- stamp_cast t (get_stamp u a);
      Ok (add_node u (NCast a) t s)
    end.

(* src/mir/mir-node.c:2044-2057 *)
Definition build_zero_check (u : unit_) (a : value) (locus : nat) : unit_ :=
  match get_const u a with
  | Some v => if v =? 0 then fst (add_node u (NZeroCheck a locus) vtype_bool None) else u
  | None => fst (add_node u (NZeroCheck a locus) vtype_bool None)
  end.

(* src/mir/mir-node.c:2006-2023 *)
Definition build_range_check (u : unit_) (a l r d : value) (locus : nat) : unit_ :=
  fst (add_node u (NRangeCheck a l r d locus) vtype_bool None).

(* ---- import of vcode ---- *)

Definition mapped (m : list value) (r : nat) : res value :=
  match nth_error m r with Some v => Ok v | None => Fault end.

Definition build_kind (u : unit_) (k : kind) (t : vtype) (l r : value) (locus : nat)
  : res (unit_ * value) :=
  match k with
  | KAdd => build_add_op u KAdd t l r 0
  | KSub => build_sub_op u KSub t l r 0
  | KMul => build_mul_op u KMul t l r 0
  | KTrapAdd => build_add_op u KTrapAdd t l r locus
  | KTrapSub => build_sub_op u KTrapSub t l r locus
  | KTrapMul => build_trap_mul u t l r locus
  | KDiv => build_div u t l r
  | KMod => build_mod u t l r
  | KRem => build_rem u t l r
  | KAnd => build_and u l r
  | KOr => build_or u l r
  | KXor => build_xor u l r
  | KXnor => build_xnor u l r
  | KNand => build_nand u l r
  | KNor => build_nor u l r
  end.

(* The import_* functions of src/mir/mir-vcode.c:191-196, 239-248, 490-731, 763-773,
   855-860, 956-967.  [m] is the array imp->map of the values of the vcode registers,
   which are numbered in the order of their operations; [rt] gives their types. *)
Definition import_op (rt : nat -> vtype) (u : unit_) (m : list value) (o : op)
  : res (unit_ * list value) :=
  let set (x : res (unit_ * value)) : res (unit_ * list value) :=
    do! (u, v) <- x; Ok (u, m ++ [v]) in
  match o with
  | OInput n res => set (Ok (add_node u (NInput n) (rt res) None))
  | OConst v t _ => set (Ok (mir_const u t v))
  | OArith k t l r locus _ =>
    do! l <- mapped m l;
    do! r <- mapped m r;
    set (build_kind u k t l r locus)
  | ONeg a res => do! a <- mapped m a; set (build_neg u (rt res) a)
  | OTrapNeg t a locus _ => do! a <- mapped m a; set (build_trap_neg u t a locus)
  | OAbs a res => do! a <- mapped m a; set (build_abs u (rt res) a)
  | ONot a _ => do! a <- mapped m a; set (build_not u a)
  | OCmp c l r _ =>
    do! l <- mapped m l;
    do! r <- mapped m r;
    set (build_cmp u c l r)
  | OSelect t a b res =>
    do! t <- mapped m t;
    do! a <- mapped m a;
    do! b <- mapped m b;
    set (build_select u (rt res) t a b)
  | OCast t a _ => do! a <- mapped m a; set (build_cast u t a)
  | OZeroCheck a locus => do! a <- mapped m a; Ok (build_zero_check u a locus, m)
  | ORangeCheck a l r d locus =>
    do! a <- mapped m a;
    do! l <- mapped m l;
    do! r <- mapped m r;
    do! d <- mapped m d;
    Ok (build_range_check u a l r d locus, m)
  end.

Fixpoint import_ops (rt : nat -> vtype) (u : unit_) (m : list value) (l : list op)
  : res (unit_ * list value) :=
  match l with
  | [] => Ok (u, m)
  | o :: l => do! (u, m) <- import_op rt u m o; import_ops rt u m l
  end.
Definition reg_type (c : code) (r : nat) : vtype :=
  match nth_error (regs c) r with Some x => rtype x | None => vtype_bool end.
Definition import (c : code) : res (unit_ * list value) := import_ops (reg_type c) [] [] (ops c).

(* ---- execution, src/jit/jit-irgen.c:1414-1740, 2128-2155, 2270-2290, 2596-2615 ---- *)

(* Every node has an entry, those without a result a meaningless one. *)
Definition val (e : env) (v : value) : eff Z :=
  match v with Small z => Val z | Node n => get e n end.

Definition exec_node (inputs : nat -> Z) (e : env) (d : node) : eff Z :=
  match nop d with
  | NInput n => Val (inputs n)
  | NConst v => Val v
  | NArith k l r locus =>
    ebind (val e l) (fun a => ebind (val e r) (fun b => exec_arith k (ntype d) locus a b))
  | NNeg a => ebind (val e a) (fun a => Val (wrap (- a)))
  | NTrapNeg a locus =>
    ebind (val e a) (fun a =>
      if size_min (jit_size (ntype d)) <? a then Val (wrap (- a)) else Err Overflow locus)
  | NAbs a => ebind (val e a) (fun a => Val (if a <? 0 then wrap (- a) else a))
  | NNot a => ebind (val e a) (fun a => Val (b2z (a =? 0)))
  | NCmp k l r => ebind (val e l) (fun a => ebind (val e r) (fun b => Val (b2z (cmp_value k a b))))
  | NSelect t a b =>
    ebind (val e t) (fun t => ebind (val e a) (fun a => ebind (val e b) (fun b =>
      Val (if truth t then a else b))))
  | NCast a => val e a
  | NZeroCheck a locus => ebind (val e a) (fun a => if a =? 0 then Err DivZero locus else Val 0)
  | NRangeCheck a l r d locus =>
    ebind (val e a) (fun a => ebind (val e l) (fun l => ebind (val e r) (fun r => ebind (val e d) (fun d =>
      let low := if d =? RANGE_DOWNTO then r else l in
      let high := if d =? RANGE_DOWNTO then l else r in
      if (low <=? a) && (a <=? high) then Val 0 else Err OutOfRange locus))))
  end.

Fixpoint exec_nodes (inputs : nat -> Z) (e : env) (l : list node) : eff env :=
  match l with
  | [] => Val e
  | d :: l => ebind (exec_node inputs e d) (fun v => exec_nodes inputs (e ++ [v]) l)
  end.
Definition exec_unit (u : unit_) (inputs : nat -> Z) : eff env := exec_nodes inputs [] u.

(* ---- the conditions under which the import is claimed to be right ---- *)

Definition bit (z : Z) : Prop := z = 0 \/ z = 1.

(* For one operation of two operands with the values a and b:
   - sums, differences and products fit in 64 bits;
   - operands of checked ones are values of the type, and one that overflows has no
     operand that is a constant zero, and not two constants;
   - 0 is not the left operand of a difference;
   - checked products have no operand that is a constant zero, different operands, and an
     operand of which no range is known;
   - if the divisor of rem has a known range, its absolute value is at most the upper end;
   - operands of logical operators are 0 or 1. *)
Definition fits_arith (u : unit_) (k : kind) (t : vtype) (l r : value) (a b : Z) : Prop :=
  let whole f :=
    within int64 (f a b) in
  let checked f :=
    within (machine (tlow t, thigh t)) a /\ within (machine (tlow t, thigh t)) b /\
    (~ within (machine (tlow t, thigh t)) (f a b) ->
     get_const u l <> Some 0 /\ get_const u r <> Some 0 /\
     (get_const u l = None \/ get_const u r = None)) in
  match k with
  | KAdd => whole Z.add
  | KSub => whole Z.sub /\ get_const u l <> Some 0
  | KMul => whole Z.mul
  | KTrapAdd => whole Z.add /\ checked Z.add
  | KTrapSub => whole Z.sub /\ checked Z.sub /\ get_const u l <> Some 0
  | KTrapMul =>
    get_const u l <> Some 0 /\ get_const u r <> Some 0 /\ l <> r /\
    (get_stamp u l = None \/ get_stamp u r = None)
  | KDiv | KMod => True
  | KRem => forall lo hi, get_stamp u r = Some (lo, hi) -> Z.abs b <= hi
  | _ => bit a /\ bit b
  end.

(* For one operation of vcode, given its registers [e]:
   - constants fit in 64 bits;
   - operands of not are 0 or 1;
   - the selected value lies in the range of the operand that has one, if the other has
     none;
   - a value of known range that is converted lies in the new type. *)
Definition fits_op (u : unit_) (m : list value) (e : env) (o : op) : Prop :=
  match o with
  | OConst v _ _ => within int64 v
  | OArith k t l r _ _ =>
    forall vl vr a b, nth_error m l = Some vl -> nth_error m r = Some vr ->
    nth_error e l = Some a -> nth_error e r = Some b -> fits_arith u k t vl vr a b
  | ONot a _ => forall x, nth_error e a = Some x -> bit x
  | OSelect t a b _ =>
    forall va vb z x y lo hi, nth_error m a = Some va -> nth_error m b = Some vb ->
    nth_error e t = Some z -> nth_error e a = Some x -> nth_error e b = Some y ->
    (get_stamp u va = None /\ get_stamp u vb = Some (lo, hi) \/
     get_stamp u va = Some (lo, hi) /\ get_stamp u vb = None) ->
    lo <= (if truth z then x else y) <= hi
  | OCast t a _ =>
    forall va x, nth_error m a = Some va -> nth_error e a = Some x ->
    get_stamp u va <> None -> tlow t <= x <= thigh t
  | _ => True
  end.

Fixpoint fits_ops (rt : nat -> vtype) (inputs : nat -> Z) (u : unit_) (m : list value) (e : env) (l : list op)
  : Prop :=
  match l with
  | [] => True
  | o :: l =>
    fits_op u m e o /\
    match exec_op inputs e o, import_op rt u m o with
    | Val e', Ok (u', m') => fits_ops rt inputs u' m' e' l
    | _, _ => True
    end
  end.
Definition fits (c : code) (inputs : nat -> Z) : Prop :=
  fits_ops (reg_type c) inputs [] [] [] (ops c).
