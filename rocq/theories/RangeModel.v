(* Model of ranges in generated code: array descriptors, index and range checks, offsets of
   elements and slices, for loops.  src/lower.c, src/vcode.c, src/jit/jit-irgen.c. *)
From Coq Require Import List ZArith Bool.
From Verif Require Import Base.
From Verif Require JitModel ArithModel.
Import ListNotations.
Local Open Scope Z_scope.

(* Registers have 64 bits: src/jit/jit-interp.c.  RANGE_TO is 0, RANGE_DOWNTO 1. *)
Definition add64 (a b : Z) : Z := JitModel.wrap (a + b).
Definition sub64 (a b : Z) : Z := JitModel.wrap (a - b).
Definition mul64 (a b : Z) : Z := JitModel.wrap (a * b).
Definition RANGE_TO : Z := 0.
Definition RANGE_DOWNTO : Z := 1.

(* interp_clamp: src/jit/jit-interp.c:580-585 *)
Definition clamp (z : Z) : Z := if z <? 0 then 0 else z.

(* A dimension of an array descriptor: src/jit/jit-ffi.h:55-68.  irgen_op_wrap,
   irgen_op_uarray_left, right, dir, len: src/jit/jit-irgen.c:1897-2007 *)
Record dim := Dim { d_left : Z; d_length : Z }.
Definition op_wrap (left right dir : Z) : dim :=
  let diff_up := sub64 right left in
  let diff_down := sub64 left right in
  let diff := if dir =? RANGE_DOWNTO then diff_down else diff_up in
  let clamped := clamp (add64 diff 1) in
  Dim left (Z.lxor (JitModel.wrap (- dir)) clamped).
Definition uarray_left (d : dim) : Z := d_left d.
Definition uarray_right (d : dim) : Z :=
  add64 (add64 (d_left d) (d_length d)) (if d_length d <? 0 then 2 else -1).
Definition uarray_dir (d : dim) : Z := if d_length d <? 0 then 1 else 0.
Definition uarray_len (d : dim) : Z := Z.lxor (Z.shiftr (d_length d) 63) (d_length d).

(* irgen_op_range_null, irgen_op_range_length: src/jit/jit-irgen.c:2160-2236 *)
Definition op_range_null (left right dir : Z) : bool :=
  if dir =? RANGE_DOWNTO then left <? right else right <? left.
Definition op_range_length (left right dir : Z) : Z :=
  clamp (add64 (if dir =? RANGE_DOWNTO then sub64 left right else sub64 right left) 1).

(* A register of the first intermediate form, as far as it is known at compile time: a
   constant, or some value between two bounds.  src/vcode.c:113-116 *)
Record reg := Reg { low : Z; high : Z; const : option Z }.
(* emit_range_null: src/vcode.c:4753-4793.  Given what is known of the registers, and their
   values when the code runs.  The reuse of an earlier operation is not modelled. *)
Definition emit_range_null (lreg rreg dreg : reg) (left right dir : Z) : bool :=
  match const dreg with
  | Some d =>
      if (d =? RANGE_TO) && (high rreg <? low lreg) then true
      else if (d =? RANGE_TO) && (high lreg <=? low rreg) then false
      else if (d =? RANGE_DOWNTO) && (high lreg <? low rreg) then true
      else if (d =? RANGE_DOWNTO) && (high rreg <=? low lreg) then false
      else if d =? RANGE_TO then right <? left
      else left <? right
  | None => op_range_null left right dir
  end.
(* emit_range_length: src/vcode.c:4795-4857.  Subtraction of constants is that of C. *)
Definition emit_range_length (lreg rreg dreg : reg) (left right dir : Z) : res Z :=
  match const dreg, const lreg, const rreg with
  | Some d, Some l, Some r =>
      do! diff <- ArithModel.c_int64 (if d =? RANGE_TO then r - l else l - r);
      if diff <? 0 then Ok 0 else ArithModel.c_int64 (diff + 1)
  | _, _, _ => Ok (op_range_length left right dir)
  end.

(* irgen_op_index_check and irgen_op_range_check: src/jit/jit-irgen.c:2502-2583.  True if the
   check is passed.  Reals are not modelled. *)
Definition op_check (value left right dir : Z) : bool :=
  let lo := if dir =? RANGE_DOWNTO then right else left in
  let hi := if dir =? RANGE_DOWNTO then left else right in
  (lo <=? value) && (value <=? hi).
(* vcode_can_elide_bounds, emit_bounds_check: src/vcode.c:5723-5794.  [is_left], [is_right]: the
   register is that of a bound. *)
Definition can_elide (vreg lreg rreg dreg : reg) (is_left is_right : bool) : bool :=
  match const dreg, const lreg, const rreg with
  | Some d, Some l, Some r =>
      let is_null := ((d =? RANGE_TO) && (r <? l)) || ((d =? RANGE_DOWNTO) && (l <? r)) in
      ((d =? RANGE_TO) && (l <=? low vreg) && (high vreg <=? r))
      || ((d =? RANGE_DOWNTO) && (r <=? low vreg) && (high vreg <=? l))
      || (negb is_null && (is_left || is_right))
  | _, _, _ => false
  end.
Definition emit_check (vreg lreg rreg dreg : reg) (is_left is_right : bool)
    (value left right dir : Z) : bool :=
  if can_elide vreg lreg rreg dreg is_left is_right then true else op_check value left right dir.

(* The bounds of an array in one dimension: in the descriptor, or those of its type.
   lower_array_left, right, dir, len: src/lower.c:436-496 *)
Inductive bounds := Meta (d : dim) | Static (left right dir : Z).
Definition array_left (b : bounds) : Z := match b with Meta d => uarray_left d | Static l _ _ => l end.
Definition array_right (b : bounds) : Z := match b with Meta d => uarray_right d | Static _ r _ => r end.
Definition array_dir (b : bounds) : Z := match b with Meta d => uarray_dir d | Static _ _ d => d end.
Definition array_len (b : bounds) : Z :=
  match b with
  | Meta d => uarray_len d
  | Static l r d =>
      let lo := if d =? RANGE_TO then l else r in
      let hi := if d =? RANGE_TO then r else l in
      Z.max (hi - lo + 1) 0
  end.

(* lower_array_off: src/lower.c:3125-3163 *)
Definition array_off (off : Z) (b : bounds) : Z :=
  if array_dir b =? RANGE_DOWNTO then sub64 (array_left b) off else sub64 off (array_left b).
(* lower_array_ref: src/lower.c:3165-3229.  None if a check fails.  The stride of elements that
   are arrays is a parameter. *)
Fixpoint array_ref_loop (first : bool) (bs : list bounds) (is : list Z) (offset : Z) : option Z :=
  match bs, is with
  | b :: bs, i :: is =>
      if op_check i (array_left b) (array_right b) (array_dir b) then
        let offset := if first then offset else mul64 offset (array_len b) in
        array_ref_loop false bs is (add64 offset (array_off i b))
      else None
  | _, _ => Some offset
  end.
Definition array_ref (bs : list bounds) (is : list Z) (stride : Z) : option Z :=
  match array_ref_loop true bs is 0 with
  | Some offset => Some (mul64 offset stride)
  | None => None
  end.

(* lower_array_slice: src/lower.c:3231-3308, arrays of one dimension.  The offset of the first
   element and the descriptor; None if a check fails *)
Definition array_slice (b : bounds) (left right dir : Z) (stride : Z) : option (Z * dim) :=
  if negb (op_range_null left right dir)
     && negb (op_check left (array_left b) (array_right b) (array_dir b)
              && op_check right (array_left b) (array_right b) (array_dir b))
  then None
  else Some (mul64 (array_off left b) stride, op_wrap left right dir).

(* What is read back from a variable of a type: irgen_store_addr, irgen_load_addr,
   irgen_jit_size: src/jit/jit-irgen.c:873-885, 1736-1747, 1813-1830 *)
Definition width (r : ArithModel.repr) : Z :=
  match r with
  | ArithModel.U1 | ArithModel.U8 | ArithModel.I8 => 8
  | ArithModel.U16 | ArithModel.I16 => 16
  | ArithModel.U32 | ArithModel.I32 => 32
  | ArithModel.U64 | ArithModel.I64 => 64
  end.
Definition hold (r : ArithModel.repr) (z : Z) : Z :=
  if ArithModel.vtype_repr_signed r then (z + 2 ^ (width r - 1)) mod 2 ^ width r - 2 ^ (width r - 1)
  else if width r =? 64 then JitModel.wrap z
  else z mod 2 ^ width r.

(* lower_for: src/lower.c:6514-6624.  [vtype] is the type of the loop parameter; the bound and
   the step are kept in variables if the body may wait.  The loop is left after [fuel] rounds. *)
Fixpoint for_body {S : Type} (r : ArithModel.repr) (right step : Z) (body : S -> Z -> S * bool)
    (fuel : nat) (ivar : Z) (st : S) : option S :=
  match fuel with
  | O => None
  | Datatypes.S fuel =>
      let '(st, leave) := body st ivar in
      if leave then Some st
      else
        let next := hold r (add64 ivar step) in
        if ivar =? right then Some st else for_body r right step body fuel next st
  end.
Definition lower_for {S : Type} (vtype : ArithModel.vtype) (wait_free : bool) (left right dir : Z)
    (body : S -> Z -> S * bool) (fuel : nat) (st : S) : option S :=
  if op_range_null left right dir then Some st
  else
    let r := ArithModel.vtype_repr vtype in
    let step := if dir =? RANGE_DOWNTO then -1 else 1 in
    let keep z := if wait_free then z else hold r z in
    for_body r (keep right) (keep step) body fuel (hold r left) st.

(* The bounds given to the variable: src/lower.c:6558-6571 *)
Definition loop_bounds (vtype : ArithModel.vtype) (lreg rreg dreg : reg) : ArithModel.vtype :=
  match const lreg, const rreg with
  | Some l, Some r => ArithModel.VT (Z.min l r) (Z.max l r)
  | lc, rc =>
      match (match lc, rc with None, None => None | _, _ => const dreg end) with
      | None => vtype
      | Some d =>
          let or o z := match o with Some c => c | None => z end in
          if d =? RANGE_TO
          then ArithModel.VT (or lc (ArithModel.tlow vtype)) (or rc (ArithModel.thigh vtype))
          else ArithModel.VT (or rc (ArithModel.tlow vtype)) (or lc (ArithModel.thigh vtype))
      end
  end.
