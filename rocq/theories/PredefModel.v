(* Model of the code generated for predefined operators of arrays and records,
   src/vhdl/vhdl-predef.c and src/lower.c:10256-10846.

   The generated code is written as a function of its parameters; operations on offsets
   are those of 64-bit integers (src/jit/jit-irgen.c:1414-1620, ArithModel.exec_arith).
   A read or write outside an array is [Fault].  Scalars are integers, positions of
   enumeration literals or booleans; reals are left out.  A vector is its bounds and
   elements (PredefSpec.arr); the elements of an array of arrays or records are values,
   not a block of memory, so the address computation with strides (src/lower.c:
   10297-10336) is left out. *)
From Coq Require Import List ZArith Arith Bool.
From Verif Require Import Base JitModel ArithModel PredefSpec.
Import ListNotations.
Local Open Scope Z_scope.

(* An element of an array: mir_build_array_ref and mir_build_load, or emit_array_ref
   and emit_load_indirect. *)
Definition load {A} (m : list A) (i : Z) : res A :=
  if i <? 0 then Fault
  else match nth_error m (Z.to_nat i) with Some v => Ok v | None => Fault end.

(* A store to an element of allocated memory. *)
Fixpoint put {A} (m : list A) (n : nat) (v : A) : res (list A) :=
  match m, n with
  | [], _ => Fault
  | _ :: m, O => Ok (v :: m)
  | x :: m, S n => do! m <- put m n v; Ok (x :: m)
  end.
Definition store {A} (m : list A) (i : Z) (v : A) : res (list A) :=
  if i <? 0 then Fault else put m (Z.to_nat i) v.

Definition len_of {A} (l : list A) : Z := Z.of_nat (length l).

(* Operations on offsets *)
Definition to_res (x : eff Z) : res Z := match x with Val v => Ok v | _ => Fault end.
Definition add (a b : Z) : Z := wrap (a + b).
Definition sub (a b : Z) : Z := wrap (a - b).
Definition mul (a b : Z) : Z := wrap (a * b).
Definition neg (a : Z) : Z := wrap (- a).
Definition mod_ (a b : Z) : res Z := to_res (exec_arith KMod (VT I64_MIN I64_MAX) 0 a b).

(* emit_range_null, src/jit/jit-irgen.c:2160-2185 *)
Definition range_null (left right : Z) (to : bool) : bool :=
  if to then right <? left (* left > right *) else left <? right (* right > left *).
Definition arr_null {A} (a : arr A) : bool := range_null (aleft a) (aright a) (ato a).

(* ---- shift operators ---- *)

(* The value for elements shifted in, src/vhdl/vhdl-predef.c:81-98 *)
Definition shift_default (k : shift) (data : list Z) (len : Z) : res Z :=
  match k with
  | SLL | SRL | ROL | ROR => Ok 0
  | SRA => load data (sub len 1)
  | SLA => load data 0
  end.

(* src/vhdl/vhdl-predef.c:112-139: whether element [i] comes from the operand. *)
Definition shift_inside (k : shift) (len shift_ i : Z) : bool :=
  let shift_is_neg := shift_ <? 0 in
  match k with
  | SRL | SRA => if shift_is_neg then i <? add len shift_ else shift_ <=? i
  | SLL | SLA => if shift_is_neg then neg shift_ <=? i else i <? sub len shift_
  | ROL | ROR => true
  end.

(* src/vhdl/vhdl-predef.c:153-179: and from where. *)
Definition shift_source (k : shift) (len shift_ i : Z) : res Z :=
  match k with
  | SLL | SLA => Ok (add i shift_)
  | SRL | SRA => Ok (sub i shift_)
  | ROL => mod_ (add i (add len shift_)) len
  | ROR => mod_ (add i (sub len shift_)) len
  end.

(* The loop of one block that tests, and one that stores: src/vhdl/vhdl-predef.c:104-189
   and src/lower.c:10577-10611.  [n] bounds the number of iterations. *)
Fixpoint fill_loop {A} (n : nat) (f : Z -> res A) (len : Z) (mem : list A) (i : Z) : res (list A) :=
  if i =? len then Ok mem
  else
    match n with
    | O => Fault
    | S n =>
      do! v <- f i;
      do! mem <- store mem i v;
      fill_loop n f len mem (add i 1)
    end.

(* src/vhdl/vhdl-predef.c:43-199.  [mem] is what the allocated memory holds before. *)
Definition predef_bit_shift (k : shift) (input : arr Z) (shift_ : Z) (mem : list Z) : res (arr Z) :=
  let data := adata input in
  let len := len_of data in
  if len =? 0 then Ok input
  else
    do! def_val <- shift_default k data len;
    do! mem <- fill_loop (length data)
      (fun i =>
         if shift_inside k len shift_ i then
           do! src <- shift_source k len shift_ i; load data src
         else Ok def_val) len mem 0;
    Ok (Arr (aleft input) (aright input) (ato input) mem).

(* ---- logical operators ---- *)

(* emit_and and the others, on operands of type BOOLEAN or BIT. *)
Definition emit_logic (k : logical) (a b : bool) : bool :=
  match k with
  | LAnd => andb a b
  | LOr => orb a b
  | LXor => xorb a b
  | LXnor => negb (xorb a b)
  | LNand => negb (andb a b)
  | LNor => negb (orb a b)
  end.

(* src/lower.c:10524-10621, for two operands.  Vectors of different lengths give an error
   of severity failure, which ends the simulation: [None]. *)
Definition predef_bit_vec_op (k : logical) (r0 r1 : arr bool) (mem : list bool) : res (option (arr bool)) :=
  let len0 := len_of (adata r0) in
  let len1 := len_of (adata r1) in
  if negb (len0 =? len1) then Ok None
  else
    do! mem <- fill_loop (length (adata r0))
      (fun i =>
         do! src0 <- load (adata r0) i;
         do! src1 <- load (adata r1) i;
         Ok (emit_logic k src0 src1)) len0 mem 0;
    Ok (Some (Arr (aleft r0) (aright r0) (ato r0) mem)).

(* The same for "not". *)
Definition predef_array_not (r0 : arr bool) (mem : list bool) : res (arr bool) :=
  let len0 := len_of (adata r0) in
  do! mem <- fill_loop (length (adata r0))
    (fun i => do! src0 <- load (adata r0) i; Ok (negb src0)) len0 mem 0;
  Ok (Arr (aleft r0) (aright r0) (ato r0) mem).

(* The loop of one block with the test at its end: src/lower.c:10657-10679 *)
Fixpoint body_loop {A} (n : nat) (f : Z -> res A) (len : Z) (mem : list A) (i : Z) : res (list A) :=
  match n with
  | O => Fault
  | S n =>
    do! v <- f i;
    do! mem <- store mem i v;
    let next := add i 1 in
    if next =? len then Ok mem else body_loop n f len mem next
  end.

(* src/lower.c:10623-10691; the operand that is the array comes first. *)
Definition predef_mixed_bit_vec_op (k : logical) (array : arr bool) (scalar : bool) (mem : list bool)
  : res (arr bool) :=
  let len := len_of (adata array) in
  do! mem <- (if arr_null array then Ok mem
              else body_loop (length (adata array))
                     (fun i => do! l <- load (adata array) i; Ok (emit_logic k l scalar)) len mem 0);
  Ok (Arr (aleft array) (aright array) (ato array) mem).

(* The loop of src/lower.c:10722-10751 and 10800-10814: a variable updated from each
   element. *)
Fixpoint reduce_loop {A B} (n : nat) (f : B -> A -> B) (data : list A) (len : Z) (result : B) (i : Z)
  : res B :=
  match n with
  | O => Fault
  | S n =>
    do! src <- load data i;
    let result := f result src in
    let next := add i 1 in
    if next =? len then Ok result else reduce_loop n f data len result next
  end.

(* src/lower.c:10693-10759 *)
Definition predef_reduction_op (k : logical) (r0 : arr bool) : res bool :=
  let init := match k with LNand | LAnd => true | _ => false end in
  let f := match k with
           | LOr | LNor => orb
           | LAnd | LNand => andb
           | LXor | LXnor => xorb
           end in
  do! result <- (if arr_null r0 then Ok init
                 else reduce_loop (length (adata r0)) f (adata r0) (len_of (adata r0)) init 0);
  Ok (match k with LNor | LNand | LXnor => negb result | _ => result end).

(* MAXIMUM and MINIMUM of an array of scalars, src/lower.c:10761-10818; the range of the
   element type is [left] to or downto [right]. *)
Definition predef_min_max (gt : bool) (left right : Z) (to : bool) (a : arr Z) : res Z :=
  let def := if (gt && to) || (negb gt && negb to) then left else right in
  if arr_null a then Ok def
  else
    reduce_loop (length (adata a))
      (fun cur elem => if (if gt then cur <? elem else elem <? cur) then elem else cur)
      (adata a) (len_of (adata a)) def 0.

(* ---- equality ---- *)

(* src/lower.c:10303-10316, 10332-10371: the comparison for "=", with the comparison of
   elements [f]. *)
Fixpoint eq_loop (n : nat) (f : Z -> res bool) (left_len : Z) (i : Z) : res bool :=
  if i =? left_len then Ok true
  else
    match n with
    | O => Fault
    | S n =>
      do! eq <- f i;
      if (eq : bool) then eq_loop n f left_len (add i 1) else Ok false
    end.

(* src/lower.c:10275-10285 *)
Definition total_len (dims : list nat) : Z :=
  match dims with
  | [] => 0
  | d :: dims => fold_left (fun len d => mul (Z.of_nat d) len) dims (Z.of_nat d)
  end.

(* lower_array_cmp_inner for "=", lower_predef_field_eq_cb and lower_predef_record_eq,
   src/lower.c:10256-10390, 10413-10465; lower_for_each_field_2 calls the function for
   each field in order.  [depth] bounds the nesting of the type. *)
Fixpoint eq_value (depth : nat) (a b : value) : res bool :=
  match depth with
  | O => Fault
  | S depth =>
    match a, b with
    | Scalar x, Scalar y => Ok (x =? y)
    | Array ldims l, Array rdims r =>
      let left_len := total_len ldims in
      let right_len := total_len rdims in
      if left_len =? right_len then
        eq_loop (length l)
          (fun i => do! x <- load l i; do! y <- load r i; eq_value depth x y) left_len 0
      else Ok false
    | Rec l, Rec r =>
      (fix fields (l r : list value) : res bool :=
         match l, r with
         | [], [] => Ok true
         | x :: l, y :: r =>
           do! eq <- eq_value depth x y;
           if (eq : bool) then fields l r else Ok false
         | _, _ => Fault
         end) l r
    | _, _ => Fault
    end
  end.

(* "=" and, if [neq], "/=", src/lower.c:10917-10938 *)
Definition predef_equal (neq : bool) (depth : nat) (a b : value) : res bool :=
  do! eq <- eq_value depth a b;
  Ok (if neq then negb eq else eq).

(* ---- ordering ---- *)

(* src/lower.c:10308-10390 for "<" and, if [le], for "<=", on vectors of scalars. *)
Fixpoint cmp_loop (n : nat) (le : bool) (l r : list Z) (left_len right_len : Z) (i : Z) : res bool :=
  if left_len <=? i then Ok true
  else if right_len <=? i then Ok false
  else
    match n with
    | O => Fault
    | S n =>
      let inc := add i 1 in
      let i_eq_len := inc =? left_len in
      let len_eq := left_len =? right_len in
      do! l_val <- load l i;
      do! r_val <- load r i;
      let cmp := if le then l_val <=? r_val else l_val <? r_val in
      let eq := l_val =? r_val in
      if negb eq || (len_eq && i_eq_len) then Ok cmp
      else cmp_loop n le l r left_len right_len inc
    end.
Definition predef_array_cmp (le : bool) (r0 r1 : arr Z) : res bool :=
  cmp_loop (length (adata r0)) le (adata r0) (adata r1) (len_of (adata r0)) (len_of (adata r1)) 0.

(* src/lower.c:10837-10846, 10920-10931 *)
Definition predef_order (k : rel) (r0 r1 : arr Z) : res bool :=
  match k with
  | RLe => predef_array_cmp true r0 r1
  | RLt => predef_array_cmp false r0 r1
  | RGe => do! x <- predef_array_cmp false r0 r1; Ok (negb x)
  | RGt => do! x <- predef_array_cmp true r0 r1; Ok (negb x)
  end.

(* ---- matching operators ---- *)

(* src/vhdl/vhdl-predef.c:31-41 *)
Definition pos9 (a : logic9) : Z :=
  match a with LU => 0 | LX => 1 | L0 => 2 | L1 => 3 | LZ => 4 | LW => 5 | LL => 6 | LH => 7 | LD => 8 end.
Local Definition U := 0.
Local Definition X := 1.
Local Definition O0 := 2.
Local Definition O1 := 3.

(* src/vhdl/vhdl-predef.c:366-376 *)
Definition match_eq_table : list Z :=
  [ U; U; U; U; U; U; U; U; O1;
    U; X; X; X; X; X; X; X; O1;
    U; X; O1; O0; X; X; O1; O0; O1;
    U; X; O0; O1; X; X; O0; O1; O1;
    U; X; X; X; X; X; X; X; O1;
    U; X; X; X; X; X; X; X; O1;
    U; X; O1; O0; X; X; O1; O0; O1;
    U; X; O0; O1; X; X; O0; O1; O1;
    O1; O1; O1; O1; O1; O1; O1; O1; O1 ].

(* src/vhdl/vhdl-predef.c:378-388 *)
Definition match_lt_table : list Z :=
  [ U; U; U; U; U; U; U; U; X;
    U; X; X; X; X; X; X; X; X;
    U; X; O0; O1; X; X; O0; O1; X;
    U; X; O0; O0; X; X; O0; O0; X;
    U; X; X; X; X; X; X; X; X;
    U; X; X; X; X; X; X; X; X;
    U; X; O0; O1; X; X; O0; O1; X;
    U; X; O0; O0; X; X; O0; O0; X;
    X; X; X; X; X; X; X; X; X ].

(* The functions of STD_LOGIC_1164 that are called:
   lib/ieee.08/std_logic_1164-body.vhdl:100-152, 168-171, 188-191, 491-498. *)
Definition and_table : list Z :=
  [ U; U; O0; U; U; U; O0; U; U;
    U; X; O0; X; X; X; O0; X; X;
    O0; O0; O0; O0; O0; O0; O0; O0; O0;
    U; X; O0; O1; X; X; O0; O1; X;
    U; X; O0; X; X; X; O0; X; X;
    U; X; O0; X; X; X; O0; X; X;
    O0; O0; O0; O0; O0; O0; O0; O0; O0;
    U; X; O0; O1; X; X; O0; O1; X;
    U; X; O0; X; X; X; O0; X; X ].
Definition or_table : list Z :=
  [ U; U; U; O1; U; U; U; O1; U;
    U; X; X; O1; X; X; X; O1; X;
    U; X; O0; O1; X; X; O0; O1; X;
    O1; O1; O1; O1; O1; O1; O1; O1; O1;
    U; X; X; O1; X; X; X; O1; X;
    U; X; X; O1; X; X; X; O1; X;
    U; X; O0; O1; X; X; O0; O1; X;
    O1; O1; O1; O1; O1; O1; O1; O1; O1;
    U; X; X; O1; X; X; X; O1; X ].
Definition not_table : list Z := [ U; X; O1; O0; X; X; O1; O0; X ].

Definition or_1164 (a b : Z) : res Z := load or_table (a * 9 + b).
Definition not_1164 (a : Z) : res Z := load not_table a.
(* The elements from right to left. *)
Fixpoint and_1164 (l : list Z) : res Z :=
  match l with
  | [] => Ok O1
  | x :: l => do! result <- and_1164 l; load and_table (x * 9 + result)
  end.

(* src/vhdl/vhdl-predef.c:205-225 *)
Inductive mcmp := CmpEq | CmpLt | CmpLeq.
Definition match_kind (m : matching) : mcmp * bool :=
  match m with
  | MNeq => (CmpEq, true)
  | MEq => (CmpEq, false)
  | MGe => (CmpLt, true)
  | MLt => (CmpLt, false)
  | MGt => (CmpLeq, true)
  | MLe => (CmpLeq, false)
  end.

(* The table look-up, src/vhdl/vhdl-predef.c:390-435, and whether the assertion about '-'
   fails. *)
Definition match_table (lt : bool) (left_ right_ : Z) : res (Z * bool) :=
  let and := negb (left_ =? 8) && negb (right_ =? 8) in
  do! v <- load (if lt then match_lt_table else match_eq_table) (add (mul left_ 9) right_);
  Ok (v, lt && negb and).

(* Of two STD_ULOGIC, src/vhdl/vhdl-predef.c:345-451; the two functions called for "?<="
   are the ones made for "?<" and "?=". *)
Definition predef_match_op (m : matching) (left_ right_ : Z) : res (Z * bool) :=
  let (cmp, invert) := match_kind m in
  do! (v, fails) <-
    match cmp with
    | CmpLeq =>
      do! (eq, f1) <- match_table false left_ right_;
      do! (less, f2) <- match_table true left_ right_;
      do! v <- or_1164 eq less;
      Ok (v, f1 || f2)
    | CmpLt => match_table true left_ right_
    | CmpEq => match_table false left_ right_
    end;
  if invert : bool then do! v <- not_1164 v; Ok (v, fails) else Ok (v, fails).

(* Of two BIT, src/vhdl/vhdl-predef.c:343-344, 438-439 *)
Definition predef_match_bit (m : matching) (left_ right_ : bool) : bool :=
  let (cmp, invert) := match_kind m in
  let a := b2z left_ in
  let b := b2z right_ in
  let v := match cmp with CmpEq => a =? b | CmpLt => a <? b | CmpLeq => a <=? b end in
  if invert then negb v else v.

(* Of two vectors of STD_ULOGIC, src/vhdl/vhdl-predef.c:239-342, 438-451: the results of
   the elements are stored, then "and" is called.  Vectors of different lengths give an
   error of severity failure, which ends the simulation: [None]. *)
Definition predef_match_array (invert : bool) (left_ right_ : list Z) (mem : list Z) : res (option Z) :=
  let left_len := len_of left_ in
  let right_len := len_of right_ in
  if negb (left_len =? right_len) then Ok None
  else
    do! mem <- (if left_len =? 0 then Ok mem
                else body_loop (length left_)
                  (fun i =>
                     do! a <- load left_ i;
                     do! b <- load right_ i;
                     do! (v, _) <- predef_match_op MEq a b;
                     Ok v) left_len mem 0);
    do! v <- and_1164 mem;
    if invert then do! v <- not_1164 v; Ok (Some v) else Ok (Some v).

(* The same for vectors of BIT: the elements are compared, and the predefined "and" of a
   vector is called. *)
Definition predef_match_bit_array (invert : bool) (left_ right_ : arr bool) (mem : list bool)
  : res (option bool) :=
  let left_len := len_of (adata left_) in
  let right_len := len_of (adata right_) in
  if negb (left_len =? right_len) then Ok None
  else
    do! mem <- (if left_len =? 0 then Ok mem
                else body_loop (length (adata left_))
                  (fun i =>
                     do! a <- load (adata left_) i;
                     do! b <- load (adata right_) i;
                     Ok (predef_match_bit MEq a b)) left_len mem 0);
    do! v <- predef_reduction_op LAnd (Arr (aleft left_) (aright left_) (ato left_) mem);
    Ok (Some (if invert then negb v else v)).
