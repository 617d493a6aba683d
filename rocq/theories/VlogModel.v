(* Model of the operators of Verilog: lib/nvc/verilog-body.vhd.  A t_logic_array is the list of
   its elements from the right, as the functions index it (n - 1 downto 0).  vlog_lower_binary
   (src/vlog/vlog-lower.c:382-463) calls them with the operands as they are. *)
From Coq Require Import List ZArith Bool.
From Verif Require Import Base VlogSpec.
Import ListNotations.
Local Open Scope Z_scope.

Definition at_ (l : list logic) (i : nat) : logic := nth i l LX.
Definition eqb := logic_eqb.

(* The scalar operators: lib/nvc/verilog-body.vhd:308-317, 324-333, 369-378, 410-417 *)
Definition v_and (l r : logic) : logic :=
  if eqb l L1 && eqb r L1 then L1
  else if eqb l LX || eqb r LX || eqb l LZ || eqb r LZ then LX
  else L0.
Definition v_or (l r : logic) : logic :=
  if eqb l L0 && eqb r L0 then L0
  else if eqb l LX || eqb r LX || eqb l LZ || eqb r LZ then LX
  else L1.
Definition v_xor (l r : logic) : logic :=
  if (eqb l L1 && eqb r L0) || (eqb l L0 && eqb r L1) then L1
  else if eqb l LX || eqb r LX || eqb l LZ || eqb r LZ then LX
  else L0.
Definition v_not (x : logic) : logic := match x with L0 => L1 | L1 => L0 | _ => LX end.

(* The bitwise operators: lib/nvc/verilog-body.vhd:347-362, 391-408, 419-428 *)
Definition v_bitwise (f : logic -> logic -> logic) (l r : list logic) : list logic :=
  map (fun i => if (i <? length l)%nat && (i <? length r)%nat then f (at_ l i) (at_ r i) else L0)
      (seq 0 (Nat.max (length l) (length r))).
Definition v_and_bits := v_bitwise v_and.
Definition v_or_bits := v_bitwise v_or.
Definition v_not_bits (x : list logic) : list logic := map v_not x.

(* The logical operators: lib/nvc/verilog-body.vhd:335-345, 380-390, 430-441.  The loops go
   from the left. *)
Definition v_log_or (l r : list logic) : logic :=
  fold_left v_or (rev r) (fold_left v_or (rev l) L0).
Definition v_log_and (l r : list logic) : logic :=
  fold_left v_and (rev r) (fold_left v_and (rev l) L0).
Fixpoint not_loop (l : list logic) (result : logic) : logic :=
  match l with
  | [] => result
  | L1 :: l => not_loop l L0
  | L0 :: l => not_loop l result
  | _ :: _ => LX
  end.
Definition v_log_not (x : list logic) : logic := not_loop (rev x) L1.

(* Reduction: lib/nvc/verilog-body.vhd:443-486 *)
Definition and_reduce (l : list logic) : logic := fold_left v_and (rev l) L1.
Definition or_reduce (l : list logic) : logic := fold_left v_or (rev l) L0.
Definition xor_reduce (l : list logic) : logic :=
  match rev l with
  | [] => L0
  | b :: l => fold_left v_xor l b
  end.
Definition nand_reduce l := v_not (and_reduce l).
Definition nor_reduce l := v_not (or_reduce l).
Definition xnor_reduce l := v_not (xor_reduce l).

(* resize: lib/nvc/verilog-body.vhd:288-305 *)
Definition resize (l : list logic) (n : nat) : list logic :=
  if (n =? length l)%nat then l
  else if (n <? length l)%nat then firstn n l
  else l ++ repeat L0 (n - length l).

(* Addition and negation: lib/nvc/verilog-body.vhd:488-523 *)
Fixpoint add_unsigned (l r : list logic) (c : logic) : list logic :=
  match l, r with
  | a :: l, b :: r =>
      v_xor (v_xor c a) b :: add_unsigned l r (v_or (v_or (v_and c a) (v_and c b)) (v_and a b))
  | _, _ => []
  end.
Definition v_add (l r : list logic) : list logic :=
  let n := Nat.max (length l) (length r) in add_unsigned (resize l n) (resize r n) L0.
Fixpoint neg_loop (l : list logic) (c : logic) : list logic :=
  match l with
  | [] => []
  | a :: l => v_xor (v_not a) c :: neg_loop l (v_and c (v_not a))
  end.
Definition v_neg (l : list logic) : list logic := neg_loop l L1.

(* Equality: lib/nvc/verilog-body.vhd:525-564, then 566-594.  The loop over the common part, and
   the one over the rest of the longer operand. *)
Fixpoint rest_loop (l : list logic) (result : logic) : logic :=
  match l with
  | [] => result
  | a :: l => if eqb a L1 then rest_loop l L0 else if negb (eqb a L0) then LX else rest_loop l result
  end.
Fixpoint equal_loop (l r : list logic) (result : logic) : logic :=
  match l, r with
  | a :: l', b :: r' =>
      if (eqb a L1 && eqb b L0) || (eqb a L0 && eqb b L1) then equal_loop l' r' L0
      else if (negb (eqb a L1) && negb (eqb a L0)) || (negb (eqb b L1) && negb (eqb b L0)) then LX
      else equal_loop l' r' result
  | l, [] => rest_loop l result
  | [], r => rest_loop r result
  end.
Definition v_equal (l r : list logic) : logic := equal_loop l r L1.
Fixpoint v_case_equal (l r : list logic) : bool :=
  match l, r with
  | a :: l', b :: r' => if negb (eqb a b) then false else v_case_equal l' r'
  | l, [] => forallb (eqb L0) l
  | [], r => forallb (eqb L0) r
  end.

(* Relations: lib/nvc/verilog-body.vhd:601-662 *)
Fixpoint less_loop (l : list (logic * logic)) : logic :=
  match l with
  | [] => L0
  | (a, b) :: l =>
      if eqb a L0 && eqb b L1 then L1 else if negb (eqb a b) then L0 else less_loop l
  end.
Definition v_less (l r : list logic) : logic :=
  let n := Nat.min (length l) (length r) in
  if existsb (eqb L1) (skipn n l) then L1
  else if existsb (fun b => negb (eqb b L0)) (skipn n r) then L0
  else less_loop (rev (combine (firstn n l) (firstn n r))).
Fixpoint greater_loop (l : list (logic * logic)) : logic :=
  match l with
  | [] => L0
  | (a, b) :: l =>
      if eqb a L1 && eqb b L0 then L1 else if negb (eqb a b) then L0 else greater_loop l
  end.
Definition v_greater (l r : list logic) : logic :=
  let n := Nat.min (length l) (length r) in
  if existsb (eqb L1) (skipn n l) then L0
  else if existsb (fun b => negb (eqb b L0)) (skipn n r) then L1
  else greater_loop (rev (combine (firstn n l) (firstn n r))).
Definition v_less_equal l r := v_not (v_greater l r).
Definition v_greater_equal l r := v_not (v_less l r).

(* Conversion from and to integers: lib/nvc/verilog-body.vhd:107-127, 171-182.  [Fault] is the
   overflow of t_int64. *)
Fixpoint to_logic_loop (n : nat) (i_val : Z) (b_val : logic) : list logic :=
  match n with
  | O => []
  | S n => (if i_val mod 2 =? 0 then b_val else v_not b_val) :: to_logic_loop n (Z.quot i_val 2) b_val
  end.
Definition to_logic (value : Z) (width : nat) : list logic :=
  if value <? 0 then to_logic_loop width (- (value + 1)) L1 else to_logic_loop width value L0.
Definition int64 (z : Z) : res Z :=
  if (- 2 ^ 63 <=? z) && (z <? 2 ^ 63) then Ok z else Fault.
Fixpoint to_integer_loop (l : list logic) (r : Z) : res Z :=
  match l with
  | [] => Ok r
  | b :: l =>
      do! r <- int64 (r * 2);
      do! r <- (if eqb b L1 then int64 (r + 1) else Ok r);
      to_integer_loop l r
  end.
Definition to_integer (l : list logic) : res Z := to_integer_loop (rev l) 0.

(* Nets: lib/nvc/verilog-body.vhd:21-74.  A strength is its position in t_strength: HiZ is 0,
   St is 6. *)
Definition pos (v : logic) : Z := match v with LX => 0 | LZ => 1 | L0 => 2 | L1 => 3 end.
Definition val (p : Z) : logic := if p =? 0 then LX else if p =? 1 then LZ else if p =? 2 then L0 else L1.
Definition encode_net (v : logic) (s0 s1 : Z) : Z := pos v + s0 * 4 + s1 * 32.
Definition decode_net (net : Z) : logic * Z * Z := (val (Z.rem net 4), Z.rem (net / 4) 8, Z.rem (net / 32) 8).
Definition HiZ : Z := 0.
Definition St : Z := 6.
Definition resolve_step (acc : logic * Z * Z) (input : Z) : logic * Z * Z :=
  let '(data, st0, st1) := acc in
  let '(elem, e0, e1) := decode_net input in
  if eqb elem L1 && (st1 <? e1) then (L1, e0, e1)
  else if eqb elem L0 && (st0 <? e0) then (L0, e0, e1)
  else if (eqb elem L0 && eqb data L1 && (e0 =? st1)) || (eqb elem L1 && eqb data L0 && (e1 =? st0))
  then (LX, St, St)
  else acc.
Definition resolve_wire (inputs : list Z) : Z :=
  let '(data, s0, s1) :=
    match inputs with
    | [] => (LZ, HiZ, HiZ)
    | i :: is => fold_left resolve_step is (decode_net i)
    end in
  encode_net data s0 s1.
(* to_net: lib/nvc/verilog-body.vhd:129-133, 147-152; to_logic: lines 76-82.  vlog_lower_to_net
   gives the strength of the gate, or St for assignments (src/vlog/vlog-lower.c:218-248). *)
Definition to_net (v : logic) : Z := encode_net v St St.
Definition to_net_strength (v : logic) (strength : Z) : Z := strength + pos v.
Definition net_value (n : Z) : logic := fst (fst (decode_net n)).

(* to_string: lib/nvc/verilog-body.vhd:276-286.  The string, from the left *)
Definition to_string (l : list logic) : list logic := map (fun i => at_ l i) (seq 0 (length l)).

(* vlog_lower_binary and the functions it finds in the package:
   src/vlog/vlog-lower.c:382-463, lib/nvc/verilog.vhd:74-102.  [Fault] when there is none of
   that name and type. *)
Definition lower_binary (op : binary) (l r : list logic) : res value :=
  match op with
  | BAnd => Ok (VBits (v_and_bits l r))
  | BOr => Ok (VBits (v_or_bits l r))
  | BLogAnd => Ok (VBit (v_log_and l r))
  | BLogOr => Ok (VBit (v_log_or l r))
  | BCaseEq => Ok (VBool (v_case_equal l r))
  | BCaseNeq => Ok (VBool (negb (v_case_equal l r)))
  | BEq => Ok (VBit (v_equal l r))
  | BNeq => Fault
  | BPlus => Ok (VBits (v_add l r))
  | BMinus => Fault
  | BLt => Ok (VBit (v_less l r))
  | BGt => Ok (VBit (v_greater l r))
  | BLeq => Ok (VBit (v_less_equal l r))
  | BGeq => Ok (VBit (v_greater_equal l r))
  end.
