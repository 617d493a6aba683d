(* What integer arithmetic in VHDL means, independently of how it is compiled.

   A piece of straight-line code is a list of steps.  Each step has a value and a type,
   and later steps name earlier ones by position.  Values are unbounded integers. *)
From Coq Require Import List ZArith Bool.
Import ListNotations.
Local Open Scope Z_scope.

(* A declared range [low to high], which also serves as an integer type. *)
Definition range : Type := Z * Z.
Definition within (r : range) (v : Z) : Prop := fst r <= v <= snd r.
Definition withinb (r : range) (v : Z) : bool := (fst r <=? v) && (v <=? snd r).

Definition int64 : range := (- 2 ^ 63, 2 ^ 63 - 1).

(* The machine integers a type is held in: the smallest that contain its range.  Types
   without negative values have unsigned ones, and a type with at most the values 0
   and 1 has a single bit. *)
Definition signed_ints : list range :=
  [(- 2 ^ 7, 2 ^ 7 - 1); (- 2 ^ 15, 2 ^ 15 - 1); (- 2 ^ 31, 2 ^ 31 - 1)].
Definition unsigned_ints : list range :=
  [(0, 1); (0, 2 ^ 8 - 1); (0, 2 ^ 16 - 1); (0, 2 ^ 32 - 1)].
Definition machine (t : range) : range :=
  if snd t <? fst t then int64
  else if fst t <? 0 then
    match find (fun m => (fst m <=? fst t) && (snd t <=? snd m)) signed_ints with
    | Some m => m
    | None => int64
    end
  else
    match find (fun m => snd t <=? snd m) unsigned_ints with
    | Some m => m
    | None => (0, 2 ^ 64 - 1)
    end.

Inductive logic := LAnd | LOr | LXor | LXnor | LNand | LNor.
Inductive relation := REq | RNeq | RLt | RGt | RLeq | RGeq.
Inductive divop := DDiv | DMod | DRem.
Inductive sumop := SPlus | SMinus | STimes.

(* The steps.  [chk] says whether overflow is to be reported: it is for integer types
   and not for physical types.  [at_] is the source location for errors. *)
Inductive call :=
| Input (t : range) (b : range) (n : nat)          (* a parameter or variable with range b *)
| Const (t : range) (v : Z)
| Sum (o : sumop) (chk : bool) (a b : nat) (at_ : nat)
| Division (o : divop) (a b : nat) (at_ : nat)
| Negate (chk : bool) (a : nat) (at_ : nat)
| Absolute (a : nat) (at_ : nat)
| Logic (o : logic) (a b : nat)
| Not (a : nat)
| Compare (o : relation) (a b : nat)
| Select (t a b : nat)
| Convert (t : range) (b : range) (a : nat)        (* to a value of type t known to lie in b *)
| CheckRange (a l r d : nat) (at_ : nat)           (* a must be in l to r, or l downto r if d = 1 *)
| CheckType (a : nat) (t : range) (r : range) (at_ : nat).   (* a must be in r *)

Inductive fail := Overflow | DivZero | OutOfRange.

(* A value with its type. *)
Definition entry : Type := Z * range.

Inductive outcome := Gives (e : entry) | Fails (f : fail) (at_ : nat) | Meaningless.

Definition bool_type : range := (0, 1).
Definition range_eqb (a b : range) : bool := (fst a =? fst b) && (snd a =? snd b).
Definition of_bool (b : bool) : Z := if b then 1 else 0.
Definition is_true (v : Z) : bool := negb (v =? 0).

Definition sum_value (o : sumop) (a b : Z) : Z :=
  match o with SPlus => a + b | SMinus => a - b | STimes => a * b end.
(* VHDL: division truncates towards zero, rem has the sign of the left operand and mod
   the sign of the right operand. *)
Definition div_value (o : divop) (a b : Z) : Z :=
  match o with DDiv => Z.quot a b | DRem => Z.rem a b | DMod => Z.modulo a b end.
Definition logic_value (o : logic) (a b : bool) : bool :=
  match o with
  | LAnd => a && b | LOr => a || b | LXor => xorb a b
  | LXnor => negb (xorb a b) | LNand => negb (a && b) | LNor => negb (a || b)
  end.
Definition relation_value (o : relation) (a b : Z) : bool :=
  match o with
  | REq => a =? b | RNeq => negb (a =? b) | RLt => a <? b | RGt => b <? a
  | RLeq => a <=? b | RGeq => b <=? a
  end.

(* One step, given the earlier ones and the values of parameters and variables. *)
Definition step (inputs : nat -> Z) (es : list entry) (c : call) : outcome :=
  let at_ n := nth_error es n in
  match c with
  | Input t _ n => Gives (inputs n, t)
  | Const t v => Gives (v, t)
  | Sum o chk a b loc =>
    match at_ a, at_ b with
    | Some (x, t), Some (y, u) =>
      if range_eqb t u then
        let v := sum_value o x y in
        if chk && negb (withinb (machine t) v) then Fails Overflow loc else Gives (v, t)
      else Meaningless
    | _, _ => Meaningless
    end
  | Division o a b loc =>
    match at_ a, at_ b with
    | Some (x, t), Some (y, u) =>
      if range_eqb t u then
        if y =? 0 then Fails DivZero loc
        else
          let v := div_value o x y in
          if withinb (machine t) v then Gives (v, t) else Fails Overflow loc
      else Meaningless
    | _, _ => Meaningless
    end
  | Negate chk a loc =>
    match at_ a with
    | Some (x, t) =>
      if chk && negb (withinb (machine t) (- x)) then Fails Overflow loc else Gives (- x, t)
    | None => Meaningless
    end
  | Absolute a loc =>
    match at_ a with
    | Some (x, t) =>
      if withinb (machine t) (Z.abs x) then Gives (Z.abs x, t) else Fails Overflow loc
    | None => Meaningless
    end
  | Logic o a b =>
    match at_ a, at_ b with
    | Some (x, t), Some (y, u) =>
      if range_eqb t bool_type && range_eqb u bool_type then
        Gives (of_bool (logic_value o (is_true x) (is_true y)), bool_type)
      else Meaningless
    | _, _ => Meaningless
    end
  | Not a =>
    match at_ a with
    | Some (x, t) =>
      if range_eqb t bool_type then Gives (of_bool (negb (is_true x)), bool_type) else Meaningless
    | None => Meaningless
    end
  | Compare o a b =>
    match at_ a, at_ b with
    | Some (x, t), Some (y, u) =>
      if range_eqb t u then Gives (of_bool (relation_value o x y), bool_type) else Meaningless
    | _, _ => Meaningless
    end
  | Select c a b =>
    match at_ c, at_ a, at_ b with
    | Some (z, w), Some (x, t), Some (y, u) =>
      if range_eqb w bool_type && range_eqb t u then Gives (if is_true z then x else y, t)
      else Meaningless
    | _, _, _ => Meaningless
    end
  | Convert t _ a =>
    match at_ a with Some (x, _) => Gives (x, t) | None => Meaningless end
  | CheckRange a l r d loc =>
    match at_ a, at_ l, at_ r, at_ d with
    | Some (x, t), Some (lv, _), Some (rv, _), Some (dv, u) =>
      if range_eqb u bool_type then
        if withinb (if dv =? 1 then (rv, lv) else (lv, rv)) x then Gives (x, t)
        else Fails OutOfRange loc
      else Meaningless
    | _, _, _, _ => Meaningless
    end
  | CheckType a _ r loc =>
    match at_ a with
    | Some (x, t) => if withinb r x then Gives (x, t) else Fails OutOfRange loc
    | None => Meaningless
    end
  end.

Inductive result := Done (es : list entry) | Failed (f : fail) (at_ : nat) | NoMeaning.

Fixpoint run (inputs : nat -> Z) (es : list entry) (cs : list call) : result :=
  match cs with
  | [] => Done es
  | c :: cs =>
    match step inputs es c with
    | Gives e => run inputs (es ++ [e]) cs
    | Fails f loc => Failed f loc
    | Meaningless => NoMeaning
    end
  end.

(* The conditions under which a step is claimed to be compiled correctly.  [fixed n]
   says that the compiler takes step n to have one possible value.  A type [t] must be a
   range of 64-bit integers.
   - inputs lie in their declared range, constants in the machine integers of their type;
   - sums and products fit in 64 bits; unchecked ones fit in the machine integers; a
     checked one that overflows is not computed from two fixed operands and is not of a
     one-bit type; the negative of a number, written 0 - x, lies in the declared range;
   - a fixed divisor is not negative; quotients by other divisors, and all remainders, lie
     in the declared range of the type;
   - negatives and absolute values lie in the declared range of the type, or the negative
     is one of a negative number and overflows;
   - the selected value lies in the declared range of its type;
   - a converted value lies in the range of the new type and in the range it is known to
     lie in. *)
Definition sane (t : range) : Prop := - 2 ^ 63 <= fst t /\ snd t <= 2 ^ 63 - 1.

Definition regular (fixed : nat -> bool) (inputs : nat -> Z) (es : list entry) (c : call) : Prop :=
  match c with
  | Input t b n =>
    sane t /\ sane b /\ within b (inputs n) /\ within (machine t) (inputs n)
  | Const t v => sane t /\ within (machine t) v /\ within int64 v
  | Sum o chk a b _ =>
    forall x t y u, nth_error es a = Some (x, t) -> nth_error es b = Some (y, u) ->
    let v := sum_value o x y in
    within int64 v /\
    (chk = false -> within (machine t) v) /\
    (chk = true -> ~ within (machine t) v ->
     (fixed a = false \/ fixed b = false) /\ (fst t < 0 \/ 1 < snd t)) /\
    (o = SMinus -> fixed a = true -> x = 0 -> within t v)
  | Division o a b _ =>
    forall x t y u, nth_error es a = Some (x, t) -> nth_error es b = Some (y, u) ->
    y <> 0 ->
    within int64 (Z.quot x y) /\
    match o with
    | DDiv => if fixed b then 0 < y else within t (Z.quot x y)
    | _ => within t (div_value o x y)
    end
  | Negate chk a _ =>
    forall x t, nth_error es a = Some (x, t) ->
    within t (- x) \/ chk = true /\ x < 0 /\ ~ within (machine t) (- x)
  | Absolute a _ => forall x t, nth_error es a = Some (x, t) -> within t (Z.abs x)
  | Select c a b =>
    forall z w x t y u, nth_error es c = Some (z, w) -> nth_error es a = Some (x, t) ->
    nth_error es b = Some (y, u) -> within t (if is_true z then x else y)
  | Convert t b a =>
    forall x u, nth_error es a = Some (x, u) -> sane t /\ sane b /\ within t x /\ within b x
  | CheckType a t r _ =>
    sane t /\ within (machine t) (fst r) /\ within (machine t) (snd r) /\
    within int64 (fst r) /\ within int64 (snd r)
  | _ => True
  end.

(* All steps of a run, up to the one that fails.  [fixed i n] says that the compiler
   takes step n to have one possible value at the time it compiles step i. *)
Fixpoint regular_run (fixed : nat -> nat -> bool) (inputs : nat -> Z) (es : list entry)
  (cs : list call) : Prop :=
  match cs with
  | [] => True
  | c :: cs =>
    regular (fixed (length es)) inputs es c /\
    match step inputs es c with
    | Gives e => regular_run fixed inputs (es ++ [e]) cs
    | _ => True
    end
  end.
