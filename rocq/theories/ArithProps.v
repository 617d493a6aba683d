(* C76: the arithmetic of VHDL, as compiled and executed. *)
From Coq Require Import List ZArith Arith Bool Lia.
From Verif Require Import Base JitModel ArithSpec ArithModel ArithProofs ArithEmit ArithRun.
Import ListNotations.
Local Open Scope Z_scope.

(* For every sequence of steps that is compiled and all parameter values: if the steps
   meet the conditions of [regular], executing the emitted code gives every step its
   value, or stops with the error of the first step that has one, at its location.  It
   never comes to undefined behaviour.

   Missing: the steps that do not meet the conditions, for which the claim is false as
   the theorems below show. *)
Theorem C76_arithmetic_partial inputs ks c m :
  compile ks = Ok (c, m) -> regular_run (fixed_at ks) inputs [] ks ->
  match run inputs [] ks with
  | Done es => exists e, exec_code c inputs = Val e /\
               Forall2 (fun r en => nth_error e r = Some (fst en)) m es
  | Failed f at_ => exec_code c inputs = Err f at_
  | NoMeaning => True
  end.
Proof.
  intros C R. pose proof (compile_ok inputs ks c m C R) as K.
  destruct (run inputs [] ks); auto. destruct K as (e & A & B & _). eauto.
Qed.
Print Assumptions C76_arithmetic_partial.

(* The bounds the compiler keeps for every register contain its value. *)
Theorem C76_bounds_partial inputs ks c m es :
  compile ks = Ok (c, m) -> regular_run (fixed_at ks) inputs [] ks ->
  run inputs [] ks = Done es ->
  exists e, exec_code c inputs = Val e /\
  Forall2 (fun x v => tlow (rbounds x) <= v <= thigh (rbounds x)) (regs c) e.
Proof.
  intros C R D. pose proof (compile_ok inputs ks c m C R) as K. rewrite D in K.
  destruct K as (e & A & _ & B). eauto.
Qed.
Print Assumptions C76_bounds_partial.

(* ---- a case that meets the conditions ---- *)

Definition INTEGER : range := (- 2 ^ 31, 2 ^ 31 - 1).
Definition NATURAL : range := (0, 2 ^ 31 - 1).

(* x, y : INTEGER; z := NATURAL((x * 3 + y) / 4), and its larger of the two. *)
Definition program : list call :=
  [Input INTEGER INTEGER 0; Input INTEGER (0, 1000) 1; Const INTEGER 3;
   Sum STimes true 0 2 10; Sum SPlus true 3 1 11; Const INTEGER 4; Division DDiv 4 5 12;
   CheckType 6 INTEGER NATURAL 13; Compare RLt 7 1; Select 8 1 7;
   Sum SMinus true 9 1 14; Division DMod 10 9 15; Negate true 0 16].

Ltac one_step :=
  split; [cbv beta iota delta [regular]; intros;
          repeat match goal with
          | H : nth_error _ _ = Some _ |- _ => vm_compute in H; injection H; intros; subst; clear H
          end; vm_compute; intuition (try discriminate; try congruence) |];
  match goal with
  | |- match step ?i ?es ?k with _ => _ end =>
    let s := eval vm_compute in (step i es k) in
    replace (step i es k) with s by (vm_compute; reflexivity); cbv beta iota;
    try exact Logic.I; fold regular_run; cbn [app]
  end.

Definition some_values (n : nat) : Z := match n with O => 70 | _ => 15 end.
Definition large_values (n : nat) : Z := match n with O => 2 ^ 30 | _ => 15 end.
Definition negative_values (n : nat) : Z := match n with O => - 70 | _ => 15 end.

Example program_regular : regular_run (fixed_at program) some_values [] program.
Proof.
  unfold program at 2. cbn [regular_run]. do 13 one_step.
Qed.
Example program_overflow_regular : regular_run (fixed_at program) large_values [] program.
Proof.
  unfold program at 2. cbn [regular_run]. do 4 one_step.
Qed.
Example program_range_regular : regular_run (fixed_at program) negative_values [] program.
Proof.
  unfold program at 2. cbn [regular_run]. do 8 one_step.
Qed.
Example program_compiled : exists c m, compile program = Ok (c, m) /\ length (ops c) = 17%nat.
Proof. eexists. eexists. split; vm_compute; reflexivity. Qed.
Example program_runs :
  run some_values [] program =
    Done [(70, INTEGER); (15, INTEGER); (3, INTEGER); (210, INTEGER); (225, INTEGER); (4, INTEGER);
          (56, INTEGER); (56, INTEGER); (0, bool_type); (56, INTEGER); (41, INTEGER); (41, INTEGER);
          (-70, INTEGER)] /\
  run large_values [] program = Failed Overflow 10 /\
  run negative_values [] program = Failed OutOfRange 13.
Proof. vm_compute. auto. Qed.

(* ---- where the claim fails ---- *)

(* What the program should do differs from what the emitted code does. *)
Definition miscompiled (ks : list call) (inputs : nat -> Z) (should : fail) (at_ : nat) (last : Z) : Prop :=
  run inputs [] ks = Failed should at_ /\
  exists c m e r, compile ks = Ok (c, m) /\ exec_code c inputs = Val e /\
  nth_error m (length ks - 1) = Some r /\ nth_error e r = Some last.

Ltac miscompiles :=
  split; [vm_compute; reflexivity |];
  eexists; eexists; eexists; eexists; split; [vm_compute; reflexivity |];
  split; [vm_compute; reflexivity |]; split; vm_compute; reflexivity.

(* 0 - x is compiled as an unchecked negation: 0 - INTEGER'low is 2**31. *)
Theorem C76_zero_minus_refuted : exists x,
  miscompiled [Input INTEGER INTEGER 0; Const INTEGER 0; Sum SMinus true 1 0 7] (fun _ => x)
    Overflow 7 (2 ^ 31).
Proof. exists (- 2 ^ 31). miscompiles. Qed.
Print Assumptions C76_zero_minus_refuted.

(* x / (-1) for x in 0 to 100 is given bounds from 0 to -100, so that the check against
   NATURAL is dropped. *)
Theorem C76_divide_by_negative_refuted : exists x, 0 <= x <= 100 /\
  miscompiled [Input INTEGER (0, 100) 0; Const INTEGER (-1); Division DDiv 0 1 7;
               CheckType 2 INTEGER NATURAL 8] (fun _ => x) OutOfRange 8 (- x).
Proof. exists 5. split; [lia |]. miscompiles. Qed.
Print Assumptions C76_divide_by_negative_refuted.

(* The bounds of a 64-bit sum are saturated and then fit, so that it is unchecked. *)
Theorem C76_sum_64_bits_refuted : exists x y,
  miscompiled [Input int64 int64 0; Input int64 int64 1; Sum SPlus true 0 1 7]
    (fun n => match n with O => x | _ => y end) Overflow 7 (- 2 ^ 63).
Proof. exists (2 ^ 63 - 1), 1. miscompiles. Qed.
Print Assumptions C76_sum_64_bits_refuted.

(* type t is range 0 to 10: the negative of a value is unchecked, and as the result has
   the bounds of the type a later check is dropped as well. *)
Theorem C76_negate_unsigned_refuted : exists x, 0 <= x <= 10 /\
  miscompiled [Input (0, 10) (0, 10) 0; Negate true 0 7; CheckType 1 (0, 10) (0, 10) 8] (fun _ => x)
    Overflow 7 (- x).
Proof. exists 5. split; [lia |]. miscompiles. Qed.
Print Assumptions C76_negate_unsigned_refuted.

(* type t is range -10 to 100: -y is not in the range and the check is dropped. *)
Theorem C76_negate_check_refuted : exists x, -10 <= x <= 100 /\
  miscompiled [Input (-10, 100) (-10, 100) 0; Negate true 0 7; CheckType 1 (-10, 100) (-10, 100) 8]
    (fun _ => x) OutOfRange 8 (- x).
Proof. exists 100. split; [lia |]. miscompiles. Qed.
Print Assumptions C76_negate_check_refuted.

(* type t is range 0 to 1: 1 + 1 = 2 passes the overflow check and the range check. *)
Theorem C76_one_bit_sum_refuted : exists x,
  miscompiled [Input (0, 1) (0, 1) 0; Input (0, 1) (0, 1) 1; Sum SPlus true 0 1 7;
               CheckType 2 (0, 1) (0, 1) 8] (fun _ => x) Overflow 7 2.
Proof. exists 1. miscompiles. Qed.
Print Assumptions C76_one_bit_sum_refuted.

(* Two operands with one possible value each are added without a check. *)
Theorem C76_folded_sum_refuted : exists x,
  miscompiled [Input INTEGER (2 ^ 31 - 1, 2 ^ 31 - 1) 0; Const INTEGER 1; Sum SPlus true 0 1 7;
               Sum SMinus true 2 1 8] (fun _ => x) Overflow 7 x.
Proof. exists (2 ^ 31 - 1). miscompiles. Qed.
Print Assumptions C76_folded_sum_refuted.

(* abs INTEGER'low is 2**31, and a check against INTEGER is dropped. *)
Theorem C76_absolute_refuted : exists x,
  miscompiled [Input INTEGER INTEGER 0; Absolute 0 7; CheckType 1 INTEGER INTEGER 8] (fun _ => x)
    Overflow 7 (2 ^ 31).
Proof. exists (- 2 ^ 31). miscompiles. Qed.
Print Assumptions C76_absolute_refuted.

(* So is INTEGER'low / y for y = -1. *)
Theorem C76_quotient_refuted : exists x y,
  miscompiled [Input INTEGER INTEGER 0; Input INTEGER INTEGER 1; Division DDiv 0 1 7;
               CheckType 2 INTEGER INTEGER 8]
    (fun n => match n with O => x | _ => y end) Overflow 7 (2 ^ 31).
Proof. exists (- 2 ^ 31), (-1). miscompiles. Qed.
Print Assumptions C76_quotient_refuted.
