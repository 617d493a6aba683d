(* C78: the second intermediate code computes what the first one does. *)
From Coq Require Import List ZArith Arith Bool Lia.
From Verif Require Import Base JitModel ArithSpec ArithModel ArithProofs ArithEmit ArithRun ArithProps
  MirModel MirProofs.
Import ListNotations.
Local Open Scope Z_scope.

(* For every vcode block that is imported, whoever emitted it, and all parameter values:
   under the conditions of [fits], every register's value is the value of the MIR value
   it is mapped to, and an error stops both with the same error at the same location.

   Missing: the operations that do not meet the conditions, for which the claim is
   false as the theorems below show. *)
Theorem C78_import_partial c u m inputs :
  import c = Ok (u, m) -> fits c inputs ->
  match exec_code c inputs with
  | Val e => exists me, exec_unit u inputs = Val me /\ Forall2 (fun v z => val me v = Val z) m e
  | Err f at_ => exec_unit u inputs = Err f at_
  | Crash => True
  end.
Proof.
  intros E F. pose proof (import_ok inputs c (u, m) E F) as K. unfold same in K.
  destruct (exec_code c inputs) as [| f l | e]; [exact K | exact K |].
  destruct K as (me & J & M). cbn [fst snd] in *. exists me. split; [apply (m_run _ _ _ J) |].
  clear - M. induction M as [| v z m e [H _] M IH]; constructor; auto.
Qed.
Print Assumptions C78_import_partial.

(* The range kept with every node contains its value. *)
Theorem C78_stamps_partial c u m inputs e :
  import c = Ok (u, m) -> fits c inputs -> exec_code c inputs = Val e ->
  exists me, exec_unit u inputs = Val me /\
  Forall2 (fun d z => forall lo hi, nstamp d = Some (lo, hi) -> lo <= z <= hi) u me.
Proof.
  intros E F X. pose proof (import_ok inputs c (u, m) E F) as K. unfold same in K. rewrite X in K.
  destruct K as (me & [R L O] & _). cbn [fst] in *. exists me. split; [exact R |].
  assert (O' : forall n d v, nth_error u n = Some d -> nth_error me n = Some v ->
               forall lo hi, nstamp d = Some (lo, hi) -> lo <= v <= hi).
  { intros n d v A B lo hi S. destruct (O n d v A B) as [S' _]. apply (S' lo hi S). }
  clear - L O'. revert me L O'. induction u as [| d u IH]; intros [| z me] L O'; try discriminate; constructor.
  - exact (O' O d z eq_refl eq_refl).
  - apply IH; [now injection L |]. intros n. exact (O' (S n)).
Qed.
Print Assumptions C78_stamps_partial.

(* Together with C76: from VHDL steps to the execution of MIR. *)
Theorem C78_arithmetic_partial inputs ks c m u mm :
  compile ks = Ok (c, m) -> import c = Ok (u, mm) ->
  regular_run (fixed_at ks) inputs [] ks -> fits c inputs ->
  match run inputs [] ks with
  | Done es => exists me, exec_unit u inputs = Val me /\
               Forall2 (fun r en => exists v, nth_error mm r = Some v /\ val me v = Val (fst en)) m es
  | Failed f at_ => exec_unit u inputs = Err f at_
  | NoMeaning => True
  end.
Proof.
  intros C E R F. pose proof (C76_arithmetic_partial inputs ks c m C R) as A.
  pose proof (C78_import_partial c u mm inputs E F) as B.
  destruct (run inputs [] ks) as [es | f l |]; [| now rewrite A in B | exact Logic.I].
  destruct A as (e & X & A). rewrite X in B. destruct B as (me & M & B). exists me. split; [exact M |].
  assert (G : forall r z, nth_error e r = Some z -> exists v, nth_error mm r = Some v /\ val me v = Val z).
  { clear - B. induction B as [| v z mm e H B IH]; intros [| r] w Q; try discriminate; cbn in *.
    - injection Q as <-. eauto.
    - now apply IH. }
  clear - A G. induction A; constructor; auto.
Qed.
Print Assumptions C78_arithmetic_partial.

(* ---- a case that meets the conditions: the program of C76 ---- *)

Definition program_code : code :=
  match compile program with Ok (c, _) => c | Fault => Code [] [] end.

Ltac one_op :=
  split; [cbv beta iota delta [fits_op]; intros;
          repeat match goal with
          | H : nth_error _ _ = Some _ |- _ => vm_compute in H; injection H; intros; subst; clear H
          end; vm_compute; intuition (try discriminate; try congruence) |];
  match goal with
  | |- match ?x with _ => _ end =>
    let s := eval vm_compute in x in
    replace x with s by (vm_compute; reflexivity); cbv beta iota
  end; try exact Logic.I;
  match goal with
  | |- match ?x with _ => _ end =>
    let s := eval vm_compute in x in
    replace x with s by (vm_compute; reflexivity); cbv beta iota
  end; fold fits_ops.

Example program_fits : fits program_code some_values.
Proof.
  unfold fits.
  let l := eval vm_compute in (ops program_code) in
  replace (ops program_code) with l by (vm_compute; reflexivity).
  cbn [fits_ops]. do 17 one_op.
Qed.
Example program_overflow_fits : fits program_code large_values.
Proof.
  unfold fits.
  let l := eval vm_compute in (ops program_code) in
  replace (ops program_code) with l by (vm_compute; reflexivity).
  cbn [fits_ops]. do 4 one_op.
Qed.
Example program_imported : exists u m, import program_code = Ok (u, m) /\ length u = 13%nat.
Proof. eexists. eexists. split; vm_compute; reflexivity. Qed.

(* ---- where the claim fails ---- *)

(* The last step should have the value [should] and has [last] in MIR. *)
Definition misimported (ks : list call) (inputs : nat -> Z) (should last : Z) : Prop :=
  (exists es t, run inputs [] ks = Done es /\ nth_error es (length ks - 1) = Some (should, t)) /\
  exists c m u mm me r v, compile ks = Ok (c, m) /\ import c = Ok (u, mm) /\
  exec_unit u inputs = Val me /\ nth_error m (length ks - 1) = Some r /\
  nth_error mm r = Some v /\ val me v = Val last /\ should <> last.

Ltac misimports :=
  split; [eexists; eexists; split; vm_compute; reflexivity |];
  do 7 eexists; split; [vm_compute; reflexivity |]; split; [vm_compute; reflexivity |];
  split; [vm_compute; reflexivity |]; split; [vm_compute; reflexivity |];
  split; [vm_compute; reflexivity |]; split; [vm_compute; reflexivity | discriminate].

(* Checked products are built by the function for differences: x * x is 0. *)
Theorem C78_square_refuted : exists x,
  misimported [Input INTEGER INTEGER 0; Sum STimes true 0 0 7] (fun _ => x) 25 0.
Proof. exists 5. misimports. Qed.
Print Assumptions C78_square_refuted.

(* So are their ranges: the product of two numbers in 2 to 3 is taken to lie in -1 to 1,
   and 6 = 6 is FALSE. *)
Theorem C78_product_range_refuted : exists b,
  misimported [Input bool_type bool_type 0; Const INTEGER 2; Const INTEGER 3; Select 0 1 2; Select 0 2 1;
               Sum STimes true 3 4 7; Const INTEGER 6; Compare REq 5 6] (fun _ => b) 1 0.
Proof. exists 1. misimports. Qed.
Print Assumptions C78_product_range_refuted.

(* The range of minimum(x, 5) is taken to be the one of 5: with x = 3 the comparison
   minimum(x, 5) = 3 is FALSE. *)
Theorem C78_select_refuted : exists x,
  misimported [Input INTEGER INTEGER 0; Const INTEGER 5; Compare RLt 0 1; Select 2 0 1;
               Const INTEGER 3; Compare REq 3 4] (fun _ => x) 1 0.
Proof. exists 3. misimports. Qed.
Print Assumptions C78_select_refuted.

(* The range of a remainder ignores negative divisors: with y = -10, chosen from -10 and
   2, the comparison 7 rem y > 1 is FALSE. *)
Theorem C78_rem_refuted : exists b,
  misimported [Input bool_type bool_type 0; Const INTEGER (-10); Const INTEGER 2; Select 0 1 2;
               Const INTEGER 7; Division DRem 4 3 9; Const INTEGER 1; Compare RGt 5 6]
    (fun _ => b) 1 0.
Proof. exists 1. misimports. Qed.
Print Assumptions C78_rem_refuted.

(* The builder of differences returns x for 0 - x.  vcode never asks for it. *)
Theorem C78_zero_minus_refuted : exists c u m inputs e me v,
  import c = Ok (u, m) /\ exec_code c inputs = Val e /\ nth_error e 2 = Some (-5) /\
  exec_unit u inputs = Val me /\ nth_error m 2 = Some v /\ val me v = Val 5.
Proof.
  exists (Code [Reg (to_vtype INTEGER) (VT 0 0); Reg (to_vtype INTEGER) (to_vtype INTEGER);
                Reg (to_vtype INTEGER) (to_vtype INTEGER)]
            [OConst 0 (to_vtype INTEGER) 0; OInput 0 1; OArith KSub (to_vtype INTEGER) 0 1 0 2]).
  eexists. eexists. exists (fun _ => 5). eexists. eexists. eexists.
  split; [vm_compute; reflexivity |]. split; [vm_compute; reflexivity |].
  split; [vm_compute; reflexivity |]. split; [vm_compute; reflexivity |].
  split; vm_compute; reflexivity.
Qed.
Print Assumptions C78_zero_minus_refuted.
