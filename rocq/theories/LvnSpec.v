(* The code local value numbering is given, and what it may do to it. *)
From Coq Require Import List ZArith Arith Bool.
From Verif Require Import Base JitModel JitSpec.
Import ListNotations.
Local Open Scope Z_scope.

(* A 64-bit number, signed. *)
Definition word (z : Z) : Prop := - 9223372036854775808 <= z < 9223372036854775808.

(* The numbers written in an operand are 64-bit numbers. *)
Definition value_word (v : value) : Prop :=
  match v with
  | VInt z | VDouble z | VAddrAbs z | VHandle z | VLocus z | VExit z => word z
  | VLabel l => word (Z.of_nat l)
  | _ => True
  end.
Definition operand_words (f : prog) : Prop :=
  forall i, In i f -> value_word (arg1 i) /\ value_word (arg2 i).

(* An instruction that produces a value names a register for it, and this register
   is not mentioned by any earlier instruction of the text, nor read by the
   instruction itself. *)
Definition results_named (f : prog) : Prop :=
  forall i, In i f -> produces (op i) = true -> result i <> None.
Definition written_once (f : prog) : Prop :=
  forall n i r, nth_error f n = Some i -> produces (op i) = true -> result i = Some r ->
    ~ In r (value_regs (arg1 i) ++ value_regs (arg2 i)) /\
    forall m j, (m < n)%nat -> nth_error f m = Some j -> ~ In r (ir_regs j).

(* Argument slots are given by number. *)
Definition slots_numbered (f : prog) : Prop :=
  forall i, In i f -> op i = J_SEND \/ op i = J_RECV ->
    exists z, arg1 i = VInt z /\ 0 <= z < 4294967296.

(* Between putting a value in a slot and using the slot again there is a call, an
   exit or a label. *)
Definition sends_fresh (f : prog) : Prop :=
  forall m n i j z, (m < n)%nat -> nth_error f m = Some i -> nth_error f n = Some j ->
    op i = J_SEND -> arg1 i = VInt z -> op j = J_SEND \/ op j = J_RECV -> arg1 j = VInt z ->
    exists k x, (m < k <= n)%nat /\ nth_error f k = Some x /\
      (target x = true \/ (k < n)%nat /\ (op x = J_CALL \/ op x = MACRO_EXIT)).

(* Division is on 64 bits. *)
Definition divides_words (f : prog) : Prop :=
  forall i, In i f -> op i = J_DIV -> sz i = SZ_64 \/ sz i = SZ_UNSPEC.

(* What this theorem does not cover: an addition, subtraction or multiplication
   that sets the flag is not replaced, and neither are exponentiation and the
   operations on blocks of memory. *)
Definition block_op (o : opcode) : bool :=
  match o with
  | MACRO_COPY | MACRO_MOVE | MACRO_BZERO | MACRO_MEMSET | MACRO_EXP => true
  | _ => false
  end.
Definition left_alone (f f' : prog) : Prop :=
  forall n i i', nth_error f n = Some i -> nth_error f' n = Some i' ->
    (cc i <> CC_NONE -> op i = J_ADD \/ op i = J_SUB \/ op i = J_MUL -> op i' = op i) /\
    (block_op (op i) = true -> i' = i).

Section Outside.
Variable W : Type.
Variable prim : opcode -> size -> ccode -> Z -> Z -> Z -> bool -> (nat -> Z) -> W ->
                option (Z * bool * (nat -> Z) * W).

(* The instructions that are not modelled depend on what is in the argument slots,
   and produce 64-bit numbers from 64-bit numbers. *)
Definition prim_slots : Prop :=
  forall o s c a b rv fl ar ar' w, (forall n, ar' n = ar n) ->
    match prim o s c a b rv fl ar w, prim o s c a b rv fl ar' w with
    | Some (v, g, br, x), Some (v', g', br', x') =>
      v' = v /\ g' = g /\ (forall n, br' n = br n) /\ x' = x
    | None, None => True
    | _, _ => False
    end.
Definition prim_words : Prop :=
  forall o s c a b rv fl ar w v g br x, (forall n, word (ar n)) ->
    prim o s c a b rv fl ar w = Some (v, g, br, x) -> word v /\ forall n, word (br n).

(* Two outcomes that cannot be told apart. *)
Definition alike (o o' : outcome W) : Prop :=
  match o, o' with
  | Next _ s, Next _ s' =>
    pc W s' = pc W s /\ (forall r, regs W s' r = regs W s r) /\ flag W s' = flag W s /\
    (forall n, args W s' n = args W s n) /\ outside W s' = outside W s
  | Done _ ar w, Done _ ar' w' => (forall n, ar' n = ar n) /\ w' = w
  | Crash _, Crash _ => True
  | _, _ => False
  end.
End Outside.

(* The code local value numbering is meant for. *)
Record numbered_code (nregs : nat) (f : prog) : Prop := NumberedCode {
  nc_regs : regs_below nregs f;
  nc_labels : labels_marked f;
  nc_kinds : kinds_ok f;
  nc_results : results_ok f;
  nc_named : results_named f;
  nc_once : written_once f;
  nc_slots : slots_numbered f;
  nc_fresh : sends_fresh f;
  nc_div : divides_words f;
  nc_words : operand_words f }.

(* Byte [k] of a number, counting from the low end. *)
Definition byte (z : Z) (k : nat) : Z := Z.modulo (Z.shiftr z (8 * Z.of_nat k)) 256.
