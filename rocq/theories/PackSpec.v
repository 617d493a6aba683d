(* What it means that saved code is loaded unchanged. *)
From Coq Require Import List NArith ZArith.
From Verif Require Import PackModel.
Import ListNotations.
Local Open Scope N_scope.

(* A name: characters other than NUL, at least one. *)
Definition text (s : str) : Prop := Forall (fun c => 0 < c < 256) s.
Definition name (s : str) : Prop := text s /\ s <> [].

(* A source location keeps its file, line and column; the extent of the range is
   not saved.  Nothing is said about a location without a file. *)
Definition loc_kept (l l' : loc) : Prop :=
  match l_file l with
  | Some f => l' = Loc (l_line l) (l_col l) 0 0 (Some f)
  | None => True
  end.

(* An operand is the same, except that positions in the intermediate code, which
   are debugging aids, are dropped. *)
Definition value_kept (v v' : value) : Prop :=
  match v with
  | VVpos _ _ => v' = VInvalid
  | VLoc l => exists l', v' = VLoc l' /\ loc_kept l l'
  | _ => v' = v
  end.

Definition ir_kept (i i' : ir) : Prop :=
  i_op i' = i_op i /\ i_size i' = i_size i /\ i_target i' = i_target i /\ i_cc i' = i_cc i /\
  i_result i' = i_result i /\ value_kept (i_arg1 i) (i_arg1 i') /\ value_kept (i_arg2 i) (i_arg2 i').

Definition func_kept (f f' : func) : Prop :=
  f_nregs f' = f_nregs f /\ f_vars f' = f_vars f /\ f_cpool f' = f_cpool f /\ f_spec f' = f_spec f /\
  f_framesz f' = f_framesz f /\ f_module f' = f_module f /\ f_offset f' = f_offset f /\
  Forall2 ir_kept (f_irs f) (f_irs f').

(* The ranges of the C types, and registers below 65533 (or none). *)
Definition reg_ok (r : N) : Prop := r < 65533 \/ r = 65535.
Definition loc_ok (l : loc) : Prop :=
  l_line l < 1048576 /\ l_col l < 4096 /\
  match l_file l with Some f => text f | None => True end.
Definition value_ok (v : value) : Prop :=
  match v with
  | VInvalid | VVpos _ _ => True
  | VReg r => reg_ok r
  | VInt i | VAddrAbs i | VAddrCpool i | VAddrCover i => (- 2 ^ 63 <= i < 2 ^ 63)%Z
  | VDouble b => b < 2 ^ 64
  | VAddrReg r d => reg_ok r /\ (- 2 ^ 31 <= d < 2 ^ 31)%Z
  | VLabel l => l < 2 ^ 32
  | VHandle (Some h) => name h
  | VHandle None => True
  | VExit e => e < 256
  | VLoc l => loc_ok l
  | VLocus m o => name m /\ o < 2 ^ 64
  end.
Definition ir_ok (i : ir) : Prop :=
  i_op i < 256 /\ i_size i < 8 /\ i_target i < 2 /\ i_cc i < 16 /\ reg_ok (i_result i) /\
  value_ok (i_arg1 i) /\ value_ok (i_arg2 i).
Definition func_ok (f : func) : Prop :=
  f_nregs f < 2 ^ 32 /\ Forall (fun v => name (fst v) /\ snd v < 2 ^ 32) (f_vars f) /\
  N.of_nat (length (f_vars f)) < 2 ^ 32 /\ N.of_nat (length (f_cpool f)) < 2 ^ 32 /\
  f_spec f < 2 ^ 64 /\ f_framesz f < 2 ^ 32 /\
  name (f_module f) /\ f_offset f < 2 ^ 64 /\ N.of_nat (length (f_irs f)) < 2 ^ 32 /\
  Forall ir_ok (f_irs f).

(* A working compressor. *)
Definition codec_ok (z : zstd) : Prop :=
  (forall d rest, z_frame z (z_compress z d ++ rest) = Some (N.of_nat (length (z_compress z d)))) /\
  (forall d, z_decompress z (z_compress z d) (N.of_nat (length d)) = Some d).
