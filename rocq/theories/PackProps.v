(* C24: code saved in a pack file is loaded unchanged. *)
From Coq Require Import List NArith ZArith Arith Lia Bool.
From Verif Require Import Base FbufModel FbufProofs PackModel PackSpec PackProofs PackFile.
Import ListNotations.
Local Open Scope N_scope.

(* Saving any set of functions with distinct names succeeds, and if the file is
   shorter than 4 GiB it can be loaded: every function in it comes back with the
   same registers, variables, constants and instructions, and no others are found. *)
Theorem C24_roundtrip : forall (z : zstd) (us : list (str * func)),
  codec_ok z -> Forall (fun u => name (fst u) /\ func_ok (snd u)) us -> NoDup (map fst us) ->
  exists file, write_pack z us = Ok file /\
  (N.of_nat (length file) < 2 ^ 32 ->
   exists p, read_pack file = Ok p /\
    (forall n f, In (n, f) us -> exists f', fill z p n = Ok (Some f') /\ func_kept f f') /\
    (forall n, ~ In n (map fst us) -> fill z p n = Ok None)).
Proof. intros z us Hz Hus ND. exact (file_ok z us Hz Hus ND). Qed.
Print Assumptions C24_roundtrip.

(* ---- a codec and an example ---- *)

(* Every byte plus one, ended by zero. *)
Fixpoint upto0 (l : list N) : option N :=
  match l with
  | [] => None
  | c :: l' => if c =? 0 then Some 1 else match upto0 l' with Some n => Some (n + 1) | None => None end
  end.
Definition zplus : zstd :=
  Zstd (fun d => map N.succ d ++ [0]) upto0 (fun b _ => Some (map N.pred (removelast b))).

Lemma zplus_ok : codec_ok zplus.
Proof.
  split; cbn [zplus z_compress z_frame z_decompress].
  - intros d rest. rewrite <- app_assoc. cbn [app]. induction d as [|c d IH]; [reflexivity|].
    cbn [map app upto0]. rewrite IH. destruct (N.eqb_spec (N.succ c) 0); [lia|].
    f_equal. cbn [length]. lia.
  - intros d. rewrite removelast_last, map_map. f_equal.
    rewrite <- (map_id d) at 2. apply map_ext. intros; apply N.pred_succ.
Qed.

Definition file1 : str := [97; 46; 118].   (* a.v *)
Definition at_line (l c : N) : loc := Loc l c 3 4 (Some file1).
Definition one_ir (op : N) (r : N) (a b : value) : ir := Ir op 3 1 5 r a b.
Definition demo (irs : list ir) : func :=
  Func 12 [([120], 8); ([121], 4294967295)] [1; 2; 3] 77 64 [87; 46; 80] 1000 irs.
Definition demo_irs : list ir :=
  [ one_ir 32 65535 (VLoc (at_line 10 4)) (VVpos 1 2);
    one_ir 2 65532 (VReg 0) (VInt (-5)%Z);
    one_ir 6 65535 (VAddrReg 3 (-8)%Z) (VDouble 4614253070214989087);
    one_ir 32 65535 (VLoc (at_line 7 90)) VInvalid;
    one_ir 15 65535 (VHandle (Some [70; 49])) (VHandle None);
    one_ir 129 4 (VAddrAbs (-1)%Z) (VLocus [87; 46; 80] 12) ].

Example demo_roundtrip :
  codec_ok zplus /\
  func_ok (demo demo_irs) /\
  exists file p f', write_pack zplus [([71], demo demo_irs); ([72], demo [])] = Ok file /\
    N.of_nat (length file) < 2 ^ 32 /\ read_pack file = Ok p /\
    fill zplus p [71] = Ok (Some f') /\ func_kept (demo demo_irs) f' /\ fill zplus p [73] = Ok None.
Proof.
  split; [exact zplus_ok|]. split.
  - unfold func_ok, demo, ir_ok, demo_irs, reg_ok, name, text, loc_ok; cbn.
    repeat apply conj; try (repeat constructor; cbn; try lia; try discriminate); try lia; discriminate.
  - eexists _, _, _. split; [vm_compute; reflexivity|]. split; [vm_compute; reflexivity|].
    split; [vm_compute; reflexivity|]. split; [vm_compute; reflexivity|]. split; [|vm_compute; reflexivity].
    unfold func_kept, demo, demo_irs; cbn.
    repeat apply conj; try reflexivity.
    repeat constructor; cbn; try reflexivity; eexists; (split; [reflexivity|reflexivity]).
Qed.

(* A location without a file comes back as a place in the file named before. *)
Theorem C24_no_file_refuted : exists file p f' l,
  write_pack zplus [([71], demo [one_ir 32 65535 (VLoc (at_line 10 4)) VInvalid;
                                 one_ir 32 65535 (VLoc LOC_INVALID) VInvalid])] = Ok file /\
  read_pack file = Ok p /\ fill zplus p [71] = Ok (Some f') /\
  map i_arg1 (f_irs f') = [VLoc (Loc 10 4 0 0 (Some file1)); VLoc l] /\
  loc_invalid_p LOC_INVALID = true /\ loc_invalid_p l = false /\ l_file l = Some file1.
Proof.
  eexists _, _, _, _. split; [vm_compute; reflexivity|]. split; [vm_compute; reflexivity|].
  split; [vm_compute; reflexivity|]. split; [vm_compute; reflexivity|]. repeat apply conj; reflexivity.
Qed.
Print Assumptions C24_no_file_refuted.

(* A function that uses register 65533 can be saved but not loaded. *)
Theorem C24_registers_refuted : exists file p,
  write_pack zplus [([71], demo [one_ir 2 65533 (VReg 0) (VReg 1)])] = Ok file /\
  read_pack file = Ok p /\ fill zplus p [71] = Fault.
Proof.
  eexists _, _. split; [vm_compute; reflexivity|]. split; [vm_compute; reflexivity|]. vm_compute. reflexivity.
Qed.
Print Assumptions C24_registers_refuted.
