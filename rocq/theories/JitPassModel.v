(* Copy propagation, dead code elimination and deletion of NOPs,
   src/jit/jit-optim.c:995-1151. *)
From Coq Require Import List ZArith Arith Bool.
From Verif Require Import Base JitModel.
Import ListNotations.

(* ---- copy propagation, jit_do_cprop, src/jit/jit-optim.c:998-1044 ---- *)

(* The array of known copies, one value per register; no copy is VInvalid. *)
Definition copies := nat -> value.
Definition no_copies : copies := fun _ => VInvalid.

Definition is_invalid (v : value) : bool := match v with VInvalid => true | _ => false end.
Definition is_reg (v : value) (r : nat) : bool :=
  match v with VReg k => (k =? r)%nat | _ => false end.

(* Modelled: src/jit/jit-optim.c:1011-1021. *)
Definition subst_copy (map : copies) (v : value) : value :=
  match v with
  | VReg r => if is_invalid (map r) then v else map r
  | _ => v
  end.

(* Modelled: src/jit/jit-optim.c:1028-1034. *)
Definition drop_copies (nregs : nat) (map : copies) (r : nat) : copies :=
  if is_invalid (map r) then map
  else fun j => if (j <? nregs)%nat && is_reg (map j) r then VInvalid else map j.

(* Modelled: src/jit/jit-optim.c:1011-1042: the new instruction and the copies
   known after it. *)
Definition cprop_one (nregs : nat) (map : copies) (i : ir) : ir * copies :=
  let i' := Ir (op i) (sz i) (target i) (cc i) (result i)
               (subst_copy map (arg1 i)) (subst_copy map (arg2 i)) in
  match result i with
  | None => (i', map)
  | Some r =>
    match op i with
    | MACRO_MEMSET | MACRO_COPY | MACRO_MOVE | MACRO_BZERO => (i', map)
    | J_MOV =>
      let map1 := upd (drop_copies nregs map r) r (arg1 i') in
      (i', match arg1 i' with VReg k => upd map1 k (arg1 i') | _ => map1 end)
    | _ => (i', upd (drop_copies nregs map r) r VInvalid)
    end
  end.

(* Modelled: src/jit/jit-optim.c:1002-1009: [n] is the index of the first
   instruction of [l] in [f]. *)
Fixpoint cprop_from (nregs : nat) (f : prog) (n : nat) (reset : bool) (map : copies) (l : list ir)
  : prog :=
  match l with
  | [] => []
  | i :: l' =>
    let map0 := if reset || target i then no_copies else map in
    let '(i', map') := cprop_one nregs map0 i in
    i' :: cprop_from nregs f (S n) (is_terminator f n) map' l'
  end.

Definition cprop (nregs : nat) (f : prog) : prog := cprop_from nregs f 0 true no_copies f.

(* ---- dead code elimination, jit_do_dce, src/jit/jit-optim.c:1049-1119 ---- *)

(* Modelled: src/jit/jit-optim.c:359-367. *)
Definition nop_of (i : ir) : ir := Ir J_NOP SZ_UNSPEC (target i) CC_NONE None VInvalid VInvalid.

(* dce_state_t; an entry of renumber that was never set is 0 (xcalloc). *)
Record dce := Dce { count : nat -> nat; renumber : nat -> nat; nextreg : nat }.

Definition count_reg (r : nat) (d : dce) : dce :=
  if (count d r =? 0)%nat
  then Dce (upd (count d) r 1%nat) (upd (renumber d) r (nextreg d)) (S (nextreg d))
  else Dce (upd (count d) r (S (count d r))) (renumber d) (nextreg d).

(* Modelled: src/jit/jit-optim.c:1055-1061. *)
Definition count_use (v : value) (d : dce) : dce :=
  match v with
  | VReg r | VAddrReg r _ => count_reg r d
  | _ => d
  end.

(* Modelled: src/jit/jit-optim.c:1080-1090. *)
Definition count_one (d : dce) (i : ir) : dce :=
  let d2 := count_use (arg2 i) (count_use (arg1 i) d) in
  match result i with
  | Some r => if reads_result i || writes_flags i then count_reg r d2 else d2
  | None => d2
  end.

Definition dce_init : dce := Dce (fun _ => O) (fun _ => O) O.
Definition count_all (f : prog) : dce := fold_left count_one f dce_init.

(* Modelled: src/jit/jit-optim.c:1063-1067. *)
Definition ren (d : dce) (v : value) : value :=
  match v with
  | VReg r => VReg (renumber d r)
  | VAddrReg r k => VAddrReg (renumber d r) k
  | _ => v
  end.

Definition set_nth (l : prog) (k : nat) (x : ir) : prog := firstn k l ++ x :: skipn (S k) l.
Definition nop_at (l : prog) (k : nat) : prog :=
  match nth_error l k with Some i => set_nth l k (nop_of i) | None => l end.

(* Modelled: src/jit/jit-optim.c:1093-1113: one instruction, the [n]th; [out] is the
   code before it and [cmp] the comparison whose flag nobody has read yet. *)
Definition dce_one (f : prog) (d : dce) (n : nat) (st : prog * option nat) (i : ir)
  : prog * option nat :=
  let '(out, cmp) := st in
  let i1 := Ir (op i) (sz i) (target i) (cc i) (result i) (ren d (arg1 i)) (ren d (arg2 i)) in
  let '(out1, cmp1) :=
    if reads_flags i1 || is_terminator f n then (out, None)
    else if writes_flags i1 then
      (match cmp with Some k => nop_at out k | None => out end,
       match op i1 with J_CMP | J_FCMP => Some n | _ => None end)
    else (out, cmp) in
  let i2 :=
    match result i1 with
    | None => i1
    | Some r =>
      if (count d r =? 0)%nat && negb (writes_flags i1) then nop_of i1
      else Ir (op i1) (sz i1) (target i1) (cc i1) (Some (renumber d r)) (arg1 i1) (arg2 i1)
    end in
  (out1 ++ [i2], cmp1).

Fixpoint dce_from (f : prog) (d : dce) (n : nat) (st : prog * option nat) (l : list ir)
  : prog * option nat :=
  match l with
  | [] => st
  | i :: l' => dce_from f d (S n) (dce_one f d n st i) l'
  end.

(* The new code and the new number of registers. *)
Definition dce_pass (f : prog) : prog * nat :=
  let d := count_all f in
  (fst (dce_from f d 0 ([], None) f), nextreg d).

(* ---- deletion of NOPs, jit_delete_nops, src/jit/jit-optim.c:1124-1151 ---- *)

Definition is_nop (i : ir) : bool := op_eqb (op i) J_NOP.

(* The number of instructions kept before index [n]. *)
Definition kept_before (f : prog) (n : nat) : nat :=
  length (filter (fun i => negb (is_nop i)) (firstn n f)).

(* Modelled: src/jit/jit-optim.c:1140-1147. *)
Definition relabel (f : prog) (v : value) : value :=
  match v with VLabel l => VLabel (kept_before f l) | _ => v end.
Definition relabel_ir (f : prog) (i : ir) : ir :=
  Ir (op i) (sz i) (target i) (cc i) (result i) (relabel f (arg1 i)) (relabel f (arg2 i)).

Definition set_target (i : ir) : ir := Ir (op i) (sz i) true (cc i) (result i) (arg1 i) (arg2 i).
Definition mark (v : value) (l : prog) : prog :=
  match v with
  | VLabel k => match nth_error l k with Some i => set_nth l k (set_target i) | None => l end
  | _ => l
  end.

(* Simplified: the C code goes on over the instructions left behind the end of the
   shortened code, which can only set [target] on further instructions. *)
Definition delete_nops (f : prog) : prog :=
  let kept := map (relabel_ir f) (filter (fun i => negb (is_nop i)) f) in
  fold_left (fun l i => mark (arg2 i) (mark (arg1 i) l)) kept kept.
