(* C77: reusing the values of variables and removing overwritten assignments in a basic
   block does not change what the block does.  See LoadSpec.v for the meaning of a block
   and LoadModel.v for the model of the code generator. *)
From Coq Require Import List ZArith Arith Bool Lia.
From Verif Require Import Base LoadSpec LoadModel LoadProofs.
Import ListNotations.

(* A block all of whose actions make sense, and which respects the conditions of
   LoadSpec.fits, is compiled; the code leaves the same memory as the block, and holds
   the value of each action in the register chosen for it.  Missing from the full
   property: pointers and contexts of earlier blocks, pointers to the variables that are
   read, and locations read after deallocate or file_open, for which it is false. *)
Theorem C77_memory_partial : forall w m0 l m vs,
  run w (m0, []) l = Some (m, vs) ->
  all_fit w [] (fun _ => False) (m0, []) l ->
  exists c rs e, compile l = Ok (c, rs) /\
    exec w m0 (ops c) = Some (m, e) /\
    Forall2 (fun r x => nth_error e r = Some x) rs vs.
Proof.
  intros w m0 l m vs R F.
  assert (I : inv w m0 [] (fun _ => False) (Code [] 0) [] m0 []).
  { exists []. split; [reflexivity|]. split; [reflexivity|]. split; [exact Logic.I|].
    split; [intros v [[]|[]]|]. split; [intros; exact Logic.I|constructor]. }
  destruct (acts_ok _ _ _ _ _ _ _ _ _ _ _ I F R) as (c & rs & b & g & E & e & X & _ & _ & _ & _ & Q).
  exists c, rs, e. split; [exact E|split; [exact X|exact Q]].
Qed.
Print Assumptions C77_memory_partial.

(* In particular without pointers: assignments, reads and calls of subprograms that do
   not change the variables need no further condition. *)
Definition plain (w : world) (a : act) : Prop :=
  match a with
  | Given _ | Compute _ _ | Read _ | Write _ _ => True
  | Invoke k _ => forall xs v, ~ touches w k xs (Var v)
  | _ => False
  end.

Theorem C77_scalars : forall w m0 l m vs,
  Forall (plain w) l ->
  run w (m0, []) l = Some (m, vs) ->
  exists c rs e, compile l = Ok (c, rs) /\
    exec w m0 (ops c) = Some (m, e) /\
    Forall2 (fun r x => nth_error e r = Some x) rs vs.
Proof.
  intros w m0 l m vs P R. apply C77_memory_partial; [exact R|].
  assert (G : forall l before gone s, Forall (plain w) l -> all_fit w before gone s l); [|auto].
  clear. intros l; induction l as [|a l IH]; intros before gone s P; [exact Logic.I|].
  inversion P as [|? ? A B]; subst. cbn [all_fit]. split.
  - destruct a; try contradiction; (split; [|exact Logic.I]);
      intros u Hu; try contradiction.
    destruct Hu as (xs & _ & Hu). exfalso; eapply A; eauto.
  - destruct (step w s a); [auto|exact Logic.I].
Qed.
Print Assumptions C77_scalars.

(* ---- a block that meets the conditions ---- *)

(* Subprogram 0 stores 7 where its argument points to. *)
Definition w0 : world :=
  {| given := fun n => match n with 0 => Ptr (Other 0) | 1 => Ptr (Var 0) | _ => Int (Z.of_nat n) end;
     compute := fun _ l => match l with [Int a; Int b] => Int (a + b) | _ => Null end;
     invoke := fun k l m =>
       match k, l with 0, [Ptr p] => (put m p (Int 7), Null) | _, _ => (m, Null) end;
     file := fun _ n => Int (Z.of_nat (100 + n)) |}.
Definition m0 : mem := Mem [Int 1; Int 2] [Int 30].

Lemma touches0 k p l : touches w0 k [Ptr p] l -> l = p.
Proof.
  intros (m & H). destruct (loc_eq_dec p l) as [->|N]; [reflexivity|]. exfalso; apply H.
  destruct k; cbn [invoke w0]; [|reflexivity]. cbn [fst]. apply look_put_other; auto.
Qed.

Definition block : list act :=
  [Given 5; Read 0; Write 0 1; Read 1; Compute 0 [1; 2]; Write 3 1; Read 1;
   Take 0; Invoke 0 [5]; Read 0; Read 1; Given 0; ReadAt 9; WriteAt 0 9; ReadAt 9; Read 0; Write 0 0; Write 4 0].

Example block_fits : all_fit w0 [] (fun _ => False) (m0, []) block.
Proof.
  unfold block. cbn -[touches].
  repeat match goal with
  | |- _ /\ _ => split
  | |- fits _ _ _ _ _ => unfold fits, indirect, taken
  end; try exact Logic.I; try (intros; contradiction).
  - intros v (xs & [= <-] & T). apply touches0 in T. injection T as <-. left; cbn; tauto.
  - intros l [= <-]. split; [discriminate|tauto].
  - intros v [=].
  - intros l [= <-]. split; [discriminate|tauto].
Qed.

(* The loads after the assignments are reused, the one after the call is not, and the
   first of two assignments is removed. *)
Example block_code :
  match compile block with
  | Ok (c, rs) => (rev (ops c), rs)
  | Fault => ([], [])
  end =
  ([OInput 5 0; OLoad 0 1; OComment; OPure 0 [1; 0] 2; OStore 2 1; OIndex 0 3;
    OCall 0 [3] 4; OLoad 0 5; OInput 0 6; OLoadIndirect 6 7; OStoreIndirect 0 6; OLoadIndirect 6 8;
    OLoad 0 9; OComment; OStore 2 0],
   [0; 1; 0; 2; 2; 3; 4; 5; 2; 6; 7; 8; 9]).
Proof. vm_compute. reflexivity. Qed.

(* ---- the excluded blocks ---- *)

(* The code of a block holds another value than the block has. *)
Definition differs (w : world) (m : mem) (l : list act) : Prop :=
  exists m1 vs c rs m2 e n x r,
    run w (m, []) l = Some (m1, vs) /\ compile l = Ok (c, rs) /\ exec w m (ops c) = Some (m2, e) /\
    nth_error vs n = Some x /\ nth_error rs n = Some r /\ nth_error e r <> Some x.

(* The address was taken in an earlier block: as in proc(x, a and b, x + 1); y := x
   where proc assigns its first parameter. *)
Theorem C77_earlier_address_refuted : differs w0 m0 [Given 1; Read 0; Invoke 0 [0]; Read 0].
Proof.
  eexists _, _, _, _, _, _, 3, (Int 7), 1.
  split; [vm_compute; reflexivity|]. split; [vm_compute; reflexivity|]. split; [vm_compute; reflexivity|].
  split; [reflexivity|]. split; [reflexivity|]. vm_compute. discriminate.
Qed.
Print Assumptions C77_earlier_address_refuted.

(* The context was taken in an earlier block: as in nested(a and b, x); y := x where
   nested, which is declared inside the subprogram, assigns x. *)
Definition w1 : world :=
  {| given := given w0; compute := compute w0;
     invoke := fun _ _ m => (put m (Var 0) (Int 7), Null); file := file w0 |}.
Theorem C77_earlier_context_refuted : differs w1 m0 [Read 0; Invoke 0 [0]; Read 0].
Proof.
  eexists _, _, _, _, _, _, 2, (Int 7), 0.
  split; [vm_compute; reflexivity|]. split; [vm_compute; reflexivity|]. split; [vm_compute; reflexivity|].
  split; [reflexivity|]. split; [reflexivity|]. vm_compute. discriminate.
Qed.
Print Assumptions C77_earlier_context_refuted.

(* A parameter that is read, deallocated and read again is still not null. *)
Theorem C77_deallocate_refuted : differs w0 m0 [Given 0; ReadAt 0; Free 0; ReadAt 0].
Proof.
  eexists _, _, _, _, _, _, 2, Null, 1.
  split; [vm_compute; reflexivity|]. split; [vm_compute; reflexivity|]. split; [vm_compute; reflexivity|].
  split; [reflexivity|]. split; [reflexivity|]. vm_compute. discriminate.
Qed.
Print Assumptions C77_deallocate_refuted.

(* So does the status of file_open when it is a parameter that was read before. *)
Definition w2 : world :=
  {| given := fun n => Ptr (Other n); compute := compute w0; invoke := invoke w0; file := file w0 |}.
Theorem C77_file_open_refuted :
  differs w2 (Mem [] [Null; Int 30]) [Given 0; Given 1; ReadAt 1; FileOpen 0 (Some 1) 0; ReadAt 1].
Proof.
  eexists _, _, _, _, _, _, 3, (Int 101), 2.
  split; [vm_compute; reflexivity|]. split; [vm_compute; reflexivity|]. split; [vm_compute; reflexivity|].
  split; [reflexivity|]. split; [reflexivity|]. vm_compute. discriminate.
Qed.
Print Assumptions C77_file_open_refuted.

(* An assignment whose value is read through a pointer is removed by the next one. *)
Theorem C77_dead_store_refuted :
  differs w0 m0 [Given 5; Given 6; Take 0; Write 0 0; ReadAt 2; Write 1 0].
Proof.
  eexists _, _, _, _, _, _, 3, (Int 5), 3.
  split; [vm_compute; reflexivity|]. split; [vm_compute; reflexivity|]. split; [vm_compute; reflexivity|].
  split; [reflexivity|]. split; [reflexivity|]. vm_compute. discriminate.
Qed.
Print Assumptions C77_dead_store_refuted.
