(* C03: bit masks behave as sets of indices. *)
From Coq Require Import List Arith NArith ZArith.
From Verif Require Import Base MaskModel MaskSpec MaskProofs MaskRun.
Import ListNotations.

(* Freshly initialised masks of any one size, used through any history of
   in-range calls: no call faults (no out-of-range word access), every call
   returns what the set specification allows and in the end testing every bit
   of every mask gives membership in the specified set. *)
Theorem C03_masks_are_sets :
  forall (size : nat) (ops : list mask_op),
    Forall (mask_pre size) ops ->
    exists outs bank sets,
      mask_run (fun _ => mask_init size) ops = Ok (outs, bank) /\
      set_run size (fun _ _ => false) ops outs sets /\
      forall k i, i < size -> mask_test (bank k) i = Ok (sets k i).
Proof.
  intros size ops F.
  destruct (mask_run_ok size ops _ _ (bank_init size) F) as (os & bk & S' & R & H & D).
  exists os, bk, S'. split; [exact R|]. split; [exact H|].
  intros k i Hi. exact (denotes_test size (bk k) (S' k) i (D k) Hi).
Qed.
Print Assumptions C03_masks_are_sets.

Example C03_case :
  let ops := [MSetRange 0 60 70; MClear 0 64; MCountClear 0 64; MPopcount 0;
              MScanBackwards 0 64; MIter 0 (-1); MIter 0 63; MTestRange 0 130 20;
              MSetAll 1; MSubtract 1 0; MCountClear 1 60; MEq 0 1; MUnion 1 0;
              MPopcount 1] in
  Forall (mask_pre 150) ops /\
  match mask_run (fun _ => mask_init 150) ops with
  | Ok (outs, _) =>
      outs = [MoUnit; MoUnit; MoNat 1; MoNat 69; MoInt 63; MoIter true 60;
              MoIter true 65; MoBool false; MoUnit; MoUnit; MoNat 4; MoBool false;
              MoUnit; MoNat 150]
  | Fault => False
  end.
Proof.
  split; [repeat constructor; vm_compute; repeat constructor; discriminate
         | vm_compute; reflexivity].
Qed.
