(* C85: file objects and the files they are associated with *)
From Coq Require Import List ZArith Arith Bool Lia.
From Verif Require Import Base FileHandleSpec FileHandleModel FileHandleProofs.
Import ListNotations.
Local Open Scope Z_scope.

(* In a simulation that opens at most 65534 files every operation on a file object has the
   outcome that the association of file objects says: opening, closing, reaching the file
   that was opened through the object and no other, mode, name and state.  Missing:
   simulations that open more, see the refutation. *)
Theorem C85_file_objects_partial : forall xs,
  (Z.of_nat (opens xs) <= 65534) -> run start xs = spec_run all_closed xs.
Proof. intros xs H. apply (run_ok xs start all_closed 0 start_inv). lia. Qed.

(* A copy of a handle is dead once the file was closed, whatever is opened and closed
   afterwards, up to the same number of files. *)
Theorem C85_stale_handle_partial : forall before after h i s,
  Z.of_nat (topens before + topens after) <= 65534 ->
  decode_handle (trun (Table [] 0) before) h = Some (i, s) ->
  decode_handle (trun (fst (drop_handle (trun (Table [] 0) before) h)) after) h = None.
Proof.
  intros before after h i s N D.
  assert (wf (Table [] 0) 0) as W0.
  { split; [constructor|]. split; [reflexivity|]. split; [cbn; lia|left; reflexivity]. }
  destruct (trun_ok before _ 0 W0 ltac:(lia)) as [W1 _].
  pose proof (drop_dead _ _ h i s W1 ltac:(lia) D) as DD.
  pose proof (drop_wf _ h _ W1 ltac:(lia)) as W2.
  destruct (trun_ok after _ _ W2 ltac:(lia)) as [_ K].
  apply dead_decode. apply K. exact DD.
Qed.

(** ** What does not hold *)

Definition log_txt : list Z := [108; 111; 103].

(* A file object that is opened and closed 65535 times, then opened and used *)
Definition many : list op :=
  concat (repeat [Open 0 log_txt 1 (Gives 7) false; Close 0] (Z.to_nat 65535)) ++
  [Open 0 log_txt 1 (Gives 8) false; Use 0].

(* The generation of the slot wraps to 0, the handle is 0, which means closed: the write
   fails although the file was opened. *)
Theorem C85_generation_refuted :
  Forall (fun x => match x with Open _ _ _ _ _ | Close _ | Use _ => True | _ => False end) many /\
  last (spec_run all_closed many) Failed = Reaches 8 /\
  last (run start many) (Reaches 8) = Failed.
Proof.
  split; [|split; vm_compute; reflexivity].
  unfold many. apply Forall_app. split; [|repeat constructor].
  apply Forall_concat. apply Forall_forall. intros x I. apply repeat_spec in I. subst x.
  repeat constructor.
Qed.

(* Beyond, the handle of a closed file reaches another file. *)
Fixpoint cycle (n : nat) (k : Z) : list top :=
  match n with O => [] | S n => TClose (65536 * k + 1) :: TOpen 6 :: cycle n (k + 1) end.
Definition reuse : list top :=
  TOpen 5 :: TOpen 6 :: cycle (Z.to_nat 65535) 1 ++
  [TClose 1; TOpen 9].
Theorem C85_reuse_refuted : exists h,
  (exists s, decode_handle (trun (Table [] 0) [TOpen 5; TOpen 6]) h = Some (1%nat, s) /\
             sl_file s = Some 6) /\
  decode_handle (trun (Table [] 0) [TOpen 5; TOpen 6; TClose h]) h = None /\
  exists s, decode_handle (trun (Table [] 0) reuse) h = Some (1%nat, s) /\ sl_file s = Some 9.
Proof.
  exists 65537. split; [|split].
  - eexists. split; vm_compute; reflexivity.
  - vm_compute. reflexivity.
  - eexists (Slot (Some 9) [] true 0 1). split; [|reflexivity].
    vm_cast_no_check (eq_refl (Some (1%nat, Slot (Some 9) [] true 0 1))).
Qed.

(** ** The hypotheses are met *)

Example C85_example :
  run start
    [Open 0 log_txt 1 (Gives 7) false; Open 1 log_txt 0 (Gives 8) true; Use 1;
     Open 0 log_txt 1 (Gives 9) true; Close 0; Close 0; Use 1; Use 0; State 1;
     Open 2 std_output 1 Missing true; Open 0 log_txt 2 (Gives 10) true; Use 0; Mode 0;
     Close 2; Name 0; Open 3 [] 0 (Gives 11) true; Open 3 log_txt 0 NoAccess true] =
    [Status 0; Status 0; Reaches 8;
     Status 1; Closes (Some 7); Closes None; Reaches 8; Failed; IsOpen true;
     Status 0; Status 0; Reaches 10; IsMode 2;
     Closes None; IsName (Some log_txt); Status 2; Status 3].
Proof. vm_compute. reflexivity. Qed.

Example C85_stale_example :
  exists h i s, decode_handle (trun (Table [] 0) [TOpen 5; TOpen 6]) h = Some (i, s).
Proof. exists 65536, 0%nat. eexists. vm_compute. reflexivity. Qed.

Print Assumptions C85_file_objects_partial.
Print Assumptions C85_stale_handle_partial.
Print Assumptions C85_generation_refuted.
Print Assumptions C85_reuse_refuted.
