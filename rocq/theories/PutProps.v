(* C98: the update of signal values *)
From Coq Require Import List Arith NArith Bool Lia.
From Verif Require Import PutSpec PutModel PutProofs.
Import ListNotations.

(* The comparison is exact, whatever is next to the values. *)
Theorem C98_compare : forall sse41 m a b size, cmp_bytes sse41 m a b size = true <-> equal_at m a b size.
Proof. exact cmp_bytes_is. Qed.
(* The copy moves both values and nothing else. *)
Theorem C98_copy : forall x86 m p1 p2 src len, disjoint p1 p2 len -> disjoint p1 src len -> disjoint p2 src len ->
  shifted m p1 p2 src len (copy2 x86 m p1 p2 src len).
Proof. exact copy2_is. Qed.
(* An update: there is an event exactly if the value changes.  Then the signal has the new value and
   'LAST_VALUE the one before, and all else is unchanged.  Otherwise nothing is changed.  The value
   is not in the places that are written. *)
Theorem C98_update : forall x86 sse41 m data total offset valuesz value, offset + valuesz <= total ->
  disjoint (data + offset) value valuesz -> disjoint (data + offset + total) value valuesz ->
  let (m', event) := put_effective x86 sse41 m data total offset valuesz value in
  (event = true <-> ~ equal_at m (data + offset) value valuesz) /\
  (forall i, i < valuesz -> m' (data + offset + i) = m (value + i)) /\
  (event = true -> forall i, i < valuesz -> m' (data + offset + total + i) = m (data + offset + i)) /\
  (event = false -> forall x, m' x = m x) /\
  (forall x, ~ inside (data + offset) valuesz x -> ~ inside (data + offset + total) valuesz x -> m' x = m x).
Proof.
  intros x86 sse41 m data total offset valuesz value T D1 D2. unfold put_effective. cbv zeta.
  destruct (cmp_bytes sse41 m (data + offset) value valuesz) eqn:C; cbn [negb].
  - apply cmp_bytes_is in C. repeat split; auto; try discriminate; try (intros H; exfalso; auto; fail).
  - assert (N : ~ equal_at m (data + offset) value valuesz) by (intros H; apply (cmp_bytes_is sse41) in H; congruence).
    assert (D : disjoint (data + offset + total) (data + offset) valuesz) by (intros x X Y; unfold inside in *; lia).
    destruct (copy2_is x86 m (data + offset + total) (data + offset) value valuesz D D2 D1) as (A & B & E).
    repeat split; auto; try discriminate.
Qed.
(* Values of at most eight bytes in waveforms are compared with the bytes that follow. *)
Theorem C98_waveform_partial : forall m p q n, n <= 8 -> cmp_values (copy_value m p) (copy_value m q) = true -> equal_at m p q n.
Proof.
  intros m p q n N H i I. apply qword_is in H. unfold copy_value in H. rewrite <- (load_nth m p 8 i), <- (load_nth m q 8 i) by lia.
  rewrite H. reflexivity.
Qed.
Theorem C98_waveform_eight : forall m p q, cmp_values (copy_value m p) (copy_value m q) = true <-> equal_at m p q 8.
Proof.
  intros m p q. split; [apply C98_waveform_partial; auto|]. intros H. apply qword_is. unfold copy_value, load.
  apply nth_ext with (d := 0%N) (d' := 0%N); [rewrite !map_length, !seq_length; reflexivity|]. intros i I.
  rewrite map_length, seq_length in I. change (nth i (load m p 8) 0%N = nth i (load m q 8) 0%N). rewrite !load_nth by auto. apply H; auto.
Qed.
Theorem C98_waveform_refuted : forall n, n < 8 -> exists m p q, equal_at m p q n /\ cmp_values (copy_value m p) (copy_value m q) = false.
Proof.
  intros n N. exists (fun x => if x =? 100 + n then 1%N else 0%N), 0, 100. split.
  - intros i I. destruct (Nat.eqb_spec (0 + i) (100 + n)); [lia|]. destruct (Nat.eqb_spec (100 + i) (100 + n)); [lia|]. reflexivity.
  - destruct (cmp_values _ _) eqn:C; auto. exfalso.
    apply (C98_waveform_partial _ _ _ 8 (le_n 8)) in C. specialize (C n N). cbv beta in C.
    rewrite Nat.eqb_refl in C. destruct (Nat.eqb_spec (0 + n) (100 + n)); [lia|discriminate].
Qed.

(* 19 bytes: one block of each size and a rest *)
Example ex_copy : let m := fun x => N.of_nat x in let m' := copy2 true m 100 200 300 19 in
  load m' 100 20 = load m 200 19 ++ [119%N] /\ load m' 200 20 = load m 300 19 ++ [219%N] /\ disjoint 100 200 19.
Proof. split; [vm_compute; reflexivity|]. split; [vm_compute; reflexivity|]. intros x X Y. unfold inside in *. lia. Qed.
Example ex_update : let m := fun x => N.of_nat x in
  snd (put_effective true true m 0 40 3 29 200) = true /\ snd (put_effective true true (fun _ => 5%N) 0 40 3 29 200) = false.
Proof. split; vm_compute; reflexivity. Qed.
Example ex_places : 3 + 29 <= 40 /\ disjoint (0 + 3) 200 29 /\ disjoint (0 + 3 + 40) 200 29.
Proof. split; [lia|]. split; intros x X Y; unfold inside in *; lia. Qed.

Print Assumptions C98_compare.
Print Assumptions C98_copy.
Print Assumptions C98_update.
Print Assumptions C98_waveform_partial.
Print Assumptions C98_waveform_eight.
Print Assumptions C98_waveform_refuted.
