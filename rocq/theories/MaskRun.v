(* Histories of mask operations: every step refines the set specification. *)
From Coq Require Import List Arith NArith ZArith Lia Bool ZifyBool.
From Verif Require Import Base MaskModel MaskSpec MaskProofs.
Import ListNotations.

(* The bank of masks denotes the bank of sets. *)
Definition bank_denotes (n : nat) (bank : nat -> mask) (S : ibank) : Prop :=
  forall k, denotes n (bank k) (S k).

Lemma denotes_ext n m s s' :
  denotes n m s -> (forall i, i < n -> s i = s' i) -> denotes n m s'.
Proof.
  intros (H1 & H2 & H3) H. split; [assumption|]. split; [assumption|].
  intros i Hi. rewrite H3 by assumption. now apply H.
Qed.

Lemma put_denotes n bank S k m s :
  bank_denotes n bank S -> denotes n m s -> bank_denotes n (upd bank k m) (put S k s).
Proof.
  intros H1 H2 k'. unfold upd, put. destruct (k' =? k); auto.
Qed.

Lemma filter_ext_len (f g : nat -> bool) n :
  (forall i, i < n -> f i = g i) ->
  length (filter f (seq 0 n)) = length (filter g (seq 0 n)).
Proof.
  intros H. apply filter_seq_shift. intros i Hi. now apply H.
Qed.

Lemma mask_step_ok n bank S op :
  bank_denotes n bank S -> mask_pre n op ->
  exists o bank' S', mask_step bank op = Ok (o, bank') /\
                     set_step n S op o S' /\ bank_denotes n bank' S'.
Proof.
  intros D P.
  assert (PUT : forall k m' s', denotes n m' s' -> bank_denotes n (upd bank k m') (put S k s')).
  { intros. now apply put_denotes. }
  destruct op as [k b|k b|k b|k b|k s c|k s c|k s c|k|k|k|k b|k b|k j|k j|k j|k j|k j|k c];
    cbn [mask_pre] in P; cbn [mask_step];
    destruct (D k) as (Dn & Dw & De).
  - rewrite mask_test_ok by (assumption || lia). cbn [bind].
    do 3 eexists. split; [reflexivity|]. split; [|exact D].
    rewrite De by lia. constructor.
  - destruct (mask_set_ok (bank k) b Dw) as (m' & R & H1 & H2 & H3); [lia|].
    rewrite R. cbn [bind]. do 3 eexists. split; [reflexivity|]. split; [constructor|].
    apply PUT. split; [lia|]. split; [assumption|]. intros i Hi. now rewrite H3, De.
  - destruct (mask_clear_ok (bank k) b Dw) as (m' & R & H1 & H2 & H3); [lia|].
    rewrite R. cbn [bind]. do 3 eexists. split; [reflexivity|]. split; [constructor|].
    apply PUT. split; [lia|]. split; [assumption|]. intros i Hi. now rewrite H3, De.
  - unfold mask_test_and_set. rewrite mask_test_ok by (assumption || lia). cbn [bind].
    rewrite De by lia. destruct (S k b) eqn:E; cbn [bind].
    + do 3 eexists. split; [reflexivity|]. split.
      * rewrite <- E. constructor.
      * apply PUT. split; [lia|]. split; [assumption|].
        intros i Hi. rewrite De by assumption.
        destruct (Nat.eqb_spec i b) as [->|]; [assumption|reflexivity].
    + destruct (mask_set_ok (bank k) b Dw) as (m' & R & H1 & H2 & H3); [lia|].
      rewrite R. cbn [bind]. do 3 eexists. split; [reflexivity|]. split.
      * rewrite <- E. constructor.
      * apply PUT. split; [lia|]. split; [assumption|]. intros i Hi. now rewrite H3, De.
  - destruct (mask_set_range_ok (bank k) s c Dw) as (m' & R & H1 & H2 & H3); [lia|].
    rewrite R. cbn [bind]. do 3 eexists. split; [reflexivity|]. split; [constructor|].
    apply PUT. split; [lia|]. split; [assumption|]. intros i Hi. now rewrite H3, De.
  - destruct (mask_clear_range_ok (bank k) s c Dw) as (m' & R & H1 & H2 & H3); [lia|].
    rewrite R. cbn [bind]. do 3 eexists. split; [reflexivity|]. split; [constructor|].
    apply PUT. split; [lia|]. split; [assumption|]. intros i Hi. now rewrite H3, De.
  - destruct (mask_test_range_ok (bank k) s c Dw) as (r & R & H); [lia|].
    rewrite R. cbn [bind]. do 3 eexists. split; [reflexivity|]. split; [|exact D].
    constructor. rewrite H. unfold range_hit. split; intros (i & H1 & H2); exists i;
      (split; [assumption|]); unfold in_range in H1; [rewrite <- De|rewrite De]; assumption || lia.
  - unfold mask_setall.
    destruct (mask_set_range_ok (bank k) 0 (msize (bank k)) Dw) as (m' & R & H1 & H2 & H3); [lia|].
    rewrite R. cbn [bind]. do 3 eexists. split; [reflexivity|]. split; [constructor|].
    apply PUT. split; [lia|]. split; [assumption|]. intros i Hi. rewrite H3.
    unfold in_range. lia.
  - unfold mask_clearall.
    destruct (mask_clear_range_ok (bank k) 0 (msize (bank k)) Dw) as (m' & R & H1 & H2 & H3); [lia|].
    rewrite R. cbn [bind]. do 3 eexists. split; [reflexivity|]. split; [constructor|].
    apply PUT. split; [lia|]. split; [assumption|]. intros i Hi. rewrite H3.
    unfold in_range. lia.
  - rewrite mask_popcount_ok by assumption. cbn [bind]. rewrite Dn.
    rewrite (filter_ext_len (elem (bank k)) (S k) n) by exact De.
    do 3 eexists. split; [reflexivity|]. split; [constructor|exact D].
  - destruct (mask_scan_backwards_ok (bank k) b Dw) as (z & R & H); [lia|].
    rewrite R. cbn [bind]. do 3 eexists. split; [reflexivity|]. split; [|exact D].
    destruct H as [(-> & H)|(i & -> & H1 & H2 & H3)].
    + apply ss_scan_none. intros i Hi. rewrite <- De by lia. now apply H.
    + apply ss_scan_some; [assumption|rewrite <- De by lia; assumption|].
      intros j Hj. rewrite <- De by lia. now apply H3.
  - destruct (mask_count_clear_ok (bank k) b Dw) as (c & R & H1 & H2 & H3); [lia|].
    rewrite R. cbn [bind]. do 3 eexists. split; [reflexivity|]. split; [|exact D].
    apply ss_count_clear; [lia| |].
    + intros i Hi. rewrite <- De by lia. now apply H2.
    + intros Hi. rewrite <- De by lia. apply H3. lia.
  - destruct (D j) as (En & Ew & Ee).
    destruct (mask_words_op_ok (fun a b => N.land a (not64 b)) (fun a b => a && negb b)
                (bank k) (bank j)) as (m' & R & H1 & H2 & H3); auto; try lia.
    { intros. now apply w64_land_l. }
    { intros a b i Hi. rewrite bt_land, bt_not64. f_equal. lia. }
    unfold mask_subtract. rewrite R. cbn [bind].
    do 3 eexists. split; [reflexivity|]. split; [constructor|].
    apply PUT. split; [lia|]. split; [assumption|].
    intros i Hi. rewrite H3, De, Ee by lia. reflexivity.
  - destruct (D j) as (En & Ew & Ee).
    destruct (mask_words_op_ok N.lor orb
                (bank k) (bank j)) as (m' & R & H1 & H2 & H3); auto; try lia.
    { intros. now apply w64_lor. }
    { intros a b i Hi. apply bt_lor. }
    unfold mask_union. rewrite R. cbn [bind].
    do 3 eexists. split; [reflexivity|]. split; [constructor|].
    apply PUT. split; [lia|]. split; [assumption|].
    intros i Hi. rewrite H3, De, Ee by lia. reflexivity.
  - destruct (D j) as (En & Ew & Ee).
    destruct (mask_words_op_ok N.land andb
                (bank k) (bank j)) as (m' & R & H1 & H2 & H3); auto; try lia.
    { intros. now apply w64_land_l. }
    { intros a b i Hi. apply bt_land. }
    unfold mask_intersect. rewrite R. cbn [bind].
    do 3 eexists. split; [reflexivity|]. split; [constructor|].
    apply PUT. split; [lia|]. split; [assumption|].
    intros i Hi. rewrite H3, De, Ee by lia. reflexivity.
  - destruct (D j) as (En & Ew & Ee).
    destruct (mask_words_op_ok (fun _ b => b) (fun _ b => b)
                (bank k) (bank j)) as (m' & R & H1 & H2 & H3); auto; try lia.
    unfold mask_copy. rewrite R. cbn [bind].
    do 3 eexists. split; [reflexivity|]. split; [constructor|].
    apply PUT. split; [lia|]. split; [assumption|].
    intros i Hi. rewrite H3, Ee by lia. reflexivity.
  - destruct (D j) as (En & Ew & Ee).
    destruct (mask_eq_ok (bank k) (bank j)) as (r & R & H); auto; try lia.
    rewrite R. cbn [bind]. do 3 eexists. split; [reflexivity|]. split; [|exact D].
    constructor. rewrite H, Dn. split; intros H' i Hi.
    + rewrite <- De, <- Ee by lia. now apply H'.
    + rewrite De, Ee by lia. now apply H'.
  - destruct (mask_iter_ok (bank k) c Dw) as (f & c' & R & H); [lia|].
    rewrite R. cbn [bind]. do 3 eexists. split; [reflexivity|]. split; [|exact D].
    destruct f; cbn [iter_res] in H.
    + destruct H as (i & -> & H1 & H2 & H3 & H4).
      apply ss_iter_some; [assumption|lia|rewrite <- De by lia; assumption|].
      intros j Hj1 Hj2. rewrite <- De by lia. now apply H4.
    + apply ss_iter_none. intros j Hj1 Hj2. rewrite <- De by lia. apply H; [assumption|lia].
Qed.

Lemma mask_run_ok n ops : forall bank S,
  bank_denotes n bank S -> Forall (mask_pre n) ops ->
  exists os bank' S', mask_run bank ops = Ok (os, bank') /\
                      set_run n S ops os S' /\ bank_denotes n bank' S'.
Proof.
  induction ops as [|op ops IH]; intros bank S D F; cbn [mask_run].
  - exists [], bank, S. split; [reflexivity|]. split; [constructor|assumption].
  - apply Forall_cons_iff in F. destruct F as (P & F).
    destruct (mask_step_ok n bank S op D P) as (o & b1 & S1 & R & H & D1).
    rewrite R. cbn [bind].
    destruct (IH b1 S1 D1 F) as (os & b2 & S2 & R2 & H2 & D2).
    rewrite R2. cbn [bind]. do 3 eexists. split; [reflexivity|].
    split; [econstructor; eassumption|assumption].
Qed.

Lemma bank_init n : bank_denotes n (fun _ => mask_init n) (fun _ _ => false).
Proof. intros k. apply mask_init_denotes. Qed.

Lemma denotes_test n m s i : denotes n m s -> i < n -> mask_test m i = Ok (s i).
Proof.
  intros (H1 & H2 & H3) Hi. rewrite mask_test_ok by (assumption || lia).
  f_equal. now apply H3.
Qed.
