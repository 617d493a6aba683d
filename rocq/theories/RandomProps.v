(* C86: the random number generator is MT19937 *)
From Coq Require Import List ZArith Arith Bool Lia.
From Verif Require Import Base RandomSpec RandomModel RandomProofs.
Import ListNotations.
Local Open Scope Z_scope.

(* For every seed, the sequence of the published generator exists and is the only one, and
   any number of calls from the start of the program give its tempered words from the 624th
   on, in order.  No call reaches the assertion. *)
Theorem C86_sequence : forall seed, exists x, mt_sequence seed x /\
  forall n, draws n seed start = Ok (map (fun i => tempered (x (624 + i)%nat)) (seq 0 n)).
Proof.
  intros seed. destruct (sequence_exists seed) as [x SQ]. exists x. split; [exact SQ|].
  exact (draws_ok seed x SQ).
Qed.
Print Assumptions C86_sequence.

Theorem C86_unique : forall seed x y, mt_sequence seed x -> mt_sequence seed y ->
  forall i, x i = y i.
Proof.
  intros seed x y (X0 & X1 & X2) (Y0 & Y1 & Y2) i.
  assert (forall n j, (j < n)%nat -> x j = y j) as H; [|apply (H (S i)); lia].
  induction n as [|n IH]; intros j J; [lia|].
  destruct (Nat.eq_dec j 0) as [->|NZ]; [congruence|].
  destruct (le_lt_dec 624 j) as [G|L].
  - replace j with (j - 624 + 624)%nat by lia. rewrite X2, Y2, !IH by lia. reflexivity.
  - rewrite X1, Y1, !IH by lia. reflexivity.
Qed.
Print Assumptions C86_unique.

(* Every value is a word, so it is one of the values of the result type of the caller. *)
Theorem C86_range : forall seed n vs, draws n seed start = Ok vs ->
  length vs = n /\ Forall word vs.
Proof.
  intros seed n vs H. destruct (C86_sequence seed) as (x & SQ & D). rewrite D in H.
  injection H as <-. split; [rewrite map_length, seq_length; reflexivity|].
  apply Forall_forall. intros v IN. apply in_map_iff in IN. destruct IN as (i & <- & _).
  apply tempered_word. exact (xw seed x SQ _).
Qed.
Print Assumptions C86_range.

(* Seeds that agree in 32 bits give the same values; a later draw never depends on anything
   but the seed and the number of draws before it. *)
Theorem C86_seed : forall s1 s2 n, s1 mod 2 ^ 32 = s2 mod 2 ^ 32 ->
  draws n s1 start = draws n s2 start.
Proof.
  intros s1 s2 n E. destruct (C86_sequence s1) as (x & SX & DX).
  destruct (C86_sequence s2) as (y & SY & DY). rewrite DX, DY. f_equal.
  assert (mt_sequence s2 x) as SX2 by (unfold mt_sequence in *; rewrite <- E; exact SX).
  apply map_ext. intros i. rewrite (C86_unique s2 x y SX2 SY). reflexivity.
Qed.
Print Assumptions C86_seed.

(* The published first values for the usual seed *)
Example first_values :
  draws 5 5489 start = Ok [3499211612; 581869302; 3890346734; 3586334585; 545404204].
Proof. vm_compute. reflexivity. Qed.
