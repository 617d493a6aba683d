(* C01, C02: the event queue (src/rt/heap.c) is a priority queue. *)
From Coq Require Import List Arith NArith Permutation.
From Verif Require Import Base HeapModel HeapSpec HeapProofs.
Import ListNotations.

(* C01 + C02.  Starting from an empty queue of any non-zero initial capacity
   (with arbitrary uninitialised storage), every sequence of public calls with
   64-bit keys either runs without fault and returns exactly what a multiset
   priority queue may return, the final storage holding exactly the final
   multiset; or the sequence contains a call that looks at an empty queue. *)
Theorem C01_C02_heap_is_priority_queue :
  forall (A : Type) (junk : nat -> N * A) (capacity : nat) (ops : list (heap_op A)),
    0 < capacity -> Forall key_ok ops ->
    (exists outs h',
        heap_run (heap_new junk capacity) ops = Ok (outs, h') /\
        pq_run [] ops outs (heap_walk h'))
    \/ (exists ops1 op ops2 outs1 h1,
          ops = ops1 ++ op :: ops2 /\ needs_element op = true /\
          heap_run (heap_new junk capacity) ops1 = Ok (outs1, h1) /\
          heap_walk h1 = []).
Proof.
  intros A junk cap ops Hc Hk.
  destruct (heap_run_ok ops (heap_new junk cap) (heap_new_inv junk cap Hc) Hk)
    as [(os & h' & R & _ & P)|(_ & H)].
  - left. exists os, h'. split; [exact R|exact P].
  - right. exact H.
Qed.
Print Assumptions C01_C02_heap_is_priority_queue.

(* C01, read off a reachable state: extract-min returns a queued item whose key
   is no larger than any other, and min / min-key announce that same item. *)
Theorem C01_extract_returns_earliest :
  forall (A : Type) (junk : nat -> N * A) (capacity : nat) ops outs h,
    0 < capacity -> Forall key_ok ops ->
    heap_run (heap_new junk capacity) ops = Ok (outs, h) ->
    heap_walk h <> [] ->
    exists k x h',
      heap_extract_min h = Ok (x, h') /\
      heap_min h = Ok x /\ heap_min_key h = Ok k /\
      In (k, x) (heap_walk h) /\
      (forall k' y, In (k', y) (heap_walk h) -> (k <= k')%N) /\
      Permutation (heap_walk h) ((k, x) :: heap_walk h').
Proof.
  intros A junk cap ops outs h Hc Hk R Hne.
  destruct (heap_run_ok ops (heap_new junk cap) (heap_new_inv junk cap Hc) Hk)
    as [(os & h' & R' & I' & _)|(R' & _)]; rewrite R in R'; [|discriminate].
  injection R' as <- <-.
  assert (Hs : 1 <= hsize h).
  { rewrite <- contents_length. destruct (heap_walk h); [congruence|simpl; apply le_n_S, Nat.le_0_l]. }
  destruct (heap_extract_ok h I' Hs) as (h2 & E & _ & P & M).
  exists (KEY h 1), (USER h 1), h2. split; [exact E|].
  unfold heap_min, heap_min_key.
  destruct (Nat.ltb_spec (hsize h) 1) as [L|_]; [exfalso; apply Nat.lt_nge in L; auto|].
  repeat split; auto.
  eapply Permutation_in; [symmetry; exact P|]. left. reflexivity.
Qed.
Print Assumptions C01_extract_returns_earliest.

(* A history with growth, duplicate keys, deletion and re-insertion. *)
Example C01_C02_case :
  let ops := [OpInsert 30%N 1; OpInsert 10%N 2; OpInsert 20%N 3; OpInsert 10%N 4;
              OpDelete (fun k _ => N.eqb k 20); OpMinKey; OpExtract; OpExtract;
              OpInsert 5%N 7; OpExtract; OpMin] in
  Forall key_ok ops /\
  match heap_run (heap_new (fun _ => (0%N, 0)) 1) ops with
  | Ok (outs, h) =>
      outs = [OutUnit; OutUnit; OutUnit; OutUnit; OutBool true; OutKey 10%N;
              OutItem 2; OutItem 4; OutUnit; OutItem 7; OutItem 1] /\
      heap_walk h = [(30%N, 1)]
  | Fault => False
  end.
Proof. split; [repeat constructor | vm_compute; split; reflexivity]. Qed.
