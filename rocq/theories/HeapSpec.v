(* Specification of a priority queue of time-stamped items: the state is a
   multiset of (key,item) pairs (a list up to permutation). *)
From Coq Require Import List Arith NArith Permutation.
From Verif Require Import HeapModel.
Import ListNotations.

Section Spec.
Context {A : Type}.

(* (k,x) is an earliest element of the queue and [rest] is what remains
   without it. *)
Definition takes_min (q : list (N * A)) (k : N) (x : A) (rest : list (N * A))
  : Prop :=
  Permutation q ((k, x) :: rest) /\
  (forall k' y, In (k', y) q -> (k <= k')%N).

(* What each public call may return and do, in terms of the multiset.  The
   extract call of the C interface only returns the item. *)
Inductive pq_step : list (N * A) -> heap_op A -> heap_out A -> list (N * A) -> Prop :=
| pq_insert q q' k x :
    Permutation q' ((k, x) :: q) ->
    pq_step q (OpInsert k x) OutUnit q'
| pq_extract q q' k x :
    takes_min q k x q' ->
    pq_step q OpExtract (OutItem x) q'
| pq_min q q' k x rest :
    takes_min q k x rest -> Permutation q' q ->
    pq_step q OpMin (OutItem x) q'
| pq_min_key q q' k x rest :
    takes_min q k x rest -> Permutation q' q ->
    pq_step q OpMinKey (OutKey k) q'
| pq_delete_hit q q' fn k x :
    Permutation q ((k, x) :: q') -> fn k x = true ->
    pq_step q (OpDelete fn) (OutBool true) q'
| pq_delete_miss q q' fn :
    (forall k x, In (k, x) q -> fn k x = false) -> Permutation q' q ->
    pq_step q (OpDelete fn) (OutBool false) q'.

Inductive pq_run : list (N * A) -> list (heap_op A) -> list (heap_out A) ->
                   list (N * A) -> Prop :=
| pq_run_nil q : pq_run q [] [] q
| pq_run_cons q q1 q2 op ops o os :
    pq_step q op o q1 -> pq_run q1 ops os q2 ->
    pq_run q (op :: ops) (o :: os) q2.

(* The preconditions a caller must respect: keys are 64-bit and nothing is
   taken from, or looked at in, an empty queue.  [n] is the number of queued
   elements. *)
Definition key_ok (op : heap_op A) : Prop :=
  match op with OpInsert k _ => (k < 2 ^ 64)%N | _ => True end.

Definition needs_element (op : heap_op A) : bool :=
  match op with OpExtract | OpMin | OpMinKey => true | _ => false end.

End Spec.
