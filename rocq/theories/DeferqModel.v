(* Deferred work queues of the simulation kernel (src/rt/model.c), including the
   random reordering requested with --shuffle. *)
From Coq Require Import List Arith Bool.
From Verif Require Import Base.
Import ListNotations.

(* Modelled: src/rt/model.c:98-107 (defer_task_t, deferq_t).  A task is an
   element of an arbitrary type [T]; [qtasks] is the C array, [qmax] its
   capacity. *)
Record deferq (T : Type) := Q { qcount : nat; qmax : nat; qtasks : nat -> T }.
Arguments Q {T}. Arguments qcount {T}. Arguments qmax {T}. Arguments qtasks {T}.

(* Modelled: src/rt/model.c:361-366 (deferq_grow); the wrap-around of the
   unsigned capacity at 2^32 is not modelled. *)
Definition deferq_grow {T} (q : deferq T) : deferq T :=
  Q (qcount q) (Nat.max (qmax q * 2) 64) (qtasks q).

(* Modelled: src/rt/model.c:368-374 (deferq_do).  A store past the capacity is a
   [Fault]. *)
Definition deferq_do {T} (q : deferq T) (t : T) : res (deferq T) :=
  let q := if qcount q =? qmax q then deferq_grow q else q in
  if qcount q <? qmax q
  then Ok (Q (S (qcount q)) (qmax q) (upd (qtasks q) (qcount q) t))
  else Fault.

(* Modelled: src/rt/model.c:382-391 (deferq_shuffle).  [rnd] is the sequence of
   values returned by get_random, any sequence; the loop counter [cur] is the
   value before the decrement. *)
Fixpoint shuffle_loop {T} (rnd : nat -> nat) (step cur : nat) (a : nat -> T) : nat -> T :=
  match cur with
  | 0 => a
  | S cur' =>
    let swap := rnd step mod cur in
    let tmp := a cur' in
    let a := upd a cur' (a swap) in
    let a := upd a swap tmp in
    shuffle_loop rnd (S step) cur' a
  end.

Definition deferq_shuffle {T} (rnd : nat -> nat) (q : deferq T) : deferq T :=
  Q (qcount q) (qmax q) (shuffle_loop rnd 0 (qcount q) (qtasks q)).

(* Modelled: src/rt/model.c:393-411 (deferq_run): the tasks in the order they
   are executed, and the queue afterwards.  The two loops run tasks 0..count-1
   in order; the prefetch in the first has no effect.  That no task adds to the
   queue it is run from is an assertion in the code; see KernelModel.v. *)
Definition deferq_run {T} (q : deferq T) : list T * deferq T :=
  (map (qtasks q) (seq 0 (qcount q)), Q 0 (qmax q) (qtasks q)).

(* Scheduling a list of tasks on a queue. *)
Fixpoint deferq_do_all {T} (q : deferq T) (ts : list T) : res (deferq T) :=
  match ts with
  | [] => Ok q
  | t :: ts' => do! q <- deferq_do q t; deferq_do_all q ts'
  end.
