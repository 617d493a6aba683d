(* Sensitivity of processes to signals: the set of objects that a nexus wakes
   when an event occurs on it (src/rt/model.c). *)
From Coq Require Import List Arith Bool.
Import ListNotations.

(* A wakeable object (process, property, watch, transfer) is an identity.
   Modelled: src/rt/structs.h:56-66 (rt_wakeable_t), fields pending and
   postponed only, kept as functions of the identity in [wstate]. *)
Definition obj := nat.

(* n->pending: NULL, a tagged pointer to one object, or an array with holes.
   Modelled: src/rt/structs.h rt_pending_t; src/rt/model.c:2497-2510.
   Simplification: the capacity field max is not kept, growing the array is
   appending to the list. *)
Inductive pending :=
| PNone
| POne (o : obj)
| PMany (ws : list (option obj)).

(* The loop over p->wake[] in sched_event: take the first slot that is free or
   already holds the object, otherwise append.
   Modelled: src/rt/model.c:2514-2529. *)
Fixpoint wake_fill (o : obj) (ws : list (option obj)) : list (option obj) :=
  match ws with
  | [] => [Some o]
  | None :: ws' => Some o :: ws'
  | Some x :: ws' => if x =? o then Some o :: ws' else Some x :: wake_fill o ws'
  end.

(* Modelled: src/rt/model.c:2495-2531 (sched_event). *)
Definition sched_event (p : pending) (o : obj) : pending :=
  match p with
  | PNone => POne o
  | POne cur => if cur =? o then POne cur else PMany [Some cur; Some o]
  | PMany ws => PMany (wake_fill o ws)
  end.

(* Modelled: src/rt/model.c:2540-2548, the loop of clear_event: the first slot
   holding the object becomes free. *)
Fixpoint wake_drop (o : obj) (ws : list (option obj)) : list (option obj) :=
  match ws with
  | [] => []
  | None :: ws' => None :: wake_drop o ws'
  | Some x :: ws' => if x =? o then None :: ws' else Some x :: wake_drop o ws'
  end.

(* Modelled: src/rt/model.c:2533-2550 (clear_event). *)
Definition clear_event (p : pending) (o : obj) : pending :=
  match p with
  | PNone => PNone
  | POne w => if w =? o then PNone else POne w
  | PMany ws => PMany (wake_drop o ws)
  end.

(* What wakeup_one reads and writes: the pending flag of each object and the
   two run queues.  Modelled: src/rt/model.c:2806-2871.  Simplification: the
   kinds of object differ only in the callback put on the queue, so they are
   not distinguished (implicit signals, which go to a third queue, are left
   out); cancelling a timeout is modelled in KernelModel.v. *)
Record wstate := W { wpend : obj -> bool; wprocq : list obj; wpostq : list obj }.

Definition set_flag (f : obj -> bool) (o : obj) : obj -> bool :=
  fun x => if x =? o then true else f x.

Definition wakeup_one (postponed : obj -> bool) (s : wstate) (o : obj) : wstate :=
  if wpend s o then s
  else if postponed o then W (set_flag (wpend s) o) (wprocq s) (wpostq s ++ [o])
  else W (set_flag (wpend s) o) (wprocq s ++ [o]) (wpostq s).

(* Modelled: src/rt/model.c:2886-2900, the part of notify_event that wakes. *)
Definition slots (p : pending) : list (option obj) :=
  match p with
  | PNone => []
  | POne o => [Some o]
  | PMany ws => ws
  end.

Definition notify (postponed : obj -> bool) (p : pending) (s : wstate) : wstate :=
  fold_left (fun s w => match w with Some o => wakeup_one postponed s o | None => s end)
            (slots p) s.

(* A history of calls on one nexus. *)
Inductive sense_op := Register (o : obj) | Unregister (o : obj).

Definition sense_step (p : pending) (op : sense_op) : pending :=
  match op with
  | Register o => sched_event p o
  | Unregister o => clear_event p o
  end.

Definition sense_run (ops : list sense_op) : pending := fold_left sense_step ops PNone.
