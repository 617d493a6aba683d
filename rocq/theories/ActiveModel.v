(* Model of the attributes 'ACTIVE and 'LAST_ACTIVE of a signal with one piece and one
   driver: what src/rt/model.c keeps for them.

   Ports, conversions, forcing and several drivers are not modelled.  The preemption of
   transactions is that of WaveModel: here it is given which earlier ones stay. *)
From Coq Require Import List ZArith Bool.
From Verif Require Import Base SigAttrModel SigAttrSpec ActiveSpec.
Import ListNotations.
Local Open Scope Z_scope.

(* active_delta and NET_F_FAST_DRIVER of the nexus; the current transaction (when, value),
   the times of the further ones, fastqueued and was_active of the source; time, delta
   cycle and next_is_delta of the model.  src/rt/structs.h:104-165, 183-199 *)
Record dstate := DState {
  adelta : Z; fast : bool; w_when : Z; w_value : Z; w_next : list Z;
  fastqueued : bool; was_active : bool; d_time : Z; d_iter : Z }.

(* add_source and setup_signal: src/rt/model.c:1256-1264, 1705-1708; model_new:
   src/rt/model.c:475 *)
Definition dinitial (v : Z) : dstate :=
  DState DELTA_CYCLE_MAX true TIME_HIGH v [] false false 0 (-1).

(* sched_driver: src/rt/model.c:2604-2673, for a signal with one piece.  In the fast path a
   transaction equal to the current one only marks the signal as active in the next delta
   cycle.  [Fault] is the assertion at line 2613. *)
Definition sched_driver (s : dstate) (a : assignment) : res dstate :=
  if (a_after a =? 0) && fast s then
    match w_next s with
    | _ :: _ => Fault
    | [] =>
        if fastqueued s then
          Ok (DState (adelta s) true (d_time s) (a_value a) [] true (was_active s) (d_time s) (d_iter s))
        else if a_value a =? w_value s then
          Ok (DState (delta_cycle (d_iter s + 1)) true (d_time s) (w_value s) [] false
                (adelta s =? d_iter s) (d_time s) (d_iter s))
        else
          Ok (DState (adelta s) true (d_time s) (a_value a) [] true (was_active s) (d_time s) (d_iter s))
    end
  else
    let next := if fast s && fastqueued s then [d_time s] else w_next s in
    let t := d_time s + a_after a in
    Ok (DState (adelta s) false (w_when s) (w_value s) (kept (a_keep a) t next ++ [t])
          (fastqueued s) (was_active s) (d_time s) (d_iter s)).

(* The beginning of a cycle and the update of the driver, if one is due: model_cycle,
   fast_update_driver, update_driver, update_driving: src/rt/model.c:3245-3300, 3006-3044,
   2971-2975.  A transaction is due when it is the first and its time is now: then either the
   event queue or the delta queue holds the driver (C08). *)
Definition dbegin (s : dstate) (n : next) : dstate :=
  let '(t, i) := match n with NextDelta => (d_time s, d_iter s + 1) | NextTime e => (d_time s + e, 0) end in
  let update :=
    match w_next s with
    | x :: next =>
        if x =? t then DState (delta_cycle i) (fast s) t (w_value s) next false (was_active s) t i
        else DState (adelta s) (fast s) (w_when s) (w_value s) (x :: next) false (was_active s) t i
    | [] => DState (adelta s) (fast s) (w_when s) (w_value s) [] false (was_active s) t i
    end in
  if fastqueued s && fast s
  then DState (delta_cycle i) (fast s) (w_when s) (w_value s) (w_next s) false (was_active s) t i
  else update.

(* nexus_active: src/rt/model.c:3676-3705 *)
Definition nexus_active (s : dstate) : bool :=
  (w_when s =? d_time s) &&
  ((adelta s =? d_iter s) || ((adelta s =? d_iter s + 1) && was_active s)).

(* nexus_last_active: src/rt/model.c:3707-3733 *)
Definition nexus_last_active (s : dstate) : Z :=
  if w_when s <=? d_time s then Z.min TIME_HIGH (d_time s - w_when s) else TIME_HIGH.

Fixpoint drives (s : dstate) (l : list assignment) : res dstate :=
  match l with
  | [] => Ok s
  | a :: l => do! s <- sched_driver s a; drives s l
  end.
Fixpoint drun (s : dstate) (cs : list (next * list assignment)) : res dstate :=
  match cs with
  | [] => Ok s
  | (n, l) :: cs => do! s <- drives (dbegin s n) l; drun s cs
  end.
