(* What a user expects of a sensitivity list, over the history of calls. *)
From Coq Require Import List Arith.
From Verif Require Import SenseModel.
Import ListNotations.

(* The last call that mentions [o] registered it. *)
Definition registered (o : obj) (ops : list sense_op) : Prop :=
  exists l1 l2, ops = l1 ++ Register o :: l2 /\ ~ In (Unregister o) l2.

(* An object that is still registered is registered a second time only if
   nothing at all has been unregistered from this signal in between.  Processes
   satisfy this: a wait statement registers the process with every signal of its
   sensitivity list (possibly naming one twice) without running anything else,
   and unregisters it again when it resumes. *)
Definition no_stale_reregistration (ops : list sense_op) : Prop :=
  forall l1 o l2 l3,
    ops = l1 ++ Register o :: l2 ++ Register o :: l3 ->
    ~ In (Unregister o) l2 -> forall x, ~ In (Unregister x) l2.

(* The effect of one event on the run queues: every object of [wanted] that was
   not already waiting to run is queued exactly once, in the queue of its kind,
   behind what was there, and nothing else is queued. *)
Definition wakes_exactly (postponed : obj -> bool) (wanted : obj -> Prop) (s s' : wstate) : Prop :=
  exists new newp,
    wprocq s' = wprocq s ++ new /\ wpostq s' = wpostq s ++ newp /\
    NoDup new /\ NoDup newp /\
    (forall o, In o new <-> wanted o /\ wpend s o = false /\ postponed o = false) /\
    (forall o, In o newp <-> wanted o /\ wpend s o = false /\ postponed o = true) /\
    (forall o, wpend s' o = true <-> wpend s o = true \/ wanted o).
