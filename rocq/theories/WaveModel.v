(* Model of a driver's projected output waveform in src/rt/model.c.

   A waveform_t (src/rt/structs.h:100-104) is a pair (when, value); the singly
   linked list hanging off rt_driver_t.waveforms is a Coq list.  Values are an
   arbitrary type with an equality test (cmp_values, src/rt/model.c:1152, is a
   byte comparison of equally sized values).  [when] is a uint64_t: an [N] with
   arithmetic modulo 2^64. *)
From Coq Require Import List NArith Bool.
From Verif Require Import Base.
Import ListNotations.
Open Scope N_scope.

Definition two64 : N := 2 ^ 64.
(* Unsigned 64-bit subtraction and negation. *)
Definition sub64 (a b : N) : N := (a + two64 - b) mod two64.
Definition neg64 (a : N) : N := (two64 - a) mod two64.
Definition add64 (a b : N) : N := (a + b) mod two64.

Section Wave.
Context {V : Type} (eqv : V -> V -> bool).

(* waveform_t, src/rt/structs.h:100-104 *)
Record tx : Type := Tx { twhen : N; tval : V }.

(* First loop of insert_transaction, src/rt/model.c:2568-2585: returns the
   transactions kept before the new one and the rest of the list. *)
Fixpoint insert_scan (when reject : N) (v : V) (l : list tx) : list tx * list tx :=
  match l with
  | [] => ([], [])
  | it :: next =>
    if twhen it <? when then
      let '(kept, rest) := insert_scan when reject v next in
      if (sub64 when reject <=? twhen it) && negb (eqv (tval it) v)
      then (kept, rest) else (it :: kept, rest)
    else ([], l)
  end.

(* insert_transaction, src/rt/model.c:2563-2602: new list and
   already_scheduled.  [w] carries its own time because a null transaction is
   stored with a negated time. *)
Definition insert_transaction (l : list tx) (w : tx) (when reject : N) : list tx * bool :=
  let '(kept, rest) := insert_scan when reject (tval w) l in
  (kept ++ [w], existsb (fun it => twhen it =? when) rest).

(* The driver: rt_source_t flags and rt_driver_t.waveforms
   (src/rt/structs.h:121-126, 152-165). *)
Record driver : Type := Drv {
  dcur : tx;              (* waveforms (by value)  *)
  dwave : list tx;        (* waveforms.next        *)
  ddisc : bool            (* disconnected          *)
}.

(* The general path of sched_driver, src/rt/model.c:2645-2673, without the
   fast-driver case: result is the driver and whether an event has to be
   queued. *)
Definition assign (now : N) (d : driver) (after reject : N) (v : V) : driver * bool :=
  let when := add64 now after in
  let '(l, already) := insert_transaction (dwave d) (Tx when v) when reject in
  (Drv (dcur d) l (ddisc d), negb already).

(* sched_disconnect, src/rt/model.c:2676-2696; [zero] is the all-zero value
   word. *)
Definition disconnect (zero : V) (now : N) (d : driver) (after reject : N) : driver * bool :=
  let when := add64 now after in
  let '(l, already) := insert_transaction (dwave d) (Tx (neg64 when) zero) when reject in
  (Drv (dcur d) l (ddisc d), negb already).

(* update_driver, src/rt/model.c:3006-3025; the boolean says whether
   update_driving is called. *)
Definition update_driver (now : N) (d : driver) : driver * bool :=
  match dwave d with
  | w :: next =>
    if twhen w =? now then (Drv w next false, true)
    else if twhen w =? neg64 now then (Drv w next true, true)
    else (d, false)
  | [] => (d, false)
  end.

(* Client view of one driver: assignments, disconnections and the passing of
   time to [t], where the event queue wakes the driver. *)
Inductive dop : Type :=
| DAssign (after reject : N) (v : V)
| DDisconnect (after reject : N)
| DWake (t : N).

Definition dstep (zero : V) (s : N * driver) (op : dop) : N * driver :=
  let '(now, d) := s in
  match op with
  | DAssign after reject v => (now, fst (assign now d after reject v))
  | DDisconnect after reject => (now, fst (disconnect zero now d after reject))
  | DWake t => (t, fst (update_driver t d))
  end.

Definition drun (zero : V) (s : N * driver) (ops : list dop) : N * driver :=
  fold_left (dstep zero) ops s.
End Wave.
Arguments tx : clear implicits.
Arguments driver : clear implicits.
Arguments dop : clear implicits.
