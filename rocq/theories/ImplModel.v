(* Model of the signals S'STABLE(T), S'QUIET(T), S'DELAYED(T) and S'TRANSACTION: src/rt/model.c and
   src/lower.c.  The implicit signal has one piece; so has S, or its pieces are taken together. *)
From Coq Require Import List NArith Bool.
From Verif Require Import WaveModel ImplSpec.
Import ListNotations.
Local Open Scope N_scope.

(* A driver and its entries in the queues of the kernel: the times at which it is in eventq_heap,
   and whether it is in delta_driverq *)
Record queued (V : Type) := Queued { q_driver : driver V; q_heap : list N; q_delta : bool }.
Arguments Queued {V}. Arguments q_driver {V}. Arguments q_heap {V}. Arguments q_delta {V}.

(* Several calls of async_update_driver; the flag says if one of them changed the driver. *)
Fixpoint updates {V} (n : nat) (now : N) (d : driver V) : driver V * bool :=
  match n with
  | O => (d, false)
  | S n => let '(d, a) := update_driver now d in let '(d, b) := updates n now d in (d, a || b)
  end.
(* The start of model_cycle: src/rt/model.c:3243-3304 *)
Definition wake {V} (now : N) (is_delta : bool) (q : queued V) : queued V * bool :=
  if is_delta then
    let '(d, due) := updates (if q_delta q then 1 else 0) now (q_driver q) in
    (Queued d (q_heap q) false, due)
  else
    let '(d, due) := updates (count_occ N.eq_dec (q_heap q) now) now (q_driver q) in
    (Queued d (filter (fun k => negb (k =? now)) (q_heap q)) false, due).
(* An assignment: insert_transaction and deltaq_insert_driver, src/rt/model.c:865-876, 2563-2602.
   The fast path for assignments without delay is not modelled. *)
Definition drive {V} (eqv : V -> V -> bool) (now after reject : N) (v : V) (q : queued V) : queued V :=
  let '(d, sched) := assign eqv now (q_driver q) after reject v in
  if sched then
    if after =? 0 then Queued d (q_heap q) true
    else Queued d (add64 now after :: q_heap q) (q_delta q)
  else Queued d (q_heap q) (q_delta q).

(* S'STABLE(T) and S'QUIET(T).  x_implicit_signal: src/rt/model.c:4381-4407 *)
Record imp := Imp { i_value : bool; i_queue : queued bool }.
Definition imp_init : imp := Imp true (Queued (Drv (Tx 0 true) [] false) [] false).
(* update_implicit_signal: src/rt/model.c:3115-3160.  [result]: lower_implicit_stable,
   src/lower.c:8129-8151 *)
Definition update_implicit (delay now : N) (result : bool) (st : imp) : imp :=
  if negb result then Imp false (drive Bool.eqb now delay delay true (i_queue st))
  else match dwave (q_driver (i_queue st)) with
       | [] => Imp true (i_queue st)
       | _ => st
       end.
(* One cycle: the update is scheduled if the driver or S is active, since the second source of
   the signal is the implicit one.  src/rt/model.c:1946-1996, 2741-2775, 3318-3319 *)
Definition imp_cycle {V} (quiet : bool) (delay : N) (c : cyc V) (st : imp) : imp :=
  let '(q, due) := wake (c_now c) (c_is_delta c) (i_queue st) in
  let st := Imp (i_value st) q in
  if due || c_active c
  then update_implicit delay (c_now c) (negb (if quiet then c_active c else c_event c)) st
  else st.

(* S'DELAYED(T): lower_implicit_delayed, src/lower.c:8056-8112.  A process that is run at the
   start and after every event on S, and assigns with a pulse rejection limit of 0 *)
Record del (V : Type) := Del { l_value : V; l_queue : queued V }.
Arguments Del {V}. Arguments l_value {V}. Arguments l_queue {V}.
(* The initial value is the default of the type: src/lower.c:8206-8211 *)
Definition del_init {V} (default : V) : del V := Del default (Queued (Drv (Tx 0 default) [] false) [] false).
Definition del_cycle {V} (eqv : V -> V -> bool) (delay : N) (first : bool) (c : cyc V) (st : del V) : del V :=
  let '(q, due) := wake (c_now c) (c_is_delta c) (l_queue st) in
  let v := if due then tval (dcur (q_driver q)) else l_value st in
  Del v (if first || c_event c then drive eqv (c_now c) delay 0 (c_value c) q else q).

(* S'TRANSACTION: lower_implicit_transaction, src/lower.c:8114-8127; schedule_implicit_update,
   src/rt/model.c:1945-1954.  Each active piece of S schedules the update unless it is pending. *)
Definition schedule (active : bool) (s : nat * bool) : nat * bool :=
  let '(queue, pending) := s in
  if active && negb pending then (S queue, true) else s.
Definition transaction_cycle (pieces : list bool) (p : bool) : bool :=
  let '(queue, _) := fold_left (fun s a => schedule a s) pieces (O, false) in
  Nat.iter queue negb p.
