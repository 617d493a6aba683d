(* The simulation cycle of src/rt/model.c: the event queue, the delta queues, drivers with
   their fast path, resolution of nexuses with several drivers, wakeups and the two run
   queues.

   What a process does when it runs is a list of calls into the kernel (see [act]), any list;
   the processes' own code is not modelled.  Not modelled here: ports and the propagation to
   their outputs, separate driving and effective values, null transactions, forcing and
   depositing, splitting of nexuses (C12), implicit signals, watches, transfers, triggers,
   properties, timeouts set by VPI or VHPI callbacks, and the attributes that look at activity. *)
From Coq Require Import List Arith NArith ZArith Bool.
From Verif Require Import Base HeapModel WaveModel SenseModel.
Import ListNotations.
Open Scope nat_scope.

Definition proc := nat.
Definition nexus := nat.
Definition signal := nat.

(* An element of m->eventq_heap, src/rt/model.c:71-75: a tagged pointer to a process or to a
   driver, here the driver of process [p] on nexus [n]. *)
Inductive event := EProc (p : proc) | EDriver (n : nexus) (p : proc).

(* A task on m->driverq: async_update_driver, async_fast_driver, async_fast_all_drivers,
   src/rt/model.c:3067-3084. *)
Inductive task := TUpdate (n : nexus) (p : proc) | TFast (n : nexus) | TFastAll (s : signal).

Definition upd2 {X : Type} (f : nat -> nat -> X) (i j : nat) (x : X) : nat -> nat -> X :=
  upd f i (upd (f i) j x).

Section Kernel.
Context {V : Type} (eqv : V -> V -> bool).

(* The elaborated design, which does not change in a run.  [sources n] are the processes with
   a driver on nexus [n] in the order of the list of sources (src/rt/structs.h:152-165, one
   driver for each process, src/rt/model.c:2552-2561); [resolve n] is what
   calculate_driving_value and call_resolution (src/rt/model.c:1826-2049) compute from the
   values of the connected drivers, a pure function: the identity on one value for a signal
   without a resolution function. *)
Record design := Design {
  procs : list proc;
  nets : list nexus;
  sources : nexus -> list proc;
  resolve : nexus -> list V -> V;
  sig : nexus -> signal;
  nexuses : signal -> list nexus;
  postponed : proc -> bool;
  rank : nexus -> N;
  init : nexus -> V;
  static : nexus -> list proc       (* sensitive from the start *)
}.
Context (D : design).

(* The calls a process makes into the kernel: x_sched_waveform for one nexus, x_sched_process,
   x_sched_event and x_clear_event for one nexus, src/rt/model.c:3870-3930, 4030-4067. *)
Inductive act :=
| ADrive (n : nexus) (after reject : N) (v : V)
| AWait (delay : N)
| ASense (n : nexus)
| AClear (n : nexus).

(* The mutable state: rt_model_t (src/rt/model.c:83-125) and the fields of rt_nexus_t,
   rt_source_t and rt_wakeable_t (src/rt/structs.h).  The queues are lists, as C22 shows;
   m->iteration does not wrap around. *)
Record kst := Kst {
  k_now : N;  (* m->now *)
  k_iter : Z;  (* m->iteration *)
  k_delta : bool;  (* m->next_is_delta *)
  k_evq : heap event;  (* m->eventq_heap *)
  k_dprocq : list proc;  (* m->delta_procq *)
  k_ddrvq : list task;  (* m->delta_driverq *)
  k_procq : list proc;  (* m->procq *)
  k_drvq : list task;  (* m->driverq *)
  k_postq : list proc;  (* m->postponedq *)
  k_pend : proc -> bool;  (* wakeable.pending of each process *)
  k_delayed : proc -> bool;  (* wakeable.delayed of each process *)
  k_drv : nexus -> proc -> driver V;  (* the driver of each process on each nexus *)
  k_fastq : nexus -> bool;  (* fastqueued of the first source of the nexus *)
  k_sigq : signal -> bool;  (* sigqueued of the first source of the signal *)
  k_nfast : nexus -> bool;  (* NET_F_FAST_DRIVER of the nexus *)
  k_sfast : signal -> bool;  (* NET_F_FAST_DRIVER of the signal *)
  k_val : nexus -> V;  (* effective value *)
  k_last : nexus -> V;  (* last value *)
  k_stamp : nexus -> option (N * Z);  (* last_event and event_delta; None before the first event *)
  k_npend : nexus -> bool;  (* NET_F_PENDING *)
  k_drvheap : heap nexus;  (* m->driving_heap *)
  k_sense : nexus -> pending  (* n->pending *)
}.

(* Field stores. *)
Definition set_now (x : N) (k : kst) : kst :=
  Kst x (k_iter k) (k_delta k) (k_evq k) (k_dprocq k) (k_ddrvq k) (k_procq k) (k_drvq k)
    (k_postq k) (k_pend k) (k_delayed k) (k_drv k) (k_fastq k) (k_sigq k) (k_nfast k) (k_sfast
    k) (k_val k) (k_last k) (k_stamp k) (k_npend k) (k_drvheap k) (k_sense k).
Definition set_iter (x : Z) (k : kst) : kst :=
  Kst (k_now k) x (k_delta k) (k_evq k) (k_dprocq k) (k_ddrvq k) (k_procq k) (k_drvq k) (k_postq
    k) (k_pend k) (k_delayed k) (k_drv k) (k_fastq k) (k_sigq k) (k_nfast k) (k_sfast k) (k_val
    k) (k_last k) (k_stamp k) (k_npend k) (k_drvheap k) (k_sense k).
Definition set_delta (x : bool) (k : kst) : kst :=
  Kst (k_now k) (k_iter k) x (k_evq k) (k_dprocq k) (k_ddrvq k) (k_procq k) (k_drvq k) (k_postq
    k) (k_pend k) (k_delayed k) (k_drv k) (k_fastq k) (k_sigq k) (k_nfast k) (k_sfast k) (k_val
    k) (k_last k) (k_stamp k) (k_npend k) (k_drvheap k) (k_sense k).
Definition set_evq (x : heap event) (k : kst) : kst :=
  Kst (k_now k) (k_iter k) (k_delta k) x (k_dprocq k) (k_ddrvq k) (k_procq k) (k_drvq k)
    (k_postq k) (k_pend k) (k_delayed k) (k_drv k) (k_fastq k) (k_sigq k) (k_nfast k) (k_sfast
    k) (k_val k) (k_last k) (k_stamp k) (k_npend k) (k_drvheap k) (k_sense k).
Definition set_dprocq (x : list proc) (k : kst) : kst :=
  Kst (k_now k) (k_iter k) (k_delta k) (k_evq k) x (k_ddrvq k) (k_procq k) (k_drvq k) (k_postq
    k) (k_pend k) (k_delayed k) (k_drv k) (k_fastq k) (k_sigq k) (k_nfast k) (k_sfast k) (k_val
    k) (k_last k) (k_stamp k) (k_npend k) (k_drvheap k) (k_sense k).
Definition set_ddrvq (x : list task) (k : kst) : kst :=
  Kst (k_now k) (k_iter k) (k_delta k) (k_evq k) (k_dprocq k) x (k_procq k) (k_drvq k) (k_postq
    k) (k_pend k) (k_delayed k) (k_drv k) (k_fastq k) (k_sigq k) (k_nfast k) (k_sfast k) (k_val
    k) (k_last k) (k_stamp k) (k_npend k) (k_drvheap k) (k_sense k).
Definition set_procq (x : list proc) (k : kst) : kst :=
  Kst (k_now k) (k_iter k) (k_delta k) (k_evq k) (k_dprocq k) (k_ddrvq k) x (k_drvq k) (k_postq
    k) (k_pend k) (k_delayed k) (k_drv k) (k_fastq k) (k_sigq k) (k_nfast k) (k_sfast k) (k_val
    k) (k_last k) (k_stamp k) (k_npend k) (k_drvheap k) (k_sense k).
Definition set_drvq (x : list task) (k : kst) : kst :=
  Kst (k_now k) (k_iter k) (k_delta k) (k_evq k) (k_dprocq k) (k_ddrvq k) (k_procq k) x (k_postq
    k) (k_pend k) (k_delayed k) (k_drv k) (k_fastq k) (k_sigq k) (k_nfast k) (k_sfast k) (k_val
    k) (k_last k) (k_stamp k) (k_npend k) (k_drvheap k) (k_sense k).
Definition set_postq (x : list proc) (k : kst) : kst :=
  Kst (k_now k) (k_iter k) (k_delta k) (k_evq k) (k_dprocq k) (k_ddrvq k) (k_procq k) (k_drvq k)
    x (k_pend k) (k_delayed k) (k_drv k) (k_fastq k) (k_sigq k) (k_nfast k) (k_sfast k) (k_val
    k) (k_last k) (k_stamp k) (k_npend k) (k_drvheap k) (k_sense k).
Definition set_pend (x : proc -> bool) (k : kst) : kst :=
  Kst (k_now k) (k_iter k) (k_delta k) (k_evq k) (k_dprocq k) (k_ddrvq k) (k_procq k) (k_drvq k)
    (k_postq k) x (k_delayed k) (k_drv k) (k_fastq k) (k_sigq k) (k_nfast k) (k_sfast k) (k_val
    k) (k_last k) (k_stamp k) (k_npend k) (k_drvheap k) (k_sense k).
Definition set_delayed (x : proc -> bool) (k : kst) : kst :=
  Kst (k_now k) (k_iter k) (k_delta k) (k_evq k) (k_dprocq k) (k_ddrvq k) (k_procq k) (k_drvq k)
    (k_postq k) (k_pend k) x (k_drv k) (k_fastq k) (k_sigq k) (k_nfast k) (k_sfast k) (k_val k)
    (k_last k) (k_stamp k) (k_npend k) (k_drvheap k) (k_sense k).
Definition set_drv (x : nexus -> proc -> driver V) (k : kst) : kst :=
  Kst (k_now k) (k_iter k) (k_delta k) (k_evq k) (k_dprocq k) (k_ddrvq k) (k_procq k) (k_drvq k)
    (k_postq k) (k_pend k) (k_delayed k) x (k_fastq k) (k_sigq k) (k_nfast k) (k_sfast k) (k_val
    k) (k_last k) (k_stamp k) (k_npend k) (k_drvheap k) (k_sense k).
Definition set_fastq (x : nexus -> bool) (k : kst) : kst :=
  Kst (k_now k) (k_iter k) (k_delta k) (k_evq k) (k_dprocq k) (k_ddrvq k) (k_procq k) (k_drvq k)
    (k_postq k) (k_pend k) (k_delayed k) (k_drv k) x (k_sigq k) (k_nfast k) (k_sfast k) (k_val
    k) (k_last k) (k_stamp k) (k_npend k) (k_drvheap k) (k_sense k).
Definition set_sigq (x : signal -> bool) (k : kst) : kst :=
  Kst (k_now k) (k_iter k) (k_delta k) (k_evq k) (k_dprocq k) (k_ddrvq k) (k_procq k) (k_drvq k)
    (k_postq k) (k_pend k) (k_delayed k) (k_drv k) (k_fastq k) x (k_nfast k) (k_sfast k) (k_val
    k) (k_last k) (k_stamp k) (k_npend k) (k_drvheap k) (k_sense k).
Definition set_nfast (x : nexus -> bool) (k : kst) : kst :=
  Kst (k_now k) (k_iter k) (k_delta k) (k_evq k) (k_dprocq k) (k_ddrvq k) (k_procq k) (k_drvq k)
    (k_postq k) (k_pend k) (k_delayed k) (k_drv k) (k_fastq k) (k_sigq k) x (k_sfast k) (k_val
    k) (k_last k) (k_stamp k) (k_npend k) (k_drvheap k) (k_sense k).
Definition set_sfast (x : signal -> bool) (k : kst) : kst :=
  Kst (k_now k) (k_iter k) (k_delta k) (k_evq k) (k_dprocq k) (k_ddrvq k) (k_procq k) (k_drvq k)
    (k_postq k) (k_pend k) (k_delayed k) (k_drv k) (k_fastq k) (k_sigq k) (k_nfast k) x (k_val
    k) (k_last k) (k_stamp k) (k_npend k) (k_drvheap k) (k_sense k).
Definition set_val (x : nexus -> V) (k : kst) : kst :=
  Kst (k_now k) (k_iter k) (k_delta k) (k_evq k) (k_dprocq k) (k_ddrvq k) (k_procq k) (k_drvq k)
    (k_postq k) (k_pend k) (k_delayed k) (k_drv k) (k_fastq k) (k_sigq k) (k_nfast k) (k_sfast
    k) x (k_last k) (k_stamp k) (k_npend k) (k_drvheap k) (k_sense k).
Definition set_last (x : nexus -> V) (k : kst) : kst :=
  Kst (k_now k) (k_iter k) (k_delta k) (k_evq k) (k_dprocq k) (k_ddrvq k) (k_procq k) (k_drvq k)
    (k_postq k) (k_pend k) (k_delayed k) (k_drv k) (k_fastq k) (k_sigq k) (k_nfast k) (k_sfast
    k) (k_val k) x (k_stamp k) (k_npend k) (k_drvheap k) (k_sense k).
Definition set_stamp (x : nexus -> option (N * Z)) (k : kst) : kst :=
  Kst (k_now k) (k_iter k) (k_delta k) (k_evq k) (k_dprocq k) (k_ddrvq k) (k_procq k) (k_drvq k)
    (k_postq k) (k_pend k) (k_delayed k) (k_drv k) (k_fastq k) (k_sigq k) (k_nfast k) (k_sfast
    k) (k_val k) (k_last k) x (k_npend k) (k_drvheap k) (k_sense k).
Definition set_npend (x : nexus -> bool) (k : kst) : kst :=
  Kst (k_now k) (k_iter k) (k_delta k) (k_evq k) (k_dprocq k) (k_ddrvq k) (k_procq k) (k_drvq k)
    (k_postq k) (k_pend k) (k_delayed k) (k_drv k) (k_fastq k) (k_sigq k) (k_nfast k) (k_sfast
    k) (k_val k) (k_last k) (k_stamp k) x (k_drvheap k) (k_sense k).
Definition set_drvheap (x : heap nexus) (k : kst) : kst :=
  Kst (k_now k) (k_iter k) (k_delta k) (k_evq k) (k_dprocq k) (k_ddrvq k) (k_procq k) (k_drvq k)
    (k_postq k) (k_pend k) (k_delayed k) (k_drv k) (k_fastq k) (k_sigq k) (k_nfast k) (k_sfast
    k) (k_val k) (k_last k) (k_stamp k) (k_npend k) x (k_sense k).
Definition set_sense (x : nexus -> pending) (k : kst) : kst :=
  Kst (k_now k) (k_iter k) (k_delta k) (k_evq k) (k_dprocq k) (k_ddrvq k) (k_procq k) (k_drvq k)
    (k_postq k) (k_pend k) (k_delayed k) (k_drv k) (k_fastq k) (k_sigq k) (k_nfast k) (k_sfast
    k) (k_val k) (k_last k) (k_stamp k) (k_npend k) (k_drvheap k) x.

(* Modelled: src/rt/model.c:842-847 (set_pending). *)
Definition set_pending (p : proc) (k : kst) : res kst :=
  if k_pend k p || k_delayed k p then Fault else Ok (set_pend (upd (k_pend k) p true) k).

(* Modelled: src/rt/model.c:849-864 (deltaq_insert_proc). *)
Definition deltaq_insert_proc (delta : N) (p : proc) (k : kst) : res kst :=
  if (delta =? 0)%N then
    do! k1 <- set_pending p k;
    Ok (set_delta true (set_dprocq (k_dprocq k1 ++ [p]) k1))
  else if k_delayed k p then Fault
  else
    let k1 := set_delayed (upd (k_delayed k) p true) k in
    do! h <- heap_insert (k_evq k1) (add64 (k_now k1) delta) (EProc p);
    Ok (set_evq h k1).

(* Modelled: src/rt/model.c:866-877 (deltaq_insert_driver). *)
Definition deltaq_insert_driver (delta : N) (n : nexus) (p : proc) (k : kst) : res kst :=
  if (delta =? 0)%N then Ok (set_delta true (set_ddrvq (k_ddrvq k ++ [TUpdate n p]) k))
  else
    do! h <- heap_insert (k_evq k) (add64 (k_now k) delta) (EDriver n p);
    Ok (set_evq h k).

(* The value a driver contributes now. *)
Definition cur_value (k : kst) (n : nexus) (p : proc) : V := tval (dcur (k_drv k n p)).

Definition is_first (n : nexus) (p : proc) : bool :=
  match sources D n with q :: _ => q =? p | [] => false end.

(* Modelled: src/rt/model.c:2604-2643, the fast path of sched_driver. *)
Definition sched_fast (n : nexus) (v : V) (k : kst) : res kst :=
  match sources D n with
  | [q] =>
    let d := k_drv k n q in
    match dwave d with
    | _ :: _ => Fault
    | [] =>
      let s := sig D n in
      let old := tval (dcur d) in
      (* w->when = m->now; the value is stored at the end *)
      let store k := set_drv (upd2 (k_drv k) n q (Drv (Tx (k_now k) v) [] (ddisc d))) k in
      if k_fastq k n then
        if k_delta k then Ok (store k) else Fault
      else if k_sfast k s && k_sigq k s then
        if k_delta k then Ok (store (set_fastq (upd (k_fastq k) n true) k)) else Fault
      else if eqv v old then
        Ok (set_delta true (set_drv (upd2 (k_drv k) n q (Drv (Tx (k_now k) old) [] (ddisc d))) k))
      else if k_sfast k s then
        Ok (store (set_fastq (upd (k_fastq k) n true) (set_sigq (upd (k_sigq k) s true)
              (set_delta true (set_ddrvq (k_ddrvq k ++ [TFastAll s]) k)))))
      else
        Ok (store (set_fastq (upd (k_fastq k) n true)
              (set_delta true (set_ddrvq (k_ddrvq k ++ [TFast n]) k))))
    end
  | _ => Fault
  end.

(* Modelled: src/rt/model.c:2644-2673, the general path of sched_driver. *)
Definition sched_general (n : nexus) (p : proc) (after reject : N) (v : V) (k : kst) : res kst :=
  if existsb (Nat.eqb p) (sources D n) then
    let d := k_drv k n p in
    do! d1 <-
      (if k_nfast k n && (is_first n p && k_fastq k n) then
         match dwave d with
         | [] => Ok (Drv (dcur d) [Tx (k_now k) (tval (dcur d))] (ddisc d))
         | _ :: _ => Fault
         end
       else Ok d);
    let k1 := set_nfast (upd (k_nfast k) n false) k in
    let '(d2, queue) := assign eqv (k_now k) d1 after reject v in
    let k2 := set_drv (upd2 (k_drv k1) n p d2) k1 in
    if queue then deltaq_insert_driver after n p k2 else Ok k2
  else Fault.

(* Modelled: src/rt/model.c:2604-2674 (sched_driver). *)
Definition sched_driver (n : nexus) (p : proc) (after reject : N) (v : V) (k : kst) : res kst :=
  if (after =? 0)%N && k_nfast k n then sched_fast n v k else sched_general n p after reject v k.

(* Modelled: src/rt/model.c:3870-3930, 4030-4067.  A failed check_postponed or
   check_reject_limit (src/rt/model.c:3419-3433) ends the simulation. *)
Definition exec_act (p : proc) (k : kst) (a : act) : res kst :=
  match a with
  | ADrive n after reject v =>
    if postponed D p && (after =? 0)%N then Fault
    else if (after <? reject)%N then Fault
    else sched_driver n p after reject v k
  | AWait delay => deltaq_insert_proc delay p k
  | ASense n => Ok (set_sense (upd (k_sense k) n (sched_event (k_sense k n) p)) k)
  | AClear n => Ok (set_sense (upd (k_sense k) n (clear_event (k_sense k n) p)) k)
  end.

Fixpoint exec_acts (p : proc) (k : kst) (l : list act) : res kst :=
  match l with
  | [] => Ok k
  | a :: l' => do! k1 <- exec_act p k a; exec_acts p k1 l'
  end.

(* Modelled: src/rt/model.c:2727-2735 (async_run_process) and 951-998 (run_process). *)
Definition async_run_process (acts : proc -> list act) (p : proc) (k : kst) : res kst :=
  if k_pend k p then exec_acts p (set_pend (upd (k_pend k) p false) k) (acts p) else Fault.

(* Modelled: src/rt/model.c:2746-2752 (heap_delete_proc_cb). *)
Definition is_proc (p : proc) (_ : N) (e : event) : bool :=
  match e with EProc q => q =? p | EDriver _ _ => false end.

(* Modelled: src/rt/model.c:2806-2871 (wakeup_one), the case of a process. *)
Definition wakeup (p : proc) (k : kst) : res kst :=
  if k_pend k p then Ok k
  else
    let k1 := if postponed D p then set_postq (k_postq k ++ [p]) k
              else set_procq (k_procq k ++ [p]) k in
    do! k2 <-
      (if k_delayed k1 p then
         do! (_, h) <- heap_delete (is_proc p) (k_evq k1);
         Ok (set_delayed (upd (k_delayed k1) p false) (set_evq h k1))
       else Ok k1);
    set_pending p k2.

Fixpoint wakeup_all (ws : list (option obj)) (k : kst) : res kst :=
  match ws with
  | [] => Ok k
  | Some p :: ws' => do! k1 <- wakeup p k; wakeup_all ws' k1
  | None :: ws' => wakeup_all ws' k
  end.

(* Modelled: src/rt/model.c:2873-2895 (notify_event). *)
Definition notify_event (n : nexus) (k : kst) : res kst :=
  let fresh := match k_stamp k n with
               | Some (t, i) => negb ((t =? k_now k)%N && (i =? k_iter k)%Z)
               | None => true
               end in
  if fresh then
    wakeup_all (slots (k_sense k n)) (set_stamp (upd (k_stamp k) n (Some (k_now k, k_iter k))) k)
  else Fault.

(* Modelled: src/rt/model.c:2897-2910 (put_effective). *)
Definition put_effective (n : nexus) (v : V) (k : kst) : res kst :=
  if eqv (k_val k n) v then Ok k
  else notify_event n (set_val (upd (k_val k) n v) (set_last (upd (k_last k) n (k_val k n)) k)).

(* Modelled: src/rt/model.c:1956-2049 (calculate_driving_value) for drivers only. *)
Definition calculate_driving (n : nexus) (k : kst) : V :=
  match sources D n with
  | [] => init D n
  | l => resolve D n (map (cur_value k n) (filter (fun p => negb (ddisc (k_drv k n p))) l))
  end.

(* Modelled: src/rt/model.c:2961-2969 (defer_driving_update). *)
Definition defer_driving_update (n : nexus) (k : kst) : res kst :=
  if k_npend k n then Ok k
  else
    do! h <- heap_insert (k_drvheap k) (rank D n) n;
    Ok (set_npend (upd (k_npend k) n true) (set_drvheap h k)).

(* Modelled: src/rt/model.c:2971-3004 (update_driving), no outputs. *)
Definition update_driving (n : nexus) (safe : bool) (k : kst) : res kst :=
  if (length (sources D n) =? 1) || safe then
    let k1 := set_npend (upd (k_npend k) n false) k in
    put_effective n (calculate_driving n k1) k1
  else defer_driving_update n k.

(* Modelled: src/rt/model.c:3006-3025 (update_driver). *)
Definition run_update (n : nexus) (p : proc) (k : kst) : res kst :=
  let '(d, active) := update_driver (k_now k) (k_drv k n p) in
  let k1 := set_drv (upd2 (k_drv k) n p d) k in
  if active then update_driving n false k1 else Ok k1.

(* Modelled: src/rt/model.c:3027-3044 (fast_update_driver). *)
Definition fast_update_driver (n : nexus) (k : kst) : res kst :=
  do! k1 <-
    (if k_nfast k n then
       match sources D n with
       | [q] => match dwave (k_drv k n q) with [] => update_driving n false k | _ :: _ => Fault end
       | _ => Fault
       end
     else match sources D n with q :: _ => run_update n q k | [] => Fault end);
  if k_fastq k1 n then Ok (set_fastq (upd (k_fastq k1) n false) k1) else Fault.

(* The loop of fast_update_all_drivers, src/rt/model.c:3055-3060; also the count. *)
Fixpoint fast_loop (ns : list nexus) (count : nat) (k : kst) : res (nat * kst) :=
  match ns with
  | [] => Ok (count, k)
  | n :: ns' =>
    if k_fastq k n then do! k1 <- fast_update_driver n k; fast_loop ns' (S count) k1
    else fast_loop ns' count k
  end.

(* Modelled: src/rt/model.c:3046-3066 (fast_update_all_drivers). *)
Definition fast_update_all_drivers (s : signal) (k : kst) : res kst :=
  if k_sfast k s && k_sigq k s then
    do! (count, k1) <- fast_loop (nexuses D s) 0 (set_sigq (upd (k_sigq k) s false) k);
    Ok (if count <? length (nexuses D s) / 2 then set_sfast (upd (k_sfast k1) s false) k1 else k1)
  else Fault.

Definition run_task (t : task) (k : kst) : res kst :=
  match t with
  | TUpdate n p => run_update n p k
  | TFast n => fast_update_driver n k
  | TFastAll s => fast_update_all_drivers s k
  end.

Fixpoint run_tasks (l : list task) (k : kst) : res kst :=
  match l with
  | [] => Ok k
  | t :: l' => do! k1 <- run_task t k; run_tasks l' k1
  end.

Fixpoint run_procs (acts : proc -> list act) (l : list proc) (k : kst) : res kst :=
  match l with
  | [] => Ok k
  | p :: l' => do! k1 <- async_run_process acts p k; run_procs acts l' k1
  end.

(* Modelled: src/rt/model.c:3270-3303, the events of this time; [fuel] bounds the loop. *)
Fixpoint take_events (fuel : nat) (k : kst) : res kst :=
  match fuel with
  | O => Fault
  | S fuel' =>
    do! (e, h) <- heap_extract_min (k_evq k);
    let k1 := set_evq h k in
    do! k2 <-
      match e with
      | EProc p =>
        if k_delayed k1 p then
          do! k2 <- set_pending p (set_delayed (upd (k_delayed k1) p false) k1);
          Ok (set_procq (k_procq k2 ++ [p]) k2)
        else Fault
      | EDriver n p => Ok (set_drvq (k_drvq k1 ++ [TUpdate n p]) k1)
      end;
    if hsize (k_evq k2) =? 0 then Ok k2
    else
      do! t <- heap_min_key (k_evq k2);
      if (k_now k2 <? t)%N then Ok k2 else take_events fuel' k2
  end.

(* Modelled: src/rt/model.c:3307-3310, the deferred nexuses; [fuel] bounds the loop. *)
Fixpoint drain_driving (fuel : nat) (k : kst) : res kst :=
  if hsize (k_drvheap k) =? 0 then Ok k
  else
    match fuel with
    | O => Fault
    | S fuel' =>
      do! (n, h) <- heap_extract_min (k_drvheap k);
      do! k1 <- update_driving n true (set_drvheap h k);
      drain_driving fuel' k1
    end.

(* What a cycle shows: the processes run before and after the end of the delta cycles, in
   order. *)
Record report := Report { ran : list proc; ran_late : list proc }.

(* Modelled: src/rt/model.c:3241-3264, up to the swap of the queues. *)
Definition begin_cycle (k : kst) : res kst :=
  do! k1 <-
    (if k_delta k then Ok (set_iter (k_iter k + 1)%Z (set_delta false k))
     else
       do! t <- heap_min_key (k_evq k);
       Ok (set_iter 0%Z (set_now t (set_delta false k))));
  let k2 := set_dprocq (k_procq k1) (set_procq (k_dprocq k1) k1) in
  Ok (set_ddrvq (k_drvq k2) (set_drvq (k_ddrvq k2) k2)).

(* Modelled: src/rt/model.c:3305, deferq_run on the queue of drivers, with its assertion. *)
Definition run_drvq (k : kst) : res kst :=
  do! k1 <- run_tasks (k_drvq k) k;
  if length (k_drvq k1) =? length (k_drvq k) then Ok (set_drvq [] k1) else Fault.

(* Modelled: src/rt/model.c:3328-3332.  [shuffle] is the effect of deferq_shuffle, the
   identity without --shuffle. *)
Definition run_procq (shuffle : list proc -> list proc) (acts : proc -> list act) (k : kst)
  : res (list proc * kst) :=
  let q := shuffle (k_procq k) in
  do! k1 <- run_procs acts q (set_procq q k);
  if length (k_procq k1) =? length q then Ok (q, set_procq [] k1) else Fault.

(* Modelled: src/rt/model.c:3337-3346. *)
Definition run_postq (acts : proc -> list act) (k : kst) : res (list proc * kst) :=
  if k_delta k then Ok ([], k)
  else
    let q := k_postq k in
    do! k1 <- run_procs acts q k;
    if length (k_postq k1) =? length q then Ok (q, set_postq [] k1) else Fault.

(* Modelled: src/rt/model.c:3241-3349 (model_cycle). *)
Definition model_cycle (shuffle : list proc -> list proc) (acts : proc -> list act) (k : kst)
  : res (report * kst) :=
  do! k1 <- begin_cycle k;
  do! k2 <- (if k_delta k then Ok k1 else take_events (hsize (k_evq k1)) k1);
  do! k3 <- run_drvq k2;
  do! k4 <- drain_driving (hsize (k_drvheap k3)) k3;
  do! (q1, k5) <- run_procq shuffle acts k4;
  do! (q2, k6) <- run_postq acts k5;
  Ok (Report q1 q2, k6).

(* Modelled: src/rt/model.c:3351-3366 (should_stop_now), without force_stop. *)
Definition should_stop (stop_time : N) (k : kst) : bool :=
  if k_delta k then false
  else if hsize (k_evq k) =? 0 then true
  else match heap_min_key (k_evq k) with Ok t => (stop_time <? t)%N | Fault => true end.

(* Modelled: src/rt/model.c:2371-2441 (model_reset) and 448-490 (model_new): time zero, the
   drivers hold the default value of their signal, every process is to run.  [sfast] are the
   signals with NET_F_FAST_DRIVER, any set. *)
Definition kernel_init (jev : nat -> N * event) (jdrv : nat -> N * nexus) (sfast : signal -> bool) : kst :=
  Kst 0 (-1) true (heap_new jev 512) (procs D) [] [] [] [] (fun p => existsb (Nat.eqb p) (procs D))
      (fun _ => false) (fun n _ => Drv (Tx 0 (init D n)) [] false) (fun _ => false) (fun _ => false)
      (fun n => length (sources D n) <=? 1) sfast
      (fun n => match sources D n with [] => init D n | l => resolve D n (map (fun _ => init D n) l) end)
      (init D) (fun _ => None) (fun _ => false) (heap_new jdrv 64)
      (fun n => fold_left sched_event (static D n) PNone).

(* model_run: cycles while should_stop_now is false; one element of [script] says what the
   processes do in one cycle.  The result lists the reports with the state after each cycle. *)
Fixpoint model_run (stop_time : N) (script : list ((list proc -> list proc) * (proc -> list act)))
  (k : kst) : res (list (report * kst)) :=
  match script with
  | [] => Ok []
  | (sh, acts) :: script' =>
    if should_stop stop_time k then Ok []
    else
      do! (r, k1) <- model_cycle sh acts k;
      do! l <- model_run stop_time script' k1;
      Ok ((r, k1) :: l)
  end.
End Kernel.
Arguments design : clear implicits.
Arguments kst : clear implicits.
Arguments act : clear implicits.
