(* Model of work queues and asynchronous tasks, src/thread.c:906-999 and 1131-1248.

   One work queue is used by the main thread, which is thread 0, and by any number
   of other threads.  A step is one access to a shared word, or one call that
   cannot overlap another access to the same words.  Memory is sequentially
   consistent.

   Simplifications.  The global queue and the per-thread queues form one pool from
   which a thread may take any task (each task once, see C39).  The 32-bit counts
   and epochs are unbounded.  Calls that the code rejects with an assertion
   (submitting while the queue runs, starting twice, draining without starting) do
   nothing.  Sleeping and waking of workers is left out. *)
From Coq Require Import List Arith ZArith Bool.
From Verif Require Import Base.
Import ListNotations.

(* task_t, src/thread.c:140-145: a task of the work queue, or one of async_do,
   whose workq is null. *)
Inductive task := Work (k : nat) | Async (k : nat).
Definition is_work (x : task) : bool := match x with Work _ => true | Async _ => false end.

(* entryq_t, src/thread.c:174-189: tasks, the write pointer and the number of
   completed tasks, each with the epoch it belongs to. *)
Record entryq := EntryQ { tasks : list task; wcount : nat; wepoch : nat; ccount : nat; cepoch : nat }.
Definition empty_q : entryq := EntryQ [] 0 0 0 0.

Inductive status := IDLE | START.

(* What a thread executing a task does next: execute_task, src/thread.c:906-921. *)
Inductive xpc :=
| XNone
| XRun (x : task)             (* call the function *)
| XLoad                       (* load comp and epoch *)
| XStore (c e : nat)          (* store comp *)
| XDec.                       (* decrement async_pending *)

(* What the main thread does next in workq_drain: workq_outstanding,
   src/thread.c:1176-1198. *)
Inductive mpc :=
| MOut                                       (* not in drain *)
| MDrain                                     (* between two scans *)
| MScanW (e m i : nat) (acc : Z)             (* load wptr of thread i *)
| MScanC (e m i : nat) (acc : Z).            (* load comp of thread i *)

(* [submitted] and [done] are histories: the tasks given to workq_do or async_do
   and the tasks whose function was called.  [drained] counts completed drains. *)
Record sys := Sys {
  epoch : nat; maxthread : nat; stat : status; entry : nat -> entryq;
  maxid : nat; pool : list task; exec : nat -> xpc; main : mpc;
  async_pending : Z; submitted : list task; done : list task; drained : nat }.

Section Queue.
Variable parallel : bool.      (* wq->parallel *)
Variable max_workers : nat.

(* workq_new, src/thread.c:938-950 *)
Definition init : sys :=
  Sys 1 0 IDLE (fun _ => empty_q) 0 [] (fun _ => XNone) MOut 0%Z [] [] 0.

(* workq_do by thread t, src/thread.c:971-996 *)
Definition workq_do (st : sys) (t : nat) (k : nat) : sys :=
  let q := entry st t in
  let old := if wepoch q =? epoch st then firstn (wcount q) (tasks q) else [] in
  let q' := EntryQ (old ++ [Work k]) ((if wepoch q =? epoch st then wcount q else 0) + 1) (epoch st) (ccount q) (cepoch q) in
  Sys (epoch st) (Nat.max (maxthread st) t) (stat st) (upd (entry st) t q') (maxid st) (pool st) (exec st) (main st)
      (async_pending st) (Work k :: submitted st) (done st) (drained st).

(* What the store at the end of execute_task leaves in comp. *)
Definition complete (q : entryq) (e n : nat) : entryq :=
  EntryQ (tasks q) (wcount q) (wepoch q) ((if cepoch q =? e then ccount q else 0) + n) e.

(* The loop of workq_start, src/thread.c:1142-1168: what happens to the tasks of
   thread i.  [n] counts the tasks handled so far; [e] is the epoch at the start. *)
Fixpoint start_loop (e : nat) (fuel i : nat) (n : nat) (st : sys) : res sys :=
  match fuel with
  | O => Ok st
  | S fuel' =>
    let q := entry st i in
    if wepoch q =? e then
      let ep := if n =? 0 then S (epoch st) else epoch st in
      let xs := firstn (wcount q) (tasks q) in
      if wcount q =? 0 then Fault
      else if ((i =? maxthread st) && (n =? 0) && (wcount q =? 1)) || negb parallel then
        (* run here, one after the other *)
        start_loop e fuel' (S i) (n + wcount q)
          (Sys ep (maxthread st) (stat st) (upd (entry st) 0 (complete (entry st 0) ep (wcount q))) (maxid st) (pool st)
               (exec st) (main st) (async_pending st) (submitted st) (rev xs ++ done st) (drained st))
      else
        start_loop e fuel' (S i) (n + wcount q)
          (Sys ep (maxthread st) (stat st) (entry st) (maxid st) (pool st ++ xs)
               (exec st) (main st) (async_pending st) (submitted st) (done st) (drained st))
    else start_loop e fuel' (S i) n st
  end.

Definition set_stat (st : sys) (s : status) : sys :=
  Sys (epoch st) (maxthread st) s (entry st) (maxid st) (pool st) (exec st) (main st)
      (async_pending st) (submitted st) (done st) (drained st).
Definition workq_start (st : sys) : res sys :=
  start_loop (epoch st) (S (maxthread st)) 0 0 (set_stat st START).

Definition set_exec (st : sys) (t : nat) (p : xpc) : sys :=
  Sys (epoch st) (maxthread st) (stat st) (entry st) (maxid st) (pool st) (upd (exec st) t p) (main st)
      (async_pending st) (submitted st) (done st) (drained st).
Definition set_main (st : sys) (p : mpc) : sys :=
  Sys (epoch st) (maxthread st) (stat st) (entry st) (maxid st) (pool st) (exec st) p
      (async_pending st) (submitted st) (done st) (drained st).

(* One step of execute_task on thread t. *)
Definition exec_step (st : sys) (t : nat) : sys :=
  match exec st t with
  | XNone => st
  | XRun x =>
    Sys (epoch st) (maxthread st) (stat st) (entry st) (maxid st) (pool st)
        (upd (exec st) t (if is_work x then XLoad else XDec)) (main st)
        (async_pending st) (submitted st) (x :: done st) (drained st)
  | XLoad =>
    let q := entry st t in
    set_exec st t (XStore ((if cepoch q =? epoch st then ccount q else 0) + 1) (epoch st))
  | XStore c e =>
    let q := entry st t in
    Sys (epoch st) (maxthread st) (stat st) (upd (entry st) t (EntryQ (tasks q) (wcount q) (wepoch q) c e))
        (maxid st) (pool st) (upd (exec st) t XNone) (main st)
        (async_pending st) (submitted st) (done st) (drained st)
  | XDec =>
    Sys (epoch st) (maxthread st) (stat st) (entry st) (maxid st) (pool st) (upd (exec st) t XNone) (main st)
        (async_pending st - 1)%Z (submitted st) (done st) (drained st)
  end.

(* workq_parallel_drain and workq_outstanding, src/thread.c:1176-1212: one step. *)
Definition main_step (st : sys) : res sys :=
  match main st with
  | MOut => Ok st
  | MDrain => Ok (set_main st (MScanW (epoch st) (maxid st) 0 0%Z))
  | MScanW e m i acc =>
    let q := entry st i in
    Ok (set_main st (MScanC e m i (if wepoch q =? e - 1 then (acc + Z.of_nat (wcount q))%Z else acc)))
  | MScanC e m i acc =>
    let q := entry st i in
    let acc' := if cepoch q =? e then (acc - Z.of_nat (ccount q))%Z else acc in
    if i =? m then
      if (acc' <? 0)%Z then Fault
      else if (acc' =? 0)%Z then
        (* nothing outstanding: the drain returns *)
        Ok (Sys (epoch st) (maxthread st) IDLE (entry st) (maxid st) (pool st) (exec st) MOut
                (async_pending st) (submitted st) (done st) (S (drained st)))
      else Ok (set_main st MDrain)
    else Ok (set_main st (MScanW e m (S i) acc'))
  end.

Fixpoint remove_nth {A} (i : nat) (l : list A) : list A :=
  match i, l with
  | _, [] => []
  | O, _ :: l' => l'
  | S i', x :: l' => x :: remove_nth i' l'
  end.

Inductive event :=
| Do (t k : nat)          (* workq_do on thread t *)
| Start                   (* workq_start on the main thread *)
| Drain                   (* call of workq_drain on the main thread *)
| MainStep
| AsyncDo (k : nat)       (* async_do on the main thread *)
| Spawn                   (* a new thread *)
| Take (t i : nat)        (* thread t takes the i-th task of the pool *)
| Exec (t : nat).         (* thread t goes on executing its task *)

(* A thread may take a task when it is not executing one; the main thread does so
   outside workq_outstanding only. *)
Definition may_take (st : sys) (t : nat) : bool :=
  (t <=? maxid st) && match exec st t with XNone => true | _ => false end &&
  ((negb (t =? 0)) || match main st with MScanW _ _ _ _ | MScanC _ _ _ _ => false | _ => true end).
(* The main thread is not busy with a task or a drain. *)
Definition main_free (st : sys) : bool :=
  match exec st 0, main st with XNone, MOut => true | _, _ => false end.

Definition do_event (st : sys) (e : event) : res sys :=
  match e with
  | Do t k =>
    match stat st with
    | IDLE => if (t <=? maxid st) && (negb (t =? 0) || main_free st) then Ok (workq_do st t k) else Ok st
    | START => Ok st
    end
  | Start => match stat st with IDLE => if main_free st then workq_start st else Ok st | START => Ok st end
  | Drain =>
    match stat st with
    | START =>
      if main_free st then
        if parallel then Ok (set_main st MDrain)
        else Ok (Sys (epoch st) (maxthread st) IDLE (entry st) (maxid st) (pool st) (exec st) (main st)
                     (async_pending st) (submitted st) (done st) (S (drained st)))
      else Ok st
    | IDLE => Ok st
    end
  | MainStep => match exec st 0 with XNone => main_step st | _ => Ok st end
  | AsyncDo k =>
    if main_free st then
      if max_workers =? 1 then
        Ok (Sys (epoch st) (maxthread st) (stat st) (entry st) (maxid st) (pool st) (exec st) (main st)
                (async_pending st) (Async k :: submitted st) (Async k :: done st) (drained st))
      else
        Ok (Sys (epoch st) (maxthread st) (stat st) (entry st) (maxid st) (pool st ++ [Async k]) (exec st) (main st)
                (async_pending st + 1)%Z (Async k :: submitted st) (done st) (drained st))
    else Ok st
  | Spawn =>
    Ok (Sys (epoch st) (maxthread st) (stat st) (entry st) (S (maxid st)) (pool st) (exec st) (main st)
            (async_pending st) (submitted st) (done st) (drained st))
  | Take t i =>
    if may_take st t then
      match nth_error (pool st) i with
      | Some x =>
        Ok (Sys (epoch st) (maxthread st) (stat st) (entry st) (maxid st) (remove_nth i (pool st)) (upd (exec st) t (XRun x)) (main st)
                (async_pending st) (submitted st) (done st) (drained st))
      | None => Ok st
      end
    else Ok st
  | Exec t => Ok (exec_step st t)
  end.

Fixpoint run (st : sys) (es : list event) : res sys :=
  match es with [] => Ok st | e :: es' => do! st <- do_event st e; run st es' end.
End Queue.
