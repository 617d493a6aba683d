(* An ideal event-driven simulator in the style of IEEE 1076 section 14.7.5: no queues and no
   flags, only waveforms, timeouts, sensitivity and values.  One cycle is a function of the
   time it takes place at and of what the processes that run in it do. *)
From Coq Require Import List Arith NArith ZArith Bool Permutation.
From Verif Require Import Base KernelModel.
Import ListNotations.
Open Scope nat_scope.

Section Spec.
Context {V : Type} (eqv : V -> V -> bool).
Context (D : design V).

Record abs := Abs {
  a_now : N;
  a_delta : bool;                              (* a zero delay was used in the last cycle *)
  a_cur : nexus -> proc -> V;                  (* the driver's latest matured transaction *)
  a_wave : nexus -> proc -> list (N * V);      (* its projected output waveform *)
  a_val : nexus -> V;                          (* the value of the signal *)
  a_timeout : proc -> option N;                (* when the process resumes at the latest *)
  a_sens : nexus -> proc -> bool;              (* an event on n resumes p *)
  a_late : proc -> bool                        (* postponed and resumed, but not yet run *)
}.

(* ---- the first half of a cycle at time T: signals are updated, processes resume ---- *)

Definition matures (T : N) (w : list (N * V)) : bool :=
  match w with (t, _) :: _ => (t =? T)%N | [] => false end.
Definition new_cur (T : N) (a : abs) (n : nexus) (p : proc) : V :=
  match a_wave a n p with (t, v) :: _ => if (t =? T)%N then v else a_cur a n p | [] => a_cur a n p end.
Definition new_wave (T : N) (a : abs) (n : nexus) (p : proc) : list (N * V) :=
  match a_wave a n p with (t, v) :: w => if (t =? T)%N then w else (t, v) :: w | [] => [] end.
(* A signal with an active driver takes the resolved value of all its drivers. *)
Definition new_val (T : N) (a : abs) (n : nexus) : V :=
  if existsb (fun p => matures T (a_wave a n p)) (sources D n)
  then resolve D n (map (new_cur T a n) (sources D n)) else a_val a n.
(* An event is a change of value. *)
Definition event_on (T : N) (a : abs) (n : nexus) : bool := negb (eqv (a_val a n) (new_val T a n)).

Definition timed_out (T : N) (a : abs) (p : proc) : bool :=
  match a_timeout a p with Some t => (t =? T)%N | None => false end.
Definition woken (T : N) (a : abs) (p : proc) : bool :=
  existsb (fun n => event_on T a n && a_sens a n p) (nets D).

(* Who runs with the ordinary processes.  A postponed process that is resumed by a timeout
   also does: this is what the code does, C10_postponed_timeout_refuted shows it. *)
Definition runs_first (T : N) (a : abs) (p : proc) : bool :=
  timed_out T a p || (woken T a p && negb (postponed D p)).
(* Who runs at the end of the last delta cycle. *)
Definition runs_late (T : N) (a : abs) (p : proc) : bool :=
  a_late a p || (woken T a p && postponed D p && negb (timed_out T a p)).

Definition advance (T : N) (a : abs) : abs :=
  Abs T false (new_cur T a) (new_wave T a) (new_val T a)
      (fun p => if timed_out T a p || woken T a p then None else a_timeout a p)
      (a_sens a) (runs_late T a).

(* ---- the second half: processes run ---- *)

(* Assigning [v] after [after] with pulse rejection limit [reject]: everything projected for
   that time or later goes, and within the rejection limit everything with another value. *)
Definition assign_to (now after reject : N) (v : V) (w : list (N * V)) : list (N * V) :=
  filter (fun tv => (fst tv <? now + after)%N && ((fst tv + reject <? now + after)%N || eqv (snd tv) v)) w
  ++ [(now + after, v)]%N.

Definition wave_after (now : N) (n : nexus) (l : list (act V)) (w : list (N * V)) : list (N * V) :=
  fold_left (fun w a => match a with
                        | ADrive n' after reject v => if n' =? n then assign_to now after reject v w else w
                        | _ => w
                        end) l w.
Definition timeout_after (now : N) (l : list (act V)) (t : option N) : option N :=
  fold_left (fun t a => match a with AWait d => Some (now + d)%N | _ => t end) l t.
Definition sens_after (n : nexus) (l : list (act V)) (s : bool) : bool :=
  fold_left (fun s a => match a with
                        | ASense n' => if n' =? n then true else s
                        | AClear n' => if n' =? n then false else s
                        | _ => s
                        end) l s.
Definition zero_delay (a : act V) : bool :=
  match a with ADrive _ after _ _ => (after =? 0)%N | AWait d => (d =? 0)%N | _ => false end.

(* The state after every process [p] has done [h p]; the order of the processes is irrelevant. *)
Definition after_acts (a : abs) (h : proc -> list (act V)) : abs :=
  Abs (a_now a) (a_delta a || existsb (fun p => existsb zero_delay (h p)) (procs D))
      (a_cur a) (fun n p => wave_after (a_now a) n (h p) (a_wave a n p)) (a_val a)
      (fun p => timeout_after (a_now a) (h p) (a_timeout a p))
      (fun n p => sens_after n (h p) (a_sens a n p)) (a_late a).

Definition done_by (who : proc -> bool) (acts : proc -> list (act V)) (p : proc) : list (act V) :=
  if who p then acts p else [].
Definition no_late (a : abs) : abs :=
  Abs (a_now a) (a_delta a) (a_cur a) (a_wave a) (a_val a) (a_timeout a) (a_sens a) (fun _ => false).

(* The whole cycle at time T: the new state and who ran first and late.  Postponed processes
   wait as long as another delta cycle follows. *)
Definition ideal_cycle (T : N) (acts : proc -> list (act V)) (a : abs)
  : abs * (proc -> bool) * (proc -> bool) :=
  let first := runs_first T a in
  let late := runs_late T a in
  let a1 := after_acts (advance T a) (done_by first acts) in
  if a_delta a1 then (a1, first, fun _ => false)
  else (after_acts (no_late (advance T a)) (done_by (fun p => first p || late p) acts), first, late).

(* The times a cycle may take place at: now if there was a zero delay; otherwise a later
   time, and nothing is left behind. *)
Definition due (a : abs) (T : N) : Prop :=
  (a_delta a = true -> T = a_now a) /\
  (a_delta a = false -> (a_now a < T)%N /\
     (forall n p t v, In p (sources D n) -> In (t, v) (a_wave a n p) -> (T <= t)%N) /\
     (forall p t, a_timeout a p = Some t -> (T <= t)%N)).

(* ---- what processes may do ---- *)

(* [sens]: what the process is sensitive to; [waited]: it has already executed a wait. *)
Fixpoint legal_acts (T : N) (p : proc) (sens : nexus -> bool) (waited : bool) (l : list (act V)) : Prop :=
  match l with
  | [] => True
  | ADrive n after reject v :: l' =>
    In p (sources D n) /\ (reject <= after)%N /\ (T + after < 2 ^ 63)%N /\
    (postponed D p = true -> after <> 0%N) /\ legal_acts T p sens waited l'
  | AWait d :: l' => waited = false /\ (T + d < 2 ^ 63)%N /\ legal_acts T p sens true l'
  | ASense n :: l' => In n (nets D) /\ sens n = false /\ legal_acts T p (upd sens n true) waited l'
  | AClear n :: l' => legal_acts T p (upd sens n false) waited l'
  end.

Definition legal_cycle (T : N) (acts : proc -> list (act V)) (a : abs) : Prop :=
  forall p, runs_first T a p || runs_late T a p = true ->
            legal_acts T p (fun n => a_sens a n p) false (acts p).

(* A well-formed design. *)
Record wf_design : Prop := {
  wf_procs : NoDup (procs D);
  wf_sources : forall n p, In p (sources D n) -> In n (nets D) /\ In p (procs D);
  wf_sources_nodup : forall n, NoDup (sources D n);
  wf_sig : forall n, In n (nets D) -> In n (nexuses D (sig D n));
  wf_nexuses : forall s n, In n (nexuses D s) -> sig D n = s;
  wf_nexuses_nodup : forall s, NoDup (nexuses D s);
  wf_rank : forall n, (rank D n < 2 ^ 64)%N;
  wf_static_nodup : forall n, NoDup (static D n);
  wf_static : forall n p, In p (static D n) -> In n (nets D) /\ In p (procs D)
}.

Definition ideal_init : abs :=
  Abs 0 true (fun n _ => init D n) (fun _ _ => [])
      (fun n => match sources D n with [] => init D n | l => resolve D n (map (fun _ => init D n) l) end)
      (fun p => if existsb (Nat.eqb p) (procs D) then Some 0%N else None)
      (fun n p => existsb (Nat.eqb p) (static D n)) (fun _ => false).

(* The time of the kernel's next cycle. *)
Definition next_time (k : kst V) : N :=
  if k_delta k then k_now k
  else match HeapModel.heap_min_key (k_evq k) with Ok t => t | Fault => 0%N end.

(* The kernel and the ideal simulator after the same cycles: any number of cycles in which the
   processes did any legal things, with any order of the processes. *)
Inductive reach : abs -> kst V -> Prop :=
| reach_init jev jdrv sfast : reach ideal_init (kernel_init D jev jdrv sfast)
| reach_cycle a k sh acts r k' :
    reach a k -> (forall l, Permutation l (sh l)) ->
    legal_cycle (next_time k) acts a ->
    model_cycle eqv D sh acts k = Ok (r, k') ->
    reach (fst (fst (ideal_cycle (next_time k) acts a))) k'.
End Spec.
