(* Driving values of signals: resolution of several sources, memoised resolution
   functions, force, release and deposit (src/rt/model.c). *)
From Coq Require Import List Arith Bool.
From Verif Require Import Base.
Import ListNotations.

(* ---- calling a resolution function ---- *)

(* The outcome of calling user code through jit_try_call: it returns a literal,
   or it aborts.  [clean] and [status0] say what the exit status is afterwards:
   a call that returns may have reported an assertion (not clean); a call that
   aborts may leave the status zero (std.env.stop and finish without a status)
   or nonzero.  Modelled: src/jit/jit-core.c:739-757 (jit_try_call), 944-975
   (jit_abort, jit_abort_with_status), src/rt/stdenv.c:205-222,
   src/rt/model.c:3665-3674 (model_exit_status).  Simplification: a resolution
   function is pure, so its outcome is a function of the values it is given. *)
Inductive outcome := Returns (r : nat) (clean : bool) | Aborts (status0 : bool).
Definition resfn := list nat -> outcome.

(* Modelled: src/rt/structs.h:176-181 (res_memo_t). *)
Record memo := Memo { r_memo : bool; r_ident : bool; tab1 : nat -> nat; tab2 : nat -> nat -> nat }.

(* The loops of memo_resolution_fn: one call, with the exit status threaded
   through ([ok]: still zero).  Modelled: src/rt/model.c:1036-1061. *)
Definition memo_call2 (f : resfn) (nlits : nat) (st : bool * (nat -> nat -> nat)) (ij : nat * nat)
  : res (bool * (nat -> nat -> nat)) :=
  let '(ok, t) := st in
  let '(i, j) := ij in
  match f [i; j] with
  | Returns r clean =>
    if r <? nlits
    then Ok (ok && clean, fun a b => if (a =? i) && (b =? j) then r else t a b)
    else Fault
  | Aborts status0 => Ok (ok && status0, t)
  end.

Definition memo_call1 (f : resfn) (st : bool * bool * (nat -> nat)) (i : nat)
  : bool * bool * (nat -> nat) :=
  let '(ok, ident, t) := st in
  match f [i] with
  | Returns r clean => (ok && clean, ident && (r =? i), upd t i r)
  | Aborts status0 => (ok && status0, ident, t)
  end.

Fixpoint foldr_res {A B} (f : A -> B -> res A) (a : A) (l : list B) : res A :=
  match l with
  | [] => Ok a
  | b :: l' => do! a' <- f a b; foldr_res f a' l'
  end.

(* Modelled: src/rt/model.c:1012-1078 (memo_resolution_fn); [ok0] is whether the
   exit status was zero before.  Simplification: the table of memos keyed by
   function handle is the finite map of HashModel.v and is not repeated here;
   storing a result in an int8_t is exact for at most 16 literals. *)
Definition memo_resolution_fn (f : resfn) (nlits : nat) (ok0 : bool) : res memo :=
  let none := Memo false false (fun _ => 0) (fun _ _ => 0) in
  if (nlits =? 0) || (16 <? nlits) then Ok none
  else
    let lits := seq 0 nlits in
    do! (ok, t2) <- foldr_res (memo_call2 f nlits) (ok0, fun _ _ => 0) (list_prod lits lits);
    let '(ok, ident, t1) := fold_left (memo_call1 f) lits (ok, true, fun _ => 0) in
    if ok then Ok (Memo true ident t1 t2) else Ok (Memo false false t1 t2).

(* ---- sources of a signal ---- *)

(* A source of a nexus: a driver with its current value (one number per element
   of the nexus), or a pseudo-source for force or deposit.
   Modelled: src/rt/structs.h rt_source_t, fields tag, disconnected and value.
   Ports, conversions and implicit signals are not modelled here. *)
Inductive kind := Driver | Forcing | Deposit.
Record source := Src { skind : kind; sdisc : bool; sval : list nat }.

(* What the calculation does: a new driving value, or the simulation is stopped
   because the resolution function aborted. *)
Inductive driving := Put (v : list nat) | Stop.

(* source_value: a disconnected driver has none.
   Modelled: src/rt/model.c:1793-1824. *)
Definition source_value (s : source) : option (list nat) :=
  match skind s with
  | Driver => if sdisc s then None else Some (sval s)
  | Forcing | Deposit => None
  end.

Fixpoint values_of (ss : list source) : list (list nat) :=
  match ss with
  | [] => []
  | s :: ss' => match source_value s with
                | Some v => v :: values_of ss'
                | None => values_of ss'
                end
  end.

(* The general case: one call per element of the nexus.
   Modelled: src/rt/model.c:1923-1952 (CALL_RESOLUTION_FN). *)
Definition call_elem (f : resfn) (vs : list (list nat)) (j : nat) : outcome :=
  f (map (fun v => nth j v 0) vs).

Fixpoint collect (l : list outcome) : driving :=
  match l with
  | [] => Put []
  | Returns r _ :: l' => match collect l' with Put v => Put (r :: v) | Stop => Stop end
  | Aborts _ :: _ => Stop
  end.

Definition call_general (f : resfn) (vs : list (list nat)) (width : nat) : driving :=
  collect (map (call_elem f vs) (seq 0 width)).

(* Modelled: src/rt/model.c:1826-1955 (call_resolution), for a scalar resolution
   function; [vs] are the values of the connected sources in chain order, so
   nonnull is its length.  Composite resolution (R_COMPOSITE) is not modelled. *)
Definition call_resolution (f : resfn) (m : memo) (width : nat) (vs : list (list nat)) : driving :=
  match vs with
  | [v0] =>
    if r_ident m then Put v0
    else if r_memo m then Put (map (fun j => tab1 m (nth j v0 0)) (seq 0 width))
    else call_general f vs width
  | [v0; v1] =>
    if r_memo m then Put (map (fun j => tab2 m (nth j v0 0) (nth j v1 0)) (seq 0 width))
    else call_general f vs width
  | _ => call_general f vs width
  end.

(* A nexus: its sources in chain order, the signal's resolution function (if it
   has one) with its memo, whether the signal is of kind register, its initial
   value and its current value. *)
Record nexus := Nexus {
  n_width : nat; n_res : option (resfn * memo); n_register : bool;
  n_initial : list nat; n_value : list nat; n_sources : list source }.

(* The scan of the sources in calculate_driving_value.  [inl v]: a force or
   deposit decides; [inr tt]: the drivers decide.  A deposit is used up, so the
   updated chain is returned too.  Modelled: src/rt/model.c:1971-2000. *)
Fixpoint scan (ss : list source) : option (list nat) * list source :=
  match ss with
  | [] => (None, [])
  | s :: ss' =>
    if sdisc s then let '(r, ss'') := scan ss' in (r, s :: ss'')
    else match skind s with
         | Forcing => (Some (sval s), ss)
         | Deposit => (Some (sval s), Src Deposit true (sval s) :: ss')
         | Driver => let '(r, ss'') := scan ss' in (r, s :: ss'')
         end
  end.

Definition is_pseudo (k : kind) : bool := match k with Driver => false | _ => true end.

(* Modelled: src/rt/model.c:1956-2049 (calculate_driving_value) followed by
   put_driving and put_effective (2897-2962) for a signal whose effective value
   is its driving value. *)
Definition calculate (n : nexus) : option nexus :=
  let put v ss := Some (Nexus (n_width n) (n_res n) (n_register n) (n_initial n) v ss) in
  match n_sources n with
  | [] => put (n_initial n) []
  | first :: _ =>
    let '(r, ss) := scan (n_sources n) in
    match r with
    | Some v => put v ss
    | None =>
      let vs := values_of ss in
      match vs, n_res n with
      | [], None => put (if n_register n then n_value n else n_initial n) ss
      | [], Some (f, m) =>
        if n_register n then put (n_value n) ss
        else if is_pseudo (skind first) then put (n_initial n) ss
        else match call_resolution f m (n_width n) vs with
             | Put v => put v ss
             | Stop => None
             end
      | v0 :: _, None => put v0 ss
      | _ :: _, Some (f, m) =>
        match call_resolution f m (n_width n) vs with
        | Put v => put v ss
        | Stop => None
        end
      end
    end
  end.

Definition with_sources (n : nexus) (ss : list source) : nexus :=
  Nexus (n_width n) (n_res n) (n_register n) (n_initial n) (n_value n) ss.

(* get_pseudo_source followed by the stores in force_signal, release_signal and
   deposit_signal: the first source of that kind, or a new one at the end of the
   chain.  Modelled: src/rt/model.c:1918-1932 (get_pseudo_source), 1225-1281
   (add_source), 3444-3527.  A new source starts with a zero value. *)
Definition kind_eqb (a b : kind) : bool :=
  match a, b with
  | Driver, Driver | Forcing, Forcing | Deposit, Deposit => true
  | _, _ => false
  end.

Fixpoint set_pseudo (k : kind) (g : source -> source) (zero : list nat) (ss : list source) : list source :=
  match ss with
  | [] => [g (Src k false zero)]
  | s :: ss' => if kind_eqb (skind s) k then g s :: ss' else s :: set_pseudo k g zero ss'
  end.

Definition force (n : nexus) (v : list nat) : nexus :=
  with_sources n (set_pseudo Forcing (fun _ => Src Forcing false v) (repeat 0 (n_width n)) (n_sources n)).
Definition release (n : nexus) : nexus :=
  with_sources n (set_pseudo Forcing (fun s => Src Forcing true (sval s)) (repeat 0 (n_width n)) (n_sources n)).
Definition deposit (n : nexus) (v : list nat) : nexus :=
  with_sources n (set_pseudo Deposit (fun _ => Src Deposit false v) (repeat 0 (n_width n)) (n_sources n)).

(* The k-th driver of the nexus takes a new value ([Some]) or is disconnected
   ([None]).  Modelled: the stores of update_driver, src/rt/model.c:3011-3024. *)
Fixpoint set_driver (k : nat) (x : option (list nat)) (ss : list source) : list source :=
  match ss with
  | [] => []
  | s :: ss' =>
    match skind s, k with
    | Driver, 0 => Src Driver (match x with None => true | Some _ => false end)
                       (match x with Some v => v | None => sval s end) :: ss'
    | Driver, S k' => s :: set_driver k' x ss'
    | _, _ => s :: set_driver k x ss'
    end
  end.

(* Histories.  Forcing, releasing and depositing queue a recalculation for the
   next delta cycle ([Delta], async_pseudo_source, src/rt/model.c:3075-3085);
   a driver update recalculates at once (update_driving, 2971-2979). *)
Inductive nop := OForce (v : list nat) | ORelease | ODeposit (v : list nat)
               | ODriver (k : nat) (x : option (list nat)) | ODelta.

Definition nstep (n : nexus) (op : nop) : option nexus :=
  match op with
  | OForce v => Some (force n v)
  | ORelease => Some (release n)
  | ODeposit v => Some (deposit n v)
  | ODriver k x => calculate (with_sources n (set_driver k x (n_sources n)))
  | ODelta => calculate n
  end.

Fixpoint nrun (n : nexus) (ops : list nop) : option nexus :=
  match ops with
  | [] => Some n
  | op :: ops' => match nstep n op with Some n' => nrun n' ops' | None => None end
  end.
