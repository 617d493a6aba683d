(* C14, C15: resolution, memoised resolution functions, force, release and
   deposit (src/rt/model.c). *)
From Coq Require Import List Arith Bool Lia.
From Verif Require Import Base ResolveModel ResolveSpec ResolveProofs.
Import ListNotations.

(* A resolution function of an enumeration type with [nlits] literals. *)
Definition returns_literals (f : resfn) (nlits : nat) : Prop :=
  forall args r c, f args = Returns r c -> r < nlits.

(* Memoisation always succeeds, and for any number of connected drivers of any
   width, whenever the resolution function returns a value for every element,
   that is the value the signal gets. *)
Theorem C14_memo_equals_call :
  forall f nlits ok0, returns_literals f nlits ->
    exists m, memo_resolution_fn f nlits ok0 = Ok m /\
      (forall width drivers v,
         Forall (typed width nlits) drivers ->
         resolves_to f width drivers v ->
         call_resolution f m width drivers = Put v) /\
      (r_ident m = true -> forall i r c, i < nlits -> f [i] = Returns r c -> r = i).
Proof.
  intros f nlits ok0 RL. destruct (memo_total f nlits ok0) as [m M].
  { intros i j r c E. eapply RL. exact E. }
  exists m. split; [exact M|]. split.
  - intros w ds v T R. eapply memo_resolves; eassumption.
  - intros I i r c L E. apply memo_correct in M. destruct (mo_i _ _ _ M I) as [_ H]. eapply H; eassumption.
Qed.

(* If moreover the function never ends the simulation with a zero exit status,
   the simulation is stopped exactly when some call aborts. *)
Theorem C14_memo_stops_when_call_aborts :
  forall f nlits ok0 m width drivers,
    memo_resolution_fn f nlits ok0 = Ok m ->
    (forall args, f args <> Aborts true) ->
    Forall (typed width nlits) drivers ->
    (call_resolution f m width drivers = Stop <-> resolve_aborts f width drivers).
Proof.
  intros f nlits ok0 m w ds M NA T. rewrite (memo_equal f nlits ok0 m w ds M T NA).
  apply general_stop.
Qed.

(* Without that hypothesis the memo hides the abort: a resolution function that
   calls std.env.stop for two conflicting drivers is memoised with result 0 and
   no longer stops the simulation. *)
Definition stop_on_conflict : resfn := fun args =>
  match args with
  | [a; b] => if a =? b then Returns a true else Aborts true
  | a :: _ => Returns a true
  | [] => Returns 0 true
  end.

Theorem C14_abort_hidden_refuted :
  exists f nlits m drivers,
    returns_literals f nlits /\
    memo_resolution_fn f nlits true = Ok m /\ Forall (typed 1 nlits) drivers /\
    resolve_aborts f 1 drivers /\ call_resolution f m 1 drivers = Put [0].
Proof.
  exists (fun args => match stop_on_conflict args with Returns r c => Returns (Nat.min r 3) c | x => x end), 4.
  eexists. exists [[1]; [2]].
  split.
  { intros args r c. unfold stop_on_conflict.
    destruct args as [|a [|b [|x l]]]; try (intros [= <- _]; lia).
    destruct (a =? b); [intros [= <- _]; lia|discriminate]. }
  split; [reflexivity|]. split; [repeat constructor|]. split; [|reflexivity].
  exists 0. split; [lia|]. exists true. reflexivity.
Qed.

(* Non-triviality: a four-valued wired resolution with one, two and three
   drivers of a two-element signal; the memo is used and is not the identity
   shortcut alone. *)
Definition wired : resfn := fun args => Returns (fold_left Nat.max args 0 mod 4) true.
Example C14_example :
  returns_literals wired 4 /\
  match memo_resolution_fn wired 4 true with
  | Ok m => r_memo m = true /\ r_ident m = true /\
            call_resolution wired m 2 [[1; 2]] = Put [1; 2] /\
            call_resolution wired m 2 [[1; 2]; [3; 0]] = Put [3; 2] /\
            call_resolution wired m 2 [[1; 2]; [0; 0]; [2; 3]] = Put [2; 3]
  | Fault => False
  end.
Proof.
  split; [|vm_compute; repeat split].
  intros args r c [= <- _]. apply Nat.mod_upper_bound. lia.
Qed.

(* ---- C15 ---- *)

Definition start_nexus width res register initial value (drivers : list (option (list nat))) : nexus :=
  Nexus width res register initial value
    (map (fun d => match d with Some v => Src Driver false v | None => Src Driver true [] end) drivers).

(* For a signal with at least one driver and any history of driver updates,
   disconnections, forces, releases and deposits in which a deposit and a force
   are never outstanding together, the value of the signal after every delta
   cycle is: the forced value while it is forced, else the value of a deposit
   made since, else the value computed from the drivers; and the simulation
   stops exactly when the resolution function aborts. *)
Theorem C15_force_release_deposit_partial :
  forall f nlits ok0 m width (resolved register : bool) initial value drivers ops,
    let res := if resolved then Some (f, m) else None in
    let rfn := if resolved then Some f else None in
    memo_resolution_fn f nlits ok0 = Ok m ->
    (forall args, f args <> Aborts true) ->
    drivers <> [] ->
    Forall (fun d => match d with Some v => typed width nlits v | None => True end) drivers ->
    Forall (op_vals (typed width nlits)) ops ->
    never_both width rfn register initial (Obs None None drivers value) ops ->
    match orun width rfn register initial (Obs None None drivers value) ops,
          nrun (start_nexus width res register initial value drivers) ops with
    | Some o, Some n => n_value n = o_value o
    | None, None => True
    | _, _ => False
    end.
Proof.
  intros f nlits ok0 m w resolved register initial value drivers ops res rfn0 M NA ND TD TO NB.
  assert (RO : match res with
               | Some (f, m) => forall vs, Forall (typed w nlits) vs ->
                   call_resolution f m w vs = call_general f vs w
               | None => True
               end).
  { subst res. destruct resolved; [|exact I]. intros vs T. eapply memo_equal; eassumption. }
  assert (ER : rfn res = rfn0) by (subst res rfn0; now destruct resolved).
  assert (NoK : forall k, k <> Driver ->
            find_kind k (n_sources (start_nexus w res register initial value drivers)) = None /\
            once k (n_sources (start_nexus w res register initial value drivers))).
  { intros k K. cbn. clear -K. destruct k; [congruence| |];
      (induction drivers as [|[v|] ds IH]; cbn; tauto). }
  assert (R : rel w res register initial (typed w nlits)
                (start_nexus w res register initial value drivers) (Obs None None drivers value)).
  { split; try reflexivity; try (apply NoK; discriminate).
    - unfold active. now rewrite (proj1 (NoK Forcing ltac:(discriminate))).
    - unfold active. now rewrite (proj1 (NoK Deposit ltac:(discriminate))).
    - cbn. clear. induction drivers as [|[v|] ds IH]; cbn; [reflexivity| |]; f_equal; exact IH.
    - cbn. destruct drivers as [|[v|] ds]; [congruence|reflexivity|reflexivity].
    - exact TD. }
  rewrite <- ER in *.
  pose proof (run_ok w res register initial (typed w nlits) RO ops _ _ R TO NB) as H.
  destruct (orun w (rfn res) register initial (Obs None None drivers value) ops) as [o'|],
    (nrun (start_nexus w res register initial value drivers) ops) as [n'|]; try exact H.
  destruct H; assumption.
Qed.

(* The restriction is needed.  Once a signal has been deposited to, a later
   deposit while it is forced overrides the force. *)
Theorem C15_deposit_overrides_force_refuted :
  exists ops n o,
    let s := Obs None None [Some [0]] [0] in
    nrun (start_nexus 1 None false [0] [0] [Some [0]]) ops = Some n /\
    orun 1 None false [0] s ops = Some o /\
    o_force o = Some [2] /\ n_value n = [3].
Proof.
  exists [ODeposit [1]; ODelta; OForce [2]; ODelta; ODeposit [3]; ODelta].
  eexists. eexists. cbn. repeat split.
Qed.

(* Otherwise the deposit made under a force is kept and resurfaces when the
   force is released, although a driver has been updated since. *)
Theorem C15_stale_deposit_refuted :
  exists n,
    nrun (start_nexus 1 None false [0] [0] [Some [0]])
      [OForce [2]; ODelta; ODeposit [3]; ODelta; ODriver 0 (Some [1]); ORelease; ODelta] = Some n /\
    n_value n = [3].
Proof. eexists. cbn. split; reflexivity. Qed.

Example C15_example :
  let ops := [ODriver 0 (Some [1]); OForce [2]; ODriver 1 (Some [3]); ODelta; ORelease; ODelta;
              ODeposit [0]; ODelta; ODriver 1 None] in
  exists m, memo_resolution_fn wired 4 true = Ok m /\ (forall args, wired args <> Aborts true) /\
  Forall (op_vals (typed 1 4)) ops /\
  never_both 1 (Some wired) false [0] (Obs None None [Some [0]; Some [0]] [0]) ops /\
  map (fun k => match nrun (start_nexus 1 (Some (wired, m)) false [0] [0] [Some [0]; Some [0]]) (firstn k ops) with
                | Some n => n_value n | None => [] end) (seq 0 10)
  = [[0]; [1]; [1]; [2]; [2]; [2]; [3]; [3]; [0]; [1]].
Proof.
  eexists. split; [reflexivity|]. split; [discriminate|].
  split; [repeat constructor|]. split; [cbn; intuition|]. vm_compute. reflexivity.
Qed.

Print Assumptions C14_memo_equals_call.
Print Assumptions C14_memo_stops_when_call_aborts.
Print Assumptions C14_abort_hidden_refuted.
Print Assumptions C15_force_release_deposit_partial.
Print Assumptions C15_deposit_overrides_force_refuted.
Print Assumptions C15_stale_deposit_refuted.
