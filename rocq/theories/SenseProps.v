(* C11: sensitivity sets of src/rt/model.c. *)
From Coq Require Import List Arith Bool Lia.
From Verif Require Import Base SenseModel SenseSpec SenseProofs.
Import ListNotations.

(* After any history of registrations and cancellations in which a registered
   object is not registered again behind a cancellation, an event wakes exactly
   the registered objects, each once. *)
Theorem C11_event_wakes_registered_partial :
  forall ops postponed s,
    no_stale_reregistration ops ->
    wakes_exactly postponed (fun o => registered o ops) s
                  (notify postponed (sense_run ops) s).
Proof.
  intros ops postponed s L. destruct (run_inv ops L) as [I1 I2 _].
  eapply wakes_ext; [|apply notify_wakes].
  intros o. unfold holds. rewrite occ_in. rewrite <- I2. specialize (I1 o). unfold focc in *. lia.
Qed.

(* For every history whatsoever: no registered object is missed, nothing that
   was never registered is woken, and no object is queued twice. *)
Theorem C11_never_missed_any_history_partial :
  forall ops postponed s,
    exists wanted : obj -> Prop,
      (forall o, registered o ops -> wanted o) /\
      (forall o, wanted o -> In (Register o) ops) /\
      wakes_exactly postponed wanted s (notify postponed (sense_run ops) s).
Proof.
  intros ops postponed s. exists (fun o => holds o (sense_run ops)).
  split; [apply never_missed|]. split; [apply only_mentioned|]. apply notify_wakes.
Qed.

(* The unrestricted statement is false: with the array [A, B], cancelling A and
   registering B again stores B twice, and cancelling B then removes only one
   of the two entries.  The event wakes B although it is not registered. *)
Theorem C11_duplicate_registration_refuted :
  exists ops o postponed s,
    ~ registered o ops /\
    wprocq s = [] /\ wprocq (notify postponed (sense_run ops) s) = [o].
Proof.
  exists [Register 0; Register 1; Unregister 0; Register 1; Unregister 1], 1,
    (fun _ => false), (W (fun _ => false) [] []).
  split; [|split; vm_compute; reflexivity].
  change [Register 0; Register 1; Unregister 0; Register 1; Unregister 1]
    with ([Register 0; Register 1; Unregister 0; Register 1] ++ [Unregister 1]).
  rewrite registered_snoc. intros [H|[H _]]; [discriminate|congruence].
Qed.

(* The hypothesis of the first theorem is met by a history with growth, holes,
   reuse of a hole and a doubled name in one sensitivity list. *)
Definition ex_ops : list sense_op :=
  [Register 1; Register 2; Register 3; Register 3; Unregister 2; Register 4;
   Unregister 1; Unregister 3; Register 2].

Fixpoint legal_b (ops : list sense_op) : bool :=
  match ops with
  | [] => true
  | Register o :: ops' =>
    (fix scan (l : list sense_op) (cleared : bool) : bool :=
       match l with
       | [] => true
       | Register x :: l' => (negb ((x =? o) && cleared)) && scan l' cleared
       | Unregister x :: l' => if x =? o then true else scan l' true
       end) ops' false && legal_b ops'
  | Unregister _ :: ops' => legal_b ops'
  end.

Definition scan (o : obj) := fix scan (l : list sense_op) (cleared : bool) : bool :=
       match l with
       | [] => true
       | Register x :: l' => (negb ((x =? o) && cleared)) && scan l' cleared
       | Unregister x :: l' => if x =? o then true else scan l' true
       end.

Lemma scan_ok o : forall l2 l3 c, scan o (l2 ++ Register o :: l3) c = true ->
  ~ In (Unregister o) l2 -> c = false /\ forall x, ~ In (Unregister x) l2.
Proof.
  induction l2 as [|[a|a] l2 IH]; intros l3 c H N; cbn [app scan] in H.
  - rewrite Nat.eqb_refl in H. destruct c; [discriminate|]. split; [reflexivity|easy].
  - apply andb_prop in H. destruct H as [_ H]. destruct (IH l3 c H) as [-> F].
    + intros I. apply N. now right.
    + split; [reflexivity|]. intros x [E|I]; [discriminate|]. now apply (F x).
  - destruct (Nat.eqb_spec a o) as [E|E].
    + subst a. exfalso. apply N. now left.
    + destruct (IH l3 true H) as [E1 _]; [|discriminate]. intros I. apply N. now right.
Qed.

Lemma legal_b_ok : forall ops, legal_b ops = true -> no_stale_reregistration ops.
Proof.
  induction ops as [|op ops IH]; intros H l1 o l2 l3 E N.
  - destruct l1; discriminate.
  - destruct l1 as [|a l1]; cbn [app] in E; injection E as -> E.
    + cbn [legal_b] in H. apply andb_prop in H. destruct H as [H _].
      fold (scan o ops false) in H. rewrite E in H. now apply (scan_ok o l2 l3 false).
    + assert (H' : legal_b ops = true).
      { destruct a; cbn [legal_b] in H; [apply andb_prop in H; tauto|exact H]. }
      now apply (IH H' l1 o l2 l3).
Qed.

Example C11_example :
  no_stale_reregistration ex_ops /\
  wprocq (notify (fun o => o =? 4) (sense_run ex_ops) (W (fun _ => false) [] [])) = [2] /\
  wpostq (notify (fun o => o =? 4) (sense_run ex_ops) (W (fun _ => false) [] [])) = [4].
Proof. split; [apply legal_b_ok; reflexivity|split; reflexivity]. Qed.

Print Assumptions C11_event_wakes_registered_partial.
Print Assumptions C11_never_missed_any_history_partial.
Print Assumptions C11_duplicate_registration_refuted.
