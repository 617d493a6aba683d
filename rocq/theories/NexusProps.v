(* C12, C13: splitting a signal into pieces, and finding a piece. *)
From Coq Require Import List Arith Bool Lia Permutation.
From Verif Require Import Base SenseModel NexusModel NexusSpec NexusProofs.
Import ListNotations.

(* C12: accessing any sub-range of a signal, after any history of accesses and
   simulation, succeeds; every element keeps its address, value, attributes,
   sensitivity, driver values and pending transactions; the pieces still
   partition the signal; the range is exactly a run of whole pieces, starting
   with the one returned; and each transaction copied to a new piece gets its
   own event at its own time.
   Missing from the full property: signals with a disconnected source, or with
   a queued force or deposit (refuted below). *)
Theorem C12_access_preserves_partial : forall A now (s : signal A) mem junk off count,
  reachable now s -> length junk = 8 -> 0 < count -> off + count <= g_width s ->
  exists s' r ev, split_nexus mem junk now s off count = Ok (s', Some r, ev) /\
    (forall i, view mem s' i = view mem s i) /\
    partition s' /\ g_width s' = g_width s /\ g_size s' = g_size s /\
    covers s' r off count /\
    Permutation (pending_times s') (pending_times s ++ map (fun d => now + d) ev).
Proof.
  intros A now s mem junk off count R J C W. apply reachable_inv in R.
  destruct (split_ok mem junk now s off count J R C W) as (s' & r & ev & E & G & W' & S' & V & Cv & P).
  exists s', r, ev. split; [exact E|]. split; [exact V|].
  split; [split; [exact (gi_lay _ _ G)|exact (gi_tot _ _ G)]|].
  split; [exact W'|]. split; [exact S'|]. split; [exact Cv|exact P].
Qed.
Print Assumptions C12_access_preserves_partial.

(* Every element of a reachable signal is in exactly one piece, so the view
   above is never empty inside the signal. *)
Theorem C12_every_element_in_a_piece : forall A now (s : signal A) mem i,
  reachable now s -> (i < g_width s <-> view mem s i <> None).
Proof.
  intros A now s mem i R. apply reachable_inv in R. pose proof (gi_tot _ _ R) as T. rewrite <- T.
  unfold view. clear. revert i. induction (g_pieces s) as [|p ps IH]; intros i; cbn [locate].
  - unfold total. cbn. split; [lia|congruence].
  - rewrite total_cons. destruct (Nat.ltb_spec i (p_width p)) as [L|L].
    + split; [discriminate|lia].
    + rewrite <- IH. lia.
Qed.
Print Assumptions C12_every_element_in_a_piece.

(* C13: whatever partition a signal has reached, the acceleration index does not
   change the outcome of an access: same pieces, same first piece, same events.
   In particular no assertion of the index code can fail. *)
Theorem C13_index_agrees_with_search : forall A now (s : signal A) mem junk off count,
  reachable now s -> length junk = 8 -> 0 < count -> off + count <= g_width s ->
  exists s1 s2 r ev, split_nexus mem junk now s off count = Ok (s1, Some r, ev) /\
    split_nexus mem junk now (drop_index s) off count = Ok (s2, Some r, ev) /\
    g_pieces s1 = g_pieces s2.
Proof. intros A now s mem junk off count R J C W. apply reachable_inv in R. now apply split_same. Qed.
Print Assumptions C13_index_agrees_with_search.

(* The lookup itself lands on a piece at or before the offset, with exactly the
   distance left to go. *)
Theorem C13_lookup_distance : forall A now (s : signal A) off,
  reachable now s -> off < g_width s ->
  exists pos rest ix, lookup_index s off = Ok (pos, rest, ix) /\
    pos < length (g_pieces s) /\ total (firstn pos (g_pieces s)) + rest = off.
Proof.
  intros A now s off R L. apply reachable_inv in R.
  destruct (lookup_ok now s off R L) as (pos & off' & ix & E & H1 & H2 & _). eauto 6.
Qed.
Print Assumptions C13_lookup_distance.

(* ---- concrete cases ---- *)

Definition no_mem : nat -> nat := fun a => a mod 256.
Definition junk8 := repeat 170 8.
Definition w8 (l : list nat) : value := Word (l ++ repeat 0 (8 - length l)).

(* One driver with a pending transaction on a vector of six 1-byte elements. *)
Definition ex_drv := Src KDriver 7 false false (0, w8 [1;2;3;4;5;6]) [(5, w8 [6;5;4;3;2;1])].
Definition ex_sig : signal nat := fresh_signal 1 6 99 PNone [ex_drv].

Example ex_reachable : reachable 0 ex_sig.
Proof. apply reach_new; [lia|lia|]. repeat constructor; cbn; auto; lia. Qed.

Example ex_access :
  match split_nexus no_mem junk8 0 ex_sig 2 3 with
  | Ok (s, r, ev) => r = Some 1 /\ ev = [5; 5] /\ map p_width (g_pieces s) = [2; 3; 1] /\
      map (fun p => map (fun o => value_bytes no_mem (p_width p) (snd (s_cur o))) (p_srcs p)) (g_pieces s) =
      [[Ok [1; 2]]; [Ok [3; 4; 5]]; [Ok [6]]]
  | Fault => False
  end.
Proof. vm_compute. repeat split. Qed.

(* Nine pieces, so that the index exists, with starts at multiples of three. *)
Fixpoint accesses (l : list (nat * nat)) (s : signal nat) : res (signal nat) :=
  match l with
  | [] => Ok s
  | (o, c) :: l' => do! (s', _, _) <- split_nexus no_mem junk8 0 s o c; accesses l' s'
  end.

Lemma accesses_reach : forall l s s', reachable 0 s ->
  Forall (fun oc => 0 < snd oc /\ fst oc + snd oc <= g_width s) l ->
  accesses l s = Ok s' -> reachable 0 s'.
Proof.
  induction l as [|[o c] l IH]; intros s s' R F H; cbn [accesses] in H.
  - injection H as <-. exact R.
  - destruct (Forall_inv F) as [F1 F2]. cbn [fst snd] in F1, F2.
    destruct (C12_access_preserves_partial _ _ s no_mem junk8 o c R eq_refl F1 F2) as (s1 & r & ev & E & _ & _ & W & _).
    rewrite E in H. cbn [bind] in H. apply IH in H; [exact H| |].
    + eapply (reach_access 0 s no_mem junk8 o c); [exact R|reflexivity|exact F1|exact F2|exact E].
    + rewrite W. exact (Forall_inv_tail F).
Qed.

Definition ex_wide : signal nat := fresh_signal 4 27 0 PNone [Src KDriver 1 false false (0, Ptr 20) []].
Definition ex_ranges := map (fun k => (3 * k, 3)) (seq 0 9).

Example ex_indexed :
  match accesses ex_ranges ex_wide with
  | Ok s => map p_width (g_pieces s) = repeat 3 9 /\
            option_map i_how (g_index s) = Some (HDiv 3) /\
            match lookup_index s 15 with Ok (pos, rest, _) => pos = 5 /\ rest = 0 | Fault => False end
  | Fault => False
  end.
Proof. vm_compute. repeat split. Qed.

Example ex_indexed_reachable : forall s, accesses ex_ranges ex_wide = Ok s -> reachable 0 s.
Proof.
  intros s. apply accesses_reach.
  - apply reach_new; [lia|lia|]. repeat constructor; cbn; auto; lia.
  - repeat constructor; cbn; lia.
Qed.

(* ---- where the full property fails ---- *)

(* A disconnected source is connected again in the new piece: after a force on a
   6-element vector is released, accessing elements 3..5 revives the force for
   those elements. *)
Theorem C12_released_force_revived_refuted :
  exists (s : signal nat) s' r ev i,
    s = fresh_signal 1 6 0 PNone [Src KForcing 0 true false (0, w8 [1;1;1;1;1;1]) []] /\
    split_nexus no_mem junk8 0 s 3 3 = Ok (s', Some r, ev) /\
    i < 6 /\ view no_mem s' i <> view no_mem s i.
Proof.
  eexists. eexists. eexists. eexists. exists 3. split; [reflexivity|]. split; [vm_compute; reflexivity|].
  split; [lia|]. vm_compute. discriminate.
Qed.
Print Assumptions C12_released_force_revived_refuted.

(* The same for a driver that a process has disconnected. *)
Theorem C12_disconnected_driver_revived_refuted :
  exists (s : signal nat) s' r ev i,
    s = fresh_signal 1 6 0 PNone [Src KDriver 0 true false (0, w8 [1;1;1;1;1;1]) []] /\
    split_nexus no_mem junk8 0 s 3 3 = Ok (s', Some r, ev) /\
    i < 6 /\ view no_mem s' i <> view no_mem s i.
Proof.
  eexists. eexists. eexists. eexists. exists 3. split; [reflexivity|]. split; [vm_compute; reflexivity|].
  split; [lia|]. vm_compute. discriminate.
Qed.
Print Assumptions C12_disconnected_driver_revived_refuted.

(* A force that has been requested but not applied yet makes the access hit an
   assertion. *)
Theorem C12_queued_force_aborts_refuted :
  exists (s : signal nat),
    s = fresh_signal 1 6 0 PNone [Src KForcing 0 true true (0, w8 [1;1;1;1;1;1]) []] /\
    split_nexus no_mem junk8 0 s 3 3 = Fault.
Proof. eexists. split; [reflexivity|]. vm_compute. reflexivity. Qed.
Print Assumptions C12_queued_force_aborts_refuted.
