(* C45: "cover" and "never" directives report the matches of their sequence. *)
From Coq Require Import List Arith Bool Lia.
From Verif Require Import Base PslSpec PslModel PslGraph PslProofs PslSimp PslRun.
Import ListNotations.

(* The full statement, for every sequence of the language:

     forall r, exists n f, (forall fuel, n <= fuel -> fsm_new fuel r = Ok f) /\
       forall w m, (exists k, k <= m /\ reported f w k = true) <->
                   (exists i k, k <= m /\ matches w r i (S k))

   It is false of the code for repetitions that may be empty and for some uses
   of "&&" (below).  It is proved here for the sequences of [plain]: Boolean
   expressions, concatenation, fusion, and consecutive repetition of at least
   one copy, nested in any way.  Goto and non-consecutive repetition and the
   uses of "&&" that work are missing. *)
Theorem C45_reports_exactly_matches_partial : forall r, plain r ->
  exists n f, (forall fuel, n <= fuel -> fsm_new fuel r = Ok f) /\
  forall w m, (exists k, k <= m /\ reported f w k = true) <->
              (exists i k, k <= m /\ matches w r i (S k)).
Proof.
  intros r HP. destruct (fsm_new_ok r HP) as (n & f & HF & HS & HC).
  exists n, f. split; [exact HF|]. intros w m. split.
  - intros (k & Hk & H). destruct (HS w k H) as (i & _ & HM). exists i, k. auto.
  - intros (i & k & Hk & HM).
    (* the shortest match that starts at [i] *)
    revert Hk HM. induction k as [k IH] using lt_wf_ind. intros Hk HM.
    destruct (reported f w k) eqn:E; [exists k; auto|].
    assert (HD : ~ (forall x, x < k -> ~ matches w r i (S x))).
    { intros H. rewrite (HC w i k HM H) in E. discriminate. }
    destruct (existsb (fun x => reported f w x) (seq 0 k)) eqn:EX.
    + apply existsb_exists in EX as (x & Hx & H). apply in_seq in Hx. exists x.
      split; [lia|exact H].
    + exfalso. apply HD. intros x Hx HMx.
      destruct (IH x Hx ltac:(lia) HMx) as (y & Hy & HR).
      (* a report at some [y <= m]: take the one at or before [x] *)
      clear IH.
      assert (HY : forall x, x < k -> matches w r i (S x) -> False).
      { clear x Hx HMx y Hy HR. intros x. induction x as [x IHx] using lt_wf_ind.
        intros Hx HMx.
        assert (HRx : reported f w x = true).
        { apply (HC w i x HMx). intros z Hz HMz. exact (IHx z Hz ltac:(lia) HMz). }
        assert (HF' : existsb (fun x => reported f w x) (seq 0 k) = true).
        { apply existsb_exists. exists x. split; [apply in_seq; lia|exact HRx]. }
        congruence. }
      exact (HY x Hx HMx).
Qed.

(* Every report is at the last cycle of a match. *)
Theorem C45_report_ends_match_partial : forall r, plain r ->
  exists n f, (forall fuel, n <= fuel -> fsm_new fuel r = Ok f) /\
  forall w m, reported f w m = true -> exists i, i <= m /\ matches w r i (S m).
Proof.
  intros r HP. destruct (fsm_new_ok r HP) as (n & f & HF & HS & _). exists n, f. auto.
Qed.

(* From every cycle, the shortest match is reported at its last cycle. *)
Theorem C45_first_match_reported_partial : forall r, plain r ->
  exists n f, (forall fuel, n <= fuel -> fsm_new fuel r = Ok f) /\
  forall w i m, matches w r i (S m) -> (forall k, k < m -> ~ matches w r i (S k)) ->
    reported f w m = true.
Proof.
  intros r HP. destruct (fsm_new_ok r HP) as (n & f & HF & _ & HC). exists n, f. auto.
Qed.

(* The theorems are about sequences such as this one:
   {a; {b; c}[*1 to 3]; d[+]} *)
Definition demo : sere :=
  Seq Concat [Hdl 0; Rep Times 1 (Some 3) (Seq Concat [Hdl 1; Hdl 2]);
              Rep Times 1 None (Hdl 3)].

Example demo_plain : plain demo.
Proof. cbn. repeat split; try lia; discriminate. Qed.

(* Traces as tables: one list of true expressions per cycle. *)
Definition table (t : list (list nat)) : trace :=
  fun i p => existsb (Nat.eqb p) (nth i t []).

Definition reports (r : sere) (t : list (list nat)) : option (list bool) :=
  match fsm_new 40 r with
  | Ok f => Some (map (reported f (table t)) (seq 0 (length t)))
  | Fault => None
  end.

Example demo_reports :
  reports demo [[0]; [1; 0]; [2; 1]; [1]; [2]; [3]; [3]; [1]] =
  Some [false; false; false; false; false; true; false; false].
Proof. vm_compute. reflexivity. Qed.

(* ---- what is not so ---- *)

(* A repetition that may be empty is not matched by nothing: with the number of
   copies left out or "0 to inf" the operand is forgotten altogether, so
   {a; b[*]; c} does not report a, b, c ... *)
Theorem C45_star_forgotten_refuted : exists w i m f,
  (forall fuel, 20 <= fuel ->
     fsm_new fuel (Seq Concat [Hdl 0; Rep Times 0 None (Hdl 1); Hdl 2]) = Ok f) /\
  matches w (Seq Concat [Hdl 0; Rep Times 0 None (Hdl 1); Hdl 2]) i (S m) /\
  (forall k, k <= m -> reported f w k = false).
Proof.
  exists (table [[0]; [1]; [2]]), 0, 2.
  eexists. split.
  { intros fuel Hf. do 20 (destruct fuel as [|fuel]; [lia|]). vm_compute. reflexivity. }
  split.
  - cbn. exists 1. split; [auto|]. exists 2. split.
    + exists 1. split; [unfold within; lia|]. exists 2. cbn. auto.
    + exists 3. cbn. auto.
  - intros k Hk. do 3 (destruct k as [|k]; [vm_compute; reflexivity|]). lia.
Qed.

(* ... and {a; b[*0 to 1]; c} does not report a, c: the empty repetition still
   takes a cycle. *)
Theorem C45_empty_takes_cycle_refuted : exists w i m f,
  (forall fuel, 20 <= fuel ->
     fsm_new fuel (Seq Concat [Hdl 0; Rep Times 0 (Some 1) (Hdl 1); Hdl 2]) = Ok f) /\
  matches w (Seq Concat [Hdl 0; Rep Times 0 (Some 1) (Hdl 1); Hdl 2]) i (S m) /\
  (forall k, k <= m -> reported f w k = false).
Proof.
  exists (table [[0]; [2]]), 0, 1.
  eexists. split.
  { intros fuel Hf. do 20 (destruct fuel as [|fuel]; [lia|]). vm_compute. reflexivity. }
  split.
  - cbn. exists 1. split; [auto|]. exists 1. split.
    + exists 0. split; [unfold within; lia|]. reflexivity.
    + exists 2. cbn. auto.
  - intros k Hk. do 2 (destruct k as [|k]; [vm_compute; reflexivity|]). lia.
Qed.

(* The same sequence is reported for a, anything, c. *)
Theorem C45_empty_matches_anything_refuted : exists w m f,
  (forall fuel, 20 <= fuel ->
     fsm_new fuel (Seq Concat [Hdl 0; Rep Times 0 (Some 1) (Hdl 1); Hdl 2]) = Ok f) /\
  reported f w m = true /\
  forall i k, k <= m -> ~ matches w (Seq Concat [Hdl 0; Rep Times 0 (Some 1) (Hdl 1); Hdl 2]) i (S k).
Proof.
  exists (table [[0]; []; [2]]), 2.
  eexists. split.
  { intros fuel Hf. do 20 (destruct fuel as [|fuel]; [lia|]). vm_compute. reflexivity. }
  split; [vm_compute; reflexivity|].
  intros i k Hk (k1 & (Ha & ->) & k2 & (n & Hn & HT) & k3 & (Hc & ->) & _).
  assert (Hi : i = 0).
  { destruct i as [|[|[|i]]]; [reflexivity| | |]; try (vm_compute in Ha; discriminate).
    unfold table in Ha. destruct i; discriminate Ha. }
  subst i. unfold within in Hn. destruct n as [|[|n]]; [| |lia]; cbn [times] in HT.
  - subst k2. vm_compute in Hc. discriminate.
  - destruct HT as (k4 & (Hb & ->) & <-). vm_compute in Hb. discriminate.
Qed.

(* An "assert" directive wants every active state to go on, so one choice that
   leads nowhere is reported although another matches: {a[*1 to 2]; b} on
   a, b. *)
Theorem C45_assert_choice_refuted : exists w m f,
  (forall fuel, 20 <= fuel ->
     fsm_new fuel (Seq Concat [Rep Times 1 (Some 2) (Hdl 0); Hdl 1]) = Ok f) /\
  plain (Seq Concat [Rep Times 1 (Some 2) (Hdl 0); Hdl 1]) /\
  matches w (Seq Concat [Rep Times 1 (Some 2) (Hdl 0); Hdl 1]) 0 (S m) /\
  failed f false w m = true.
Proof.
  exists (table [[0]; [1]]), 1.
  eexists. split.
  { intros fuel Hf. do 20 (destruct fuel as [|fuel]; [lia|]). vm_compute. reflexivity. }
  split; [cbn; repeat split; try lia; discriminate|]. split.
  - cbn. exists 1. split.
    + exists 1. split; [unfold within; lia|]. exists 1. cbn. auto.
    + exists 2. cbn. auto.
  - vm_compute. reflexivity.
Qed.

(* Two compound guards are always taken to be equal when an edge is added, so
   the product built for "&&" can lose edges.  Here
   {d; {{x[->1] : y[->1]}[+]} && {z[+]}} misses a match. *)
Definition product_demo : sere :=
  Seq Concat [Hdl 0;
    And (Rep Times 1 None (Seq Fusion [Rep Goto 1 (Some 1) (Hdl 1); Rep Goto 1 (Some 1) (Hdl 2)]))
        (Rep Times 1 None (Hdl 3))].

Theorem C45_product_loses_edge_refuted : exists w i m f,
  (forall fuel, 60 <= fuel -> fsm_new fuel product_demo = Ok f) /\
  matches w product_demo i (S m) /\ (forall k, k <= m -> reported f w k = false).
Proof.
  exists (table [[0]; [3]; [1; 2; 3]]), 0, 2.
  eexists. split.
  { intros fuel Hf. do 60 (destruct fuel as [|fuel]; [lia|]). vm_compute. reflexivity. }
  split.
  - cbn. exists 1. split; [auto|]. exists 3. split; [|reflexivity]. split.
    + exists 1. split; [unfold within; lia|]. exists 3. split; [|reflexivity].
      exists 2. split; [lia|]. split.
      * exists 1. split; [unfold within; lia|]. exists 3. split; [|reflexivity].
        exists 2. split; [|auto]. split; [lia|]. intros x Hx. replace x with 1 by lia. reflexivity.
      * exists 1. split; [unfold within; lia|]. exists 3. split; [|reflexivity].
        exists 2. split; [|auto]. split; [lia|]. intros x Hx. lia.
    + exists 2. split; [unfold within; lia|]. exists 2. split; [split; reflexivity|]. exists 3. split; [split; reflexivity|reflexivity].
  - intros k Hk. do 3 (destruct k as [|k]; [vm_compute; reflexivity|]). lia.
Qed.

Print Assumptions C45_reports_exactly_matches_partial.
Print Assumptions C45_report_ends_match_partial.
Print Assumptions C45_first_match_reported_partial.
Print Assumptions C45_star_forgotten_refuted.
Print Assumptions C45_empty_takes_cycle_refuted.
Print Assumptions C45_empty_matches_anything_refuted.
Print Assumptions C45_assert_choice_refuted.
Print Assumptions C45_product_loses_edge_refuted.
