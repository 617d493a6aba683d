(* C61, C62, C63: the coverage counters of a run. *)

From Coq Require Import ZArith NArith List Bool Arith Lia.
From Verif Require Import Base CoverModel CoverSpec CoverProofs CoverRunModel CoverRunSpec CoverRunProofs.
Import ListNotations.

(* C61: for every history of events of a signal the two counters of each of
   its elements hold how many of the events were changes to '1' and to '0'
   under the options chosen, at most 2^31-1, and no other counter is touched. *)
Theorem C61_toggle : forall undefined z tag size events mem,
  0 < size -> tag + 2 * size <= length mem ->
  (forall old new, In (old, new) events -> length old = size /\ length new = size) ->
  (forall k, tag <= k < tag + 2 * size -> (0 <= nth k mem 0 <= 2 ^ 31 - 1)%Z) ->
  exists mem', toggle_run false undefined z tag size events mem = Ok mem' /\
    length mem' = length mem /\
    (forall j, j < size ->
       nth (tag + 2 * j) mem' 0%Z =
         counted (nth (tag + 2 * j) mem 0%Z) (how_many (rises undefined z) j events) /\
       nth (tag + 2 * j + 1) mem' 0%Z =
         counted (nth (tag + 2 * j + 1) mem 0%Z) (how_many (falls undefined z) j events)) /\
    (forall k, k < tag \/ tag + 2 * size <= k -> nth k mem' 0%Z = nth k mem 0%Z).
Proof.
  intros u z tag size events mem Hs Hm Hl Hv. unfold toggle_run.
  destruct (run_events_ok u z tag size Hs events mem Hl Hm) as [m [E [L [A B]]]].
  - intros b d Hb. unfold V. apply Hv. destruct d; cbn [idx]; lia.
  - exists m. split; [exact E|]. split; [exact L|]. split.
    + intros j Hj. pose proof (A j To1 Hj) as A1. pose proof (A j To0 Hj) as A0.
      unfold V in *. cbn [idx] in A1, A0. rewrite (Nat.mul_comm j 2) in A1, A0. split; assumption.
    + intros k Hk. apply B. intros b d Hb. destruct d; cbn [idx]; lia.
Qed.

(* C61: an input that nothing drives has all its counters marked. *)
Theorem C61_constant : forall undefined z tag size events mem,
  exists mem', toggle_run true undefined z tag size events mem = Ok mem' /\
    forall k, nth k mem' 0%Z =
      if (tag <=? k) && (k <? tag + 2 * size) then (- 2 ^ 31)%Z else nth k mem 0%Z.
Proof.
  intros u z tag size events mem. unfold toggle_run. eexists. split; [reflexivity|].
  intros k. destruct (mark_ok size tag (get_cover_mem (tag + 2 * size) mem)) as [_ Q];
    [rewrite get_cover_mem_length; lia|].
  specialize (Q k). unfold V in Q. rewrite Q.
  fold (V (get_cover_mem (tag + 2 * size) mem) k). rewrite get_cover_mem_V. reflexivity.
Qed.

Definition v10 (l : list N) : list N := l ++ repeat 2%N 9.
Example C61_example :
  toggle_run false true false 1 10 [(v10 [0], v10 [3]); (v10 [3], v10 [2]); (v10 [2], v10 [4]); (v10 [4], v10 [3])]%N (repeat 0%Z 22)
  = Ok (0 :: 1 :: 1 :: repeat 0 19)%Z.
Proof. vm_compute. reflexivity. Qed.
Example C61_example_z :
  toggle_run false false true 1 10 [(v10 [0], v10 [3]); (v10 [3], v10 [2]); (v10 [2], v10 [4]); (v10 [4], v10 [3])]%N (repeat 0%Z 22)
  = Ok (0 :: 2 :: 1 :: repeat 0 19)%Z.
Proof. vm_compute. reflexivity. Qed.

(* C62: for every history of events of a signal of an enumeration type the
   counter of each state holds how many events entered it, and one more for
   the leftmost. *)
Theorem C62_counts : forall tag low events mem,
  (0 <= tag)%Z -> (forall v, In v events -> (low <= v)%Z) ->
  (forall k, nth k mem 0 = 0)%Z ->
  exists mem', state_run tag low events mem = Ok mem' /\
    forall p, (low <= p)%Z ->
      nth (Z.to_nat (tag + (p - low))) mem' 0%Z =
      counted 0 ((if Z.eqb p low then 1 else 0) + entered p events).
Proof.
  intros tag low events mem Ht Hl H0. unfold state_run.
  set (m0 := replace (get_cover_mem (Z.to_nat tag + 1) mem) (Z.to_nat tag) 1%Z).
  assert (M0 : forall p, (low <= p)%Z ->
    V m0 (Z.to_nat (tag + (p - low))) = if Z.eqb p low then 1%Z else 0%Z).
  { intros p Hp. unfold m0, V. rewrite nth_replace, get_cover_mem_length.
    replace (Z.to_nat tag <? Nat.max (Z.to_nat tag + 1) (length mem)) with true
      by (symmetry; apply Nat.ltb_lt; lia).
    rewrite Bool.andb_true_r. fold (V (get_cover_mem (Z.to_nat tag + 1) mem) (Z.to_nat (tag + (p - low)))).
    rewrite get_cover_mem_V. unfold V. rewrite H0.
    destruct (Z.eqb_spec p low) as [->|NE].
    - replace (tag + (low - low))%Z with tag by lia. now rewrite Nat.eqb_refl.
    - destruct (Nat.eqb_spec (Z.to_nat (tag + (p - low))) (Z.to_nat tag)) as [E|_]; [|reflexivity].
      exfalso. apply Z2Nat.inj in E; lia. }
  destruct (state_events_ok tag low Ht events m0 Hl) as [m [E [A _]]].
  - intros p Hp. rewrite M0 by exact Hp. unfold INT_MAX. destruct (Z.eqb p low); lia.
  - exists m. split; [exact E|]. intros p Hp. specialize (A p Hp). unfold V in A at 1.
    rewrite A, M0 by exact Hp. unfold counted. destruct (Z.eqb p low); reflexivity.
Qed.

(* C62: so a state is counted exactly when the signal ever had that value,
   provided that its initial value is the leftmost. *)
Theorem C62_covered_partial : forall tag low events mem,
  (0 <= tag)%Z -> (forall v, In v events -> (low <= v)%Z) ->
  (forall k, nth k mem 0 = 0)%Z ->
  exists mem', state_run tag low events mem = Ok mem' /\
    forall p, (low <= p)%Z ->
      ((0 < nth (Z.to_nat (tag + (p - low))) mem' 0)%Z <-> In p (low :: events)).
Proof.
  intros tag low events mem Ht Hl H0.
  destruct (C62_counts tag low events mem Ht Hl H0) as [m [E A]].
  exists m. split; [exact E|]. intros p Hp. rewrite A by exact Hp.
  assert (X : (0 < entered p events)%Z <-> In p events).
  { unfold entered. split.
    - intros H. destruct (filter (Z.eqb p) events) as [|q r] eqn:F; [cbn in H; lia|].
      assert (I : In q (filter (Z.eqb p) events)) by (rewrite F; now left).
      apply filter_In in I. destruct I as [I Q]. apply Z.eqb_eq in Q. now subst.
    - intros I. assert (J : In p (filter (Z.eqb p) events)).
      { apply filter_In. split; [exact I | apply Z.eqb_refl]. }
      destruct (filter (Z.eqb p) events); [destruct J | cbn [length]; lia]. }
  assert (Y : (0 <= entered p events)%Z) by (unfold entered; lia).
  unfold counted. cbn [In]. rewrite <- X. destruct (Z.eqb_spec p low) as [->|NE].
  - split; [auto|]. intros _. lia.
  - split; [intros H; right; lia | intros [H|H]; [congruence | lia]].
Qed.

(* C62 fails when a declaration gives another initial value: the leftmost
   state is reported as reached although the signal never had that value, and
   the initial one is not. *)
Theorem C62_initial_refuted : exists low initial events mem',
  initial <> low /\ ~ In low (initial :: events) /\
  state_run 0 low events (repeat 0%Z 3) = Ok mem' /\
  (0 < nth (Z.to_nat (low - low)) mem' 0)%Z /\
  nth (Z.to_nat (initial - low)) mem' 0%Z = 0%Z.
Proof.
  exists 0%Z, 1%Z, [2%Z], [1; 0; 1]%Z. split; [discriminate|]. split.
  - intros [H|[H|[]]]; discriminate.
  - split; [vm_compute; reflexivity|]. split; [reflexivity | reflexivity].
Qed.

Example C62_example : state_run 2 1 [3; 2; 3; 1]%Z (repeat 0%Z 5) = Ok [0; 0; 2; 1; 2]%Z.
Proof. vm_compute. reflexivity. Qed.

(* C63: a counter that compiled code increments holds the number of
   increments as long as that is below 2^31. *)
Theorem C63_statement_partial : forall n, (Z.of_nat n < 2 ^ 31)%Z ->
  iter interp_sadd n 0%Z = Z.of_nat n.
Proof.
  intros n H. rewrite sadd_iter. unfold to_signed32. rewrite Z.min_l by lia.
  destruct (Z.ltb_spec (Z.of_nat n) (2 ^ 31)); lia.
Qed.

(* C63 fails beyond: the counter is then negative, and the item of a
   statement that was executed is recorded with a negative count. *)
Theorem C63_saturation_refuted : forall it, i_kind it = KStmt -> i_data it = 0%Z -> i_tag it = 0%Z ->
  exists n it', (0 < Z.of_nat n)%Z /\
    update_items [iter interp_sadd n 0%Z] [it] = Ok [it'] /\
    (i_data it' < 0)%Z.
Proof.
  intros it K D T. exists (Z.to_nat (2 ^ 31)). eexists. split; [rewrite Z2Nat.id; lia|].
  cbn [update_items]. rewrite T. cbn [Z.to_nat nth_error bind]. split; [reflexivity|].
  rewrite sadd_iter, Z2Nat.id by lia. unfold merge_one. rewrite K. cbn [with_data i_data].
  rewrite D. reflexivity.
Qed.

(* Every number of executions from 2^31 on gives a negative count. *)
Theorem C63_saturation_range : forall n, (2 ^ 31 <= Z.of_nat n)%Z -> (iter interp_sadd n 0 < 0)%Z.
Proof.
  intros n H. rewrite sadd_iter. unfold to_signed32.
  destruct (Z.ltb_spec (Z.min (Z.of_nat n) (2 ^ 32 - 1)) (2 ^ 31)); lia.
Qed.

(* C63: for every sequence of compilations, executions and new items that runs
   through, each counter has been incremented once for each execution. *)
Theorem C63_counts_partial : forall os s s', run_ops s os = Ok s' ->
  forall tag, nth tag (c_counts (r_mem s')) 0%Z =
    iter interp_sadd (hits (map snd (r_sites s)) os tag) (nth tag (c_counts (r_mem s)) 0%Z).
Proof. intros os s s' E tag. exact (run_ops_counts os s s' E tag). Qed.

(* It runs through when no items are added during the run ... *)
Theorem C63_no_new_items : forall os counts,
  (forall o, In o os -> match o with
     | Compile t _ | HitInterp t _ => t < length counts
     | HitCompiled _ => True | NewItem _ => False end) ->
  exists s', run_ops (RunState (Counters 0 counts) []) os = Ok s'.
Proof. intros os counts H. apply run_ops_safe; [intros b t [] | exact H]. Qed.

(* ... and when nothing is compiled during the run. *)
Theorem C63_not_compiled : forall os counts,
  (forall o, In o os -> match o with Compile _ _ => False | _ => True end) ->
  exists s', run_ops (RunState (Counters 0 counts) []) os = Ok s'.
Proof. intros os counts H. now apply run_ops_interp. Qed.

(* ... and, generally, when after the first compilation (which may itself make
   the array grow and move) the array stays where it is. *)
Theorem C63_array_stays : forall pre t moves post counts,
  (forall o, In o pre -> match o with Compile _ _ => False | _ => True end) ->
  (forall o, In o post -> match o with
     | Compile _ m | HitInterp _ m | NewItem m => m = false
     | HitCompiled _ => True end) ->
  exists s', run_ops (RunState (Counters 0 counts) []) (pre ++ Compile t moves :: post) = Ok s'.
Proof. intros pre t moves post counts H1 H2. now apply run_ops_before. Qed.

(* C63 fails with both: code compiled before an item is added writes to the
   array that has been freed. *)
Theorem C63_stale_refuted : exists os, run_ops (RunState (Counters 0 [0; 0]%Z) []) os = Fault /\
  forall o, In o os -> match o with Compile t _ | HitInterp t _ => t < 2 | _ => True end.
Proof.
  exists [Compile 1 false; HitCompiled 0; NewItem true; HitCompiled 0]. split; [reflexivity|].
  intros o [<-|[<-|[<-|[<-|[]]]]]; auto.
Qed.

Example C63_array_stays_example :
  run_ops (RunState (Counters 0 [0]%Z) [])
    [HitInterp 1 true; Compile 2 true; NewItem false; HitCompiled 0]
  = Ok (RunState (Counters 2 [0; 1; 1; 0]%Z) [(2, 2)]).
Proof. reflexivity. Qed.

Example C63_example :
  run_ops (RunState (Counters 0 [0; 0]%Z) [])
    [Compile 1 false; HitCompiled 0; HitInterp 0 true; HitCompiled 0]
  = Ok (RunState (Counters 0 [1; 2]%Z) [(0, 1)]).
Proof. reflexivity. Qed.

Print Assumptions C61_toggle.
Print Assumptions C61_constant.
Print Assumptions C62_counts.
Print Assumptions C62_covered_partial.
Print Assumptions C62_initial_refuted.
Print Assumptions C63_statement_partial.
Print Assumptions C63_saturation_refuted.
Print Assumptions C63_saturation_range.
Print Assumptions C63_counts_partial.
Print Assumptions C63_no_new_items.
Print Assumptions C63_array_stays.
Print Assumptions C63_not_compiled.
Print Assumptions C63_stale_refuted.
