(* C06, C07, C47: projected output waveforms of src/rt/model.c. *)
From Coq Require Import List NArith Bool Sorted Lia.
From Verif Require Import Base WaveModel WaveSpec WaveProofs.
Import ListNotations.
Open Scope N_scope.

Definition op_of {V} (op : sop V) : dop V :=
  match op with
  | SAssign a r v => DAssign a r v
  | SWake t => DWake t
  end.

(* Every operation of the history is legal in the state it is applied to. *)
Fixpoint legal_run {V} (eqv : V -> V -> bool) (zero : V) (s : N * driver V)
  (ops : list (sop V)) : Prop :=
  match ops with
  | [] => True
  | op :: ops' => legal (fst s) (view (dwave (snd s))) op /\
                  legal_run eqv zero (dstep eqv zero s (op_of op)) ops'
  end.

Section Hist.
Context {V : Type} (eqv : V -> V -> bool) (zero : V).

Definition start (now0 : N) (init : tx V) : N * driver V := (now0, Drv init [] false).

Lemma view_forall (P : N -> Prop) (l : list (tx V)) :
  Forall (fun tv => P (fst tv)) (view l) <-> Forall (fun x => P (twhen x)) l.
Proof. unfold view. rewrite Forall_map. reflexivity. Qed.

Lemma legal_inv : forall ops s, dinv (fst s) (dwave (snd s)) -> legal_run eqv zero s ops ->
  dinv (fst (drun eqv zero s (map op_of ops))) (dwave (snd (drun eqv zero s (map op_of ops)))).
Proof.
  induction ops as [|op ops IH]; intros s I L; [exact I|].
  cbn [legal_run] in L. destruct L as [L1 L2]. cbn [map drun fold_left].
  apply IH; [|exact L2]. destruct s as [now d]. destruct op as [a r v|t]; cbn [op_of dstep] in *.
  - destruct L1 as [Lr Lt]. destruct (assign_ok eqv now d a r v I Lr Lt) as [E I'].
    rewrite E. exact I'.
  - destruct L1 as (A & B & C). cbn [fst snd] in *. rewrite view_forall in C.
    apply (wake_ok now t d I A B C).
Qed.
End Hist.

(* After any legal history of assignments and wake-ups, a further assignment
   of v after a with rejection limit r leaves a strictly increasing waveform
   that contains the new transaction, nothing else at or after its time,
   nothing that was not there before, and everything before the rejection
   window; the current value does not change. *)
Theorem C06_waveform_preemption :
  forall (V : Type) (eqv : V -> V -> bool) (zero : V) now0 init ops now d a r v,
    (forall x y, eqv x y = true <-> x = y) -> now0 < 2 ^ 63 ->
    legal_run eqv zero (start now0 init) ops ->
    drun eqv zero (start now0 init) (map op_of ops) = (now, d) ->
    r <= a -> now + a < 2 ^ 63 ->
    let d' := fst (assign eqv now d a r v) in
    strictly_increasing (view (dwave d)) /\
    preempts (now + a) r v (view (dwave d)) (view (dwave d')) /\
    dcur d' = dcur d.
Proof.
  intros V eqv zero now0 init ops now d a r v Heq H0 L E Hr Ha d'.
  assert (I : dinv now (dwave d)).
  { pose proof (legal_inv eqv zero ops (start now0 init)) as G.
    rewrite E in G. apply G; [|exact L]. split; [constructor|]. split; [constructor|].
    split; [exact H0|constructor]. }
  destruct (assign_ok eqv now d a r v I Hr Ha) as [Ea _]. subst d'. rewrite Ea. cbn [fst dwave dcur].
  split; [|split; [|reflexivity]].
  - unfold strictly_increasing. rewrite view_fst. apply I.
  - apply insert_preempts. apply I.
Qed.
Print Assumptions C06_waveform_preemption.

(* When the driver is woken at a time t that no transaction has passed, the
   transaction at t, if there is one, becomes the current one and exactly the
   later ones remain. *)
Theorem C06_wake_matures :
  forall (V : Type) (eqv : V -> V -> bool) (zero : V) now0 init ops now d t,
    now0 < 2 ^ 63 ->
    legal_run eqv zero (start now0 init) ops ->
    drun eqv zero (start now0 init) (map op_of ops) = (now, d) ->
    legal now (view (dwave d)) (SWake t) ->
    let d' := fst (update_driver t d) in
    view (dwave d') = filter (fun tv => t <? fst tv) (view (dwave d)) /\
    (forall v, In (t, v) (view (dwave d)) -> dcur d' = Tx t v) /\
    ((forall v, ~ In (t, v) (view (dwave d))) -> d' = d).
Proof.
  intros V eqv zero now0 init ops now d t H0 L E (La & Lb & Lc) d'.
  rewrite view_forall in Lc.
  assert (I : dinv now (dwave d)).
  { pose proof (legal_inv eqv zero ops (start now0 init)) as G.
    rewrite E in G. apply G; [|exact L]. split; [constructor|]. split; [constructor|].
    split; [exact H0|constructor]. }
  destruct (wake_ok now t d I La Lb Lc) as (_ & W & C & B). subst d'. split; [|split].
  - rewrite W. unfold view. clear. induction (dwave d) as [|x l IH]; [reflexivity|].
    cbn [filter map fst]. destruct (t <? twhen x); cbn [map]; rewrite IH; reflexivity.
  - intros v Hv. apply view_in in Hv. rewrite C.
    destruct (find (fun x => twhen x =? t) (dwave d)) as [x|] eqn:F.
    + apply find_some in F. destruct F as [F1 F2]. apply N.eqb_eq in F2.
      destruct I as (S & _). clear -S F1 F2 Hv.
      induction (dwave d) as [|y l IH]; [contradiction|]. apply sorted_cons in S. destruct S as [S G].
      rewrite Forall_forall in G. destruct F1 as [->|F1], Hv as [Hv|Hv]; auto.
      * specialize (G _ Hv). cbn in G. lia.
      * subst y. specialize (G _ F1). cbn in G. lia.
    + exfalso. pose proof (find_none _ _ F _ Hv) as Q. cbn in Q. apply N.eqb_neq in Q. congruence.
  - intros N. unfold update_driver. destruct (dwave d) as [|w l] eqn:Ed; [reflexivity|].
    destruct (N.eqb_spec (twhen w) t) as [Ew|Ew].
    + exfalso. apply (N (tval w)). left. cbn. subst t. reflexivity.
    + assert (NE : (twhen w =? neg64 t) = false); [|rewrite NE; reflexivity].
      apply N.eqb_neq. inversion Lc; subst. destruct I as (_ & _ & _ & Bd). inversion Bd; subst.
      destruct (N.eq_dec t 0) as [->|].
      * change (neg64 0) with 0. lia.
      * pose proof (neg64_big t ltac:(lia)). lia.
Qed.
Print Assumptions C06_wake_matures.

Example C06_case :
  let ops := [SAssign 5 0 1; SAssign 9 0 2; SAssign 12 0 3; SWake 5; SAssign 6 2 1] in
  legal_run N.eqb 0 (start 0 (Tx 0 0)) ops /\
  let '(now, d) := drun N.eqb 0 (start 0 (Tx 0 0)) (map op_of ops) in
  now = 5 /\ dcur d = Tx 5 1 /\ view (dwave d) = [(11, 1)] /\
  view (dwave (fst (assign N.eqb now d 20 3 7))) = [(11, 1); (25, 7)].
Proof.
  vm_compute. repeat split; try (intro; discriminate);
  repeat (constructor; try (intro; discriminate)).
Qed.

(* C07: the marking rule of the standard is not implemented: with the pending
   waveform 1 at 5, 0 at 6, the assignment "reject 4 inertial 1 after 8" at
   time 0 must delete both, the code keeps the transaction at 5.  The pending
   waveform is the result of a two-element assignment. *)
Theorem C07_marking_rule_refuted :
  exists ops now d a r v,
    legal_run N.eqb 0 (start 0 (Tx 0 0)) ops /\
    drun N.eqb 0 (start 0 (Tx 0 0)) (map op_of ops) = (now, d) /\
    r <= a /\ now + a < 2 ^ 63 /\
    view (dwave (fst (assign N.eqb now d a r v))) <>
      lrm_assign N.eqb (now + a) r v (view (dwave d)).
Proof.
  exists [SAssign 5 5 1; SAssign 6 0 0], 0, (Drv (Tx 0 0) [Tx 5 1; Tx 6 0] false), 8, 4, 1.
  split; [vm_compute; repeat split; intro; discriminate|]. split; [reflexivity|].
  split; [intro; discriminate|]. split; [reflexivity|]. vm_compute. discriminate.
Qed.
Print Assumptions C07_marking_rule_refuted.

(* What holds of every history: the code keeps every transaction the standard
   keeps, in the same order, and any further transaction it keeps lies in the
   rejection window, before the new one, and has the new value. *)
Theorem C07_keeps_at_least_lrm_partial :
  forall (V : Type) (eqv : V -> V -> bool) (zero : V) now0 init ops now d a r v,
    (forall x y, eqv x y = true <-> x = y) -> now0 < 2 ^ 63 ->
    legal_run eqv zero (start now0 init) ops ->
    drun eqv zero (start now0 init) (map op_of ops) = (now, d) ->
    r <= a -> now + a < 2 ^ 63 ->
    let w' := view (dwave (fst (assign eqv now d a r v))) in
    let lrm := lrm_assign eqv (now + a) r v (view (dwave d)) in
    (forall t x, In (t, x) lrm -> In (t, x) w') /\
    (forall t x, In (t, x) w' -> ~ In (t, x) lrm -> now + a <= t + r /\ t < now + a /\ x = v).
Proof.
  intros V eqv zero now0 init ops now d a r v Heq H0 L E Hr Ha w' lrm.
  assert (I : dinv now (dwave d)).
  { pose proof (legal_inv eqv zero ops (start now0 init)) as G.
    rewrite E in G. apply G; [|exact L]. split; [constructor|]. split; [constructor|].
    split; [exact H0|constructor]. }
  destruct (assign_ok eqv now d a r v I Hr Ha) as [Ea _].
  assert (S : StronglySorted N.lt (map fst (filter (fun tv => fst tv <? now + a) (view (dwave d))))).
  { apply ssorted_filter. rewrite view_fst. apply I. }
  assert (W : w' = filter (fun tv => (fst tv + r <? now + a) || eqv (snd tv) v)
      (filter (fun tv => fst tv <? now + a) (view (dwave d))) ++ [(now + a, v)]).
  { subst w'. rewrite Ea. cbn [fst dwave]. unfold view at 1. rewrite map_app.
    fold (view (filter (window eqv (now + a) r v) (dwave d))).
    rewrite view_filter_window. reflexivity. }
  assert (F : Forall (fun tv => fst tv < now + a)
      (filter (fun tv => fst tv <? now + a) (view (dwave d)))).
  { rewrite Forall_forall. intros x Hx. apply filter_In in Hx. apply N.ltb_lt. apply Hx. }
  rewrite W. subst lrm. unfold lrm_assign.
  set (old := filter (fun tv => fst tv <? now + a) (view (dwave d))) in *.
  split.
  - intros t x Hin. apply (lrm_subset eqv Heq) in Hin; [|assumption|assumption].
    rewrite in_app_iff. destruct Hin as [Hin|[Hin C]]; [right; left; congruence|].
    left. apply filter_In. split; [assumption|]. cbn. apply orb_true_iff.
    destruct C; [left; apply N.ltb_lt; assumption|right; apply Heq; assumption].
  - intros t x Hin Hn. rewrite in_app_iff in Hin. destruct Hin as [Hin|[Hin|[]]].
    + apply filter_In in Hin. destruct Hin as [Hin C]. cbn [fst snd] in C.
      rewrite Forall_forall in F. pose proof (F _ Hin) as Ft. cbn in Ft.
      destruct (N.lt_ge_cases (t + r) (now + a)) as [Lt|Ge].
      * exfalso. apply Hn. clear -Hin Lt. induction old as [|[t0 x0] old IH]; [contradiction|].
        cbn [lrm_marked]. destruct (lrm_marked eqv (now + a) r v old) as [kept [sm sv]].
        cbn [fst] in *. destruct Hin as [Hin|Hin].
        -- injection Hin as -> ->. replace (t + r <? now + a) with true
             by (symmetry; apply N.ltb_lt; assumption). left. reflexivity.
        -- specialize (IH Hin). destruct ((t0 + r <? now + a) || (sm && eqv x0 sv)); [right|]; exact IH.
      * apply orb_true_iff in C. destruct C as [C|C]; [apply N.ltb_lt in C; lia|].
        apply Heq in C. auto.
    + exfalso. apply Hn. injection Hin as <- <-. clear. induction old as [|[t0 x0] old IH]; [left; reflexivity|].
      cbn [lrm_marked]. destruct (lrm_marked eqv (now + a) r v old) as [kept [sm sv]].
      cbn [fst] in *. destruct ((t0 + r <? now + a) || (sm && eqv x0 sv)); [right|]; exact IH.
Qed.
Print Assumptions C07_keeps_at_least_lrm_partial.

(* Exact agreement for transport delay (rejection limit zero) in any history. *)
Theorem C07_transport_exact_partial :
  forall (V : Type) (eqv : V -> V -> bool) (zero : V) now0 init ops now d a v,
    (forall x y, eqv x y = true <-> x = y) -> now0 < 2 ^ 63 ->
    legal_run eqv zero (start now0 init) ops ->
    drun eqv zero (start now0 init) (map op_of ops) = (now, d) ->
    now + a < 2 ^ 63 ->
    view (dwave (fst (assign eqv now d a 0 v))) =
      filter (fun tv => fst tv <? now + a) (view (dwave d)) ++ [(now + a, v)] /\
    view (dwave (fst (assign eqv now d a 0 v))) = lrm_assign eqv (now + a) 0 v (view (dwave d)).
Proof.
  intros V eqv zero now0 init ops now d a v Heq H0 L E Ha.
  assert (I : dinv now (dwave d)).
  { pose proof (legal_inv eqv zero ops (start now0 init)) as G.
    rewrite E in G. apply G; [|exact L]. split; [constructor|]. split; [constructor|].
    split; [exact H0|constructor]. }
  destruct (assign_ok eqv now d a 0 v I (N.le_0_l _) Ha) as [Ea _].
  assert (W : view (dwave (fst (assign eqv now d a 0 v))) =
    filter (fun tv => (fst tv + 0 <? now + a) || eqv (snd tv) v)
      (filter (fun tv => fst tv <? now + a) (view (dwave d))) ++ [(now + a, v)]).
  { rewrite Ea. cbn [fst dwave]. unfold view at 1. rewrite map_app.
    fold (view (filter (window eqv (now + a) 0 v) (dwave d))).
    rewrite view_filter_window. reflexivity. }
  rewrite W. unfold lrm_assign.
  assert (S : StronglySorted N.lt (map fst (filter (fun tv => fst tv <? now + a) (view (dwave d))))).
  { apply ssorted_filter. rewrite view_fst. apply I. }
  assert (F : Forall (fun tv => fst tv < now + a)
      (filter (fun tv => fst tv <? now + a) (view (dwave d)))).
  { rewrite Forall_forall. intros x Hx. apply filter_In in Hx. apply N.ltb_lt. apply Hx. }
  set (old := filter (fun tv => fst tv <? now + a) (view (dwave d))) in *. clearbody old.
  assert (R : suffix_run (now + a) 0 v old).
  { clear S W. induction F as [|[t x] old Ht F IH]; [exact Logic.I|]. cbn in Ht |- *. split; [|exact IH].
    intros; exfalso; lia. }
  split.
  - f_equal. clear -F. induction F as [|[t x] old Ht F IH]; [reflexivity|]. cbn [filter fst snd] in *.
    replace (t + 0 <? now + a) with true by (symmetry; apply N.ltb_lt; lia). cbn [orb]. f_equal. exact IH.
  - symmetry. apply (lrm_agrees eqv Heq (now + a) 0 v old S R).
Qed.
Print Assumptions C07_transport_exact_partial.

(* Default inertial assignments: one element, rejection limit equal to the
   delay. *)
Definition default_inertial {V} (op : sop V) : Prop :=
  match op with SAssign a r _ => r = a | SWake _ => True end.

Lemma default_inertial_uniform {V} (eqv : V -> V -> bool) (zero : V) :
  (forall x y, eqv x y = true <-> x = y) ->
  forall ops s, dinv (fst s) (dwave (snd s)) ->
     (exists u, Forall (fun x => tval x = u) (dwave (snd s))) ->
     Forall default_inertial ops -> legal_run eqv zero s ops ->
     let s' := drun eqv zero s (map op_of ops) in
     dinv (fst s') (dwave (snd s')) /\ exists u, Forall (fun x => tval x = u) (dwave (snd s')).
Proof.
  intros Heq. induction ops as [|op ops IH]; intros s I U FD L; [split; assumption|].
  inversion FD as [|? ? Hd FD']; subst. cbn [legal_run] in L. destruct L as [L1 L2].
  cbn [map drun fold_left]. apply IH; [| |exact FD'|exact L2].
  - pose proof (legal_inv eqv zero [op] s I (conj L1 Logic.I)) as G. exact G.
  - destruct s as [now d]. cbn [fst snd] in *.
    destruct op as [a r v|t]; cbn [op_of dstep default_inertial fst snd] in *.
    + subst r. destruct L1 as [Lr Lt]. destruct (assign_ok eqv now d a a v I Lr Lt) as [Ea _].
      rewrite Ea. cbn [fst dwave]. exists v. rewrite Forall_app. split; [|repeat constructor].
      rewrite Forall_forall. intros x Hx. apply filter_In in Hx. destruct Hx as [Hx W].
      unfold window in W. apply andb_true_iff in W. destruct W as [_ W].
      destruct I as (_ & F & _). rewrite Forall_forall in F. specialize (F _ Hx).
      apply orb_true_iff in W. destruct W as [W|W]; [apply N.ltb_lt in W; lia|].
      apply Heq. exact W.
    + destruct L1 as (A & B & C). rewrite (view_forall (fun x => t <= x)) in C.
      destruct (wake_ok now t d I A B C) as (_ & W & _). rewrite W.
      destruct U as [u U]. exists u. rewrite Forall_forall in *. intros x Hx.
      apply filter_In in Hx. apply U. apply Hx.
Qed.

(* Exact agreement in every history of default inertial assignments. *)
Theorem C07_default_inertial_exact_partial :
  forall (V : Type) (eqv : V -> V -> bool) (zero : V) now0 init ops now d a v,
    (forall x y, eqv x y = true <-> x = y) -> now0 < 2 ^ 63 ->
    Forall default_inertial ops ->
    legal_run eqv zero (start now0 init) ops ->
    drun eqv zero (start now0 init) (map op_of ops) = (now, d) ->
    now + a < 2 ^ 63 ->
    view (dwave (fst (assign eqv now d a a v))) = lrm_assign eqv (now + a) a v (view (dwave d)).
Proof.
  intros V eqv zero now0 init ops now d a v Heq H0 FD L E Ha.
  destruct (default_inertial_uniform eqv zero Heq ops (start now0 init)) as [I [u U]].
  - split; [constructor|]. split; [constructor|]. split; [exact H0|constructor].
  - exists (tval init). constructor.
  - exact FD.
  - exact L.
  - rewrite E in I, U. cbn [fst snd] in I, U.
    destruct (assign_ok eqv now d a a v I (N.le_refl _) Ha) as [Ea _].
    rewrite Ea. cbn [fst dwave]. unfold view at 1. rewrite map_app.
    fold (view (filter (window eqv (now + a) a v) (dwave d))).
    rewrite view_filter_window. unfold lrm_assign.
    symmetry. apply (lrm_agrees eqv Heq).
    + apply ssorted_filter. rewrite view_fst. apply I.
    + assert (UV : Forall (fun tv => snd tv = u)
        (filter (fun tv => fst tv <? now + a) (view (dwave d)))).
      { rewrite Forall_forall in *. intros [t x] Hx. apply filter_In in Hx. destruct Hx as [Hx _].
        apply view_in in Hx. exact (U _ Hx). }
      induction UV as [|[t x] w Hx UV IH]; [exact Logic.I|]. cbn [suffix_run]. split; [|exact IH].
      intros _ ->. cbn in Hx. subst u. exact UV.
Qed.
Print Assumptions C07_default_inertial_exact_partial.

Example C07_default_case :
  let ops := [SAssign 5 5 1; SAssign 9 9 1; SAssign 12 12 1; SWake 5] in
  legal_run N.eqb 0 (start 0 (Tx 0 0)) ops /\ Forall default_inertial ops /\
  let '(now, d) := drun N.eqb 0 (start 0 (Tx 0 0)) (map op_of ops) in
  view (dwave d) = [(9, 1); (12, 1)] /\
  view (dwave (fst (assign N.eqb now d 10 10 1))) = [(9, 1); (12, 1); (15, 1)] /\
  view (dwave (fst (assign N.eqb now d 10 10 2))) = [(15, 2)].
Proof.
  vm_compute. repeat split; try (intro; discriminate);
  repeat (constructor; try (intro; discriminate)).
Qed.

(* Null transactions (disconnection of a guarded driver): a transaction that
   precedes a disconnection or an assignment must survive outside the
   rejection window.  It does not: an earlier pending disconnection is deleted
   by any later assignment because it is stored with a negated time. *)
Theorem C47_null_transaction_kept_refuted :
  exists now d a v,
    let d1 := fst (disconnect N.eqb 0 now d 5 0) in
    let d2 := fst (assign N.eqb now d1 a 0 v) in
    10 <= a /\ dwave d = [] /\ dwave d1 = [Tx (neg64 5) 0] /\ dwave d2 = [Tx a v].
Proof.
  exists 0, (Drv (Tx 0 0) [] false), 10, 1. vm_compute.
  repeat split; try (intro; discriminate).
Qed.
Print Assumptions C47_null_transaction_kept_refuted.

(* A disconnection "after 0 ns" at time zero does not disconnect: -0 = 0 is
   taken for an ordinary transaction. *)
Theorem C47_disconnect_at_time_zero_refuted :
  exists d, let d1 := fst (disconnect N.eqb 0 0 d 0 0) in
    ddisc (fst (update_driver 0 d1)) = false /\ dwave d1 <> [].
Proof.
  exists (Drv (Tx 0 7) [] false). vm_compute. split; [reflexivity|discriminate].
Qed.
Print Assumptions C47_disconnect_at_time_zero_refuted.

(* What holds: a disconnection with nothing assigned afterwards takes effect at
   its time, provided that time is not zero. *)
Theorem C47_disconnect_takes_effect_partial :
  forall (V : Type) (eqv : V -> V -> bool) (zero : V) now0 init ops now d a r,
    (forall x y, eqv x y = true <-> x = y) -> now0 < 2 ^ 63 ->
    legal_run eqv zero (start now0 init) ops ->
    drun eqv zero (start now0 init) (map op_of ops) = (now, d) ->
    r <= a -> now + a < 2 ^ 63 -> 0 < now + a ->
    let d1 := fst (disconnect eqv zero now d a r) in
    (forall t x, In (t, x) (view (dwave d)) -> t + r < now + a -> In (t, x) (view (dwave d1))) /\
    (forall t x, In (t, x) (view (dwave d1)) -> t < 2 ^ 63 ->
        In (t, x) (view (dwave d)) /\ t < now + a) /\
    (dwave d = [] -> ddisc (fst (update_driver (now + a) d1)) = true).
Proof.
  intros V eqv zero now0 init ops now d a r Heq H0 L E Hr Ha Hp d1.
  assert (I : dinv now (dwave d)).
  { pose proof (legal_inv eqv zero ops (start now0 init)) as G.
    rewrite E in G. apply G; [|exact L]. split; [constructor|]. split; [constructor|].
    split; [exact H0|constructor]. }
  subst d1. unfold disconnect. rewrite add64_small by assumption.
  unfold insert_transaction. cbn [tval].
  destruct (scan_spec eqv (now + a) r zero (dwave d) ltac:(lia) Ha (proj1 I)) as [A B].
  destruct (insert_scan eqv (now + a) r zero (dwave d)) as [kept rest]. cbn [fst snd dwave] in *.
  subst kept rest. pose proof (neg64_big (now + a) (conj Hp Ha)) as NB. split; [|split].
  - intros t x H Lt. apply view_in in H. apply view_in. rewrite in_app_iff. left.
    apply filter_In. split; [assumption|]. cbn.
    replace (t <? now + a) with true by (symmetry; apply N.ltb_lt; lia).
    replace (t + r <? now + a) with true by (symmetry; apply N.ltb_lt; lia). reflexivity.
  - intros t x H Lt. apply view_in in H. rewrite in_app_iff in H. destruct H as [H|[H|[]]].
    + apply filter_In in H. destruct H as [H W]. split; [apply view_in; assumption|].
      apply andb_true_iff in W. apply N.ltb_lt. apply W.
    + injection H as <- <-. lia.
  - intros ->. cbn [filter app update_driver dwave twhen].
    destruct (N.eqb_spec (neg64 (now + a)) (now + a)); [lia|].
    rewrite N.eqb_refl. reflexivity.
Qed.
Print Assumptions C47_disconnect_takes_effect_partial.
