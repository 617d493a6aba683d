(* The model of the activity attributes keeps what the specification says. *)
From Coq Require Import List ZArith Bool Lia Sorting.Sorted.
From Verif Require Import Base SigAttrModel SigAttrSpec ActiveSpec ActiveModel.
Import ListNotations.
Local Open Scope Z_scope.

Lemma kept_in keep t l x : In x (kept keep t l) -> In x l /\ x < t.
Proof.
  revert keep. induction l as [|y l IH]; intros keep H; destruct keep as [|k keep]; cbn [kept] in H; try contradiction.
  destruct ((y <? t) && k) eqn:E.
  - apply andb_prop in E. destruct E as (E & _). apply Z.ltb_lt in E.
    destruct H as [<-|H]; [split; [left; reflexivity|exact E]|].
    destruct (IH _ H). split; [right; assumption|assumption].
  - destruct (IH _ H). split; [right; assumption|assumption].
Qed.
Lemma kept_sorted keep t l : StronglySorted Z.lt l -> StronglySorted Z.lt (kept keep t l).
Proof.
  intros H. revert keep. induction H as [|y l H IH F]; intros keep; destruct keep as [|k keep]; cbn [kept]; try constructor.
  destruct ((y <? t) && k); [|apply IH]. constructor; [apply IH|].
  rewrite Forall_forall in *. intros x Hx. apply F. exact (proj1 (kept_in _ _ _ _ Hx)).
Qed.
Lemma sorted_snoc (l : list Z) t : StronglySorted Z.lt l -> Forall (fun x => x < t) l -> StronglySorted Z.lt (l ++ [t]).
Proof.
  induction 1 as [|y l H IH F]; intros A; cbn [app]; [repeat constructor|].
  inversion_clear A. constructor; [apply IH; assumption|]. apply Forall_app. split; [exact F|].
  constructor; [assumption|constructor].
Qed.
Lemma filter_all (f : Z -> bool) l : Forall (fun x => f x = true) l -> filter f l = l.
Proof. induction 1 as [|x l H _ IH]; cbn [filter]; [reflexivity|]. rewrite H, IH. reflexivity. Qed.
Lemma existsb_none t l : Forall (fun x => t < x) l -> existsb (Z.eqb t) l = false.
Proof.
  induction 1 as [|x l H _ IH]; cbn [existsb]; [reflexivity|].
  rewrite IH. destruct (Z.eqb_spec t x); [lia|reflexivity].
Qed.

(* What holds when no transaction was taken by the fast path in the current cycle *)
Record quiet (s : dstate) (d : driver_spec) : Prop := {
  q_now : d_now d = d_time s;
  q_time : 0 <= d_time s < time_high;
  q_iter : -1 <= d_iter s;
  q_pend : w_next s = d_pend d;
  q_fast : fast s = true -> w_next s = [];
  q_queue : fastqueued s = false;
  q_sorted : StronglySorted Z.lt (d_pend d);
  q_due : Forall (fun x => d_time s <= x) (d_pend d);
  q_last : match d_last d with
           | Some t => w_when s = t /\ 0 <= t <= d_time s
           | None => w_when s = time_high
           end;
  q_active : d_active d = true -> w_when s = d_time s /\ adelta s = d_iter s /\ 0 <= d_iter s;
  q_idle : d_active d = false -> w_when s = d_time s -> 0 <= adelta s < d_iter s }.
(* What holds when one was *)
Record busy (s : dstate) (d : driver_spec) : Prop := {
  b_now : d_now d = d_time s;
  b_time : 0 <= d_time s < time_high;
  b_iter : -1 <= d_iter s;
  b_pend : d_pend d = [d_time s];
  b_next : w_next s = [];
  b_fast : fast s = true;
  b_when : w_when s = d_time s;
  b_mark : fastqueued s = false -> adelta s = delta_cycle (d_iter s + 1) }.

Lemma kept_zero keep t l : Forall (fun x => t <= x) l -> kept keep t l = [].
Proof.
  intros F. revert keep. induction F as [|x l H _ IH]; intros keep; destruct keep as [|k keep]; cbn [kept]; try reflexivity.
  destruct (Z.ltb_spec x t); [lia|]. apply IH.
Qed.

Lemma sched_quiet s d a : quiet s d -> 0 <= a_after a ->
  exists s', sched_driver s a = Ok s' /\
    (if (a_after a =? 0) && fast s then busy s' (sp_assign d a) else quiet s' (sp_assign d a)) /\
    d_time s' = d_time s /\ d_iter s' = d_iter s /\
    (fast s = false -> fast s' = false) /\ (0 < a_after a -> fast s' = false).
Proof.
  intros Q P. unfold sched_driver, sp_assign. destruct ((a_after a =? 0) && fast s) eqn:E.
  - apply andb_prop in E. destruct E as (E & F). apply Z.eqb_eq in E.
    rewrite (q_fast s d Q F), (q_queue s d Q).
    assert (K : kept (a_keep a) (d_now d + a_after a) (d_pend d) ++ [d_now d + a_after a] = [d_time s]).
    { rewrite kept_zero; [rewrite E, (q_now s d Q); cbn [app]; f_equal; lia|].
      rewrite E, (q_now s d Q), Z.add_0_r. exact (q_due s d Q). }
    pose proof (q_time s d Q). pose proof (q_iter s d Q). pose proof (q_now s d Q).
    destruct (a_value a =? w_value s); eexists; split; try reflexivity;
      (split; [constructor; cbn; auto; try congruence|]); repeat split; cbn; auto; try congruence; lia.
  - eexists. split; [reflexivity|]. rewrite (q_queue s d Q), andb_false_r. rewrite (q_pend s d Q), (q_now s d Q).
    pose proof (q_time s d Q). pose proof (q_iter s d Q).
    split; [|repeat split; reflexivity].
    constructor; cbn.
    + reflexivity.
    + assumption.
    + assumption.
    + reflexivity.
    + discriminate.
    + reflexivity.
    + apply sorted_snoc; [apply kept_sorted; exact (q_sorted s d Q)|].
      apply Forall_forall. intros x Hx. exact (proj2 (kept_in _ _ _ _ Hx)).
    + apply Forall_app. split; [|constructor; [lia|constructor]].
      apply Forall_forall. intros x Hx. apply kept_in in Hx.
      pose proof (q_due s d Q) as D. rewrite Forall_forall in D. apply D. apply Hx.
    + exact (q_last s d Q).
    + exact (q_active s d Q).
    + exact (q_idle s d Q).
Qed.

Lemma sched_busy s d a : busy s d -> a_after a = 0 ->
  exists s', sched_driver s a = Ok s' /\ busy s' (sp_assign d a) /\
    d_time s' = d_time s /\ d_iter s' = d_iter s.
Proof.
  intros B P. unfold sched_driver, sp_assign. rewrite P, (b_fast s d B), (b_next s d B). cbn [Z.eqb andb].
  assert (K : kept (a_keep a) (d_now d + 0) (d_pend d) ++ [d_now d + 0] = [d_time s]).
  { rewrite (b_now s d B), Z.add_0_r, (b_pend s d B), kept_zero; [reflexivity|].
    constructor; [lia|constructor]. }
  pose proof (b_time s d B). pose proof (b_iter s d B). pose proof (b_now s d B).
  destruct (fastqueued s) eqn:F; [|destruct (a_value a =? w_value s)]; eexists;
    (split; [reflexivity|]); (split; [|split; reflexivity]); constructor; cbn; auto; congruence.
Qed.

Lemma drives_busy l : forall s d, busy s d -> Forall (fun a => a_after a = 0) l ->
  exists s', drives s l = Ok s' /\ busy s' (fold_left sp_assign l d) /\
    d_time s' = d_time s /\ d_iter s' = d_iter s.
Proof.
  induction l as [|a l IH]; intros s d B F; cbn [drives fold_left].
  - exists s. auto.
  - inversion F as [|? ? A F']; subst. destruct (sched_busy s d a B A) as (s1 & E & B1 & T & I).
    rewrite E. cbn [bind]. destruct (IH s1 _ B1 F') as (s2 & E2 & B2 & T2 & I2).
    exists s2. rewrite T2, I2. auto.
Qed.
Lemma drives_slow l : forall s d, quiet s d -> fast s = false -> nonneg l ->
  exists s', drives s l = Ok s' /\ quiet s' (fold_left sp_assign l d) /\ fast s' = false /\
    d_time s' = d_time s /\ d_iter s' = d_iter s.
Proof.
  induction l as [|a l IH]; intros s d Q S F; cbn [drives fold_left].
  - exists s. auto.
  - inversion F as [|? ? A F']; subst. destruct (sched_quiet s d a Q A) as (s1 & E & Q1 & T & I & N & _).
    rewrite S, andb_false_r in Q1. rewrite E. cbn [bind].
    destruct (IH s1 _ Q1 (N S) F') as (s2 & E2 & Q2 & S2 & T2 & I2).
    exists s2. rewrite T2, I2. auto.
Qed.
Lemma drives_ok l s d : quiet s d -> nonneg l -> (fast s = true -> unmixed l) ->
  exists s', drives s l = Ok s' /\
    (quiet s' (fold_left sp_assign l d) \/ busy s' (fold_left sp_assign l d)) /\
    d_time s' = d_time s /\ d_iter s' = d_iter s /\
    (Forall (fun a => 0 < a_after a) l \/ fast s = false -> quiet s' (fold_left sp_assign l d)) /\
    (Exists (fun a => 0 < a_after a) l \/ fast s = false -> fast s' = false).
Proof.
  intros Q N U. destruct (fast s) eqn:Fs.
  2:{ destruct (drives_slow l s d Q Fs N) as (s' & E & Q' & F' & T & I). exists s'.
      split; [exact E|]. split; [left; exact Q'|]. split; [exact T|]. split; [exact I|]. split; intros; assumption. }
  specialize (U eq_refl).
  destruct l as [|a l]; [exists s; cbn [drives fold_left]; split; [reflexivity|]; split; [left; exact Q|]; split; [reflexivity|];
    split; [reflexivity|]; split; [intros _; exact Q|]; intros [H|H]; inversion H|].
  inversion N as [|? ? A N']; subst. cbn [drives fold_left].
  destruct (sched_quiet s d a Q A) as (s1 & E & Q1 & T & I & _ & P). rewrite E. cbn [bind]. rewrite Fs, andb_true_r in Q1.
  destruct (Z.eqb_spec (a_after a) 0) as [Z0|NZ].
  - cbn [unmixed] in U. specialize (U Z0).
    assert (XZ : ~ Exists (fun a => 0 < a_after a) (a :: l)).
    { intros X. apply Exists_exists in X. destruct X as (x & Hx & X).
      rewrite Forall_forall in U. specialize (U x Hx). lia. }
    inversion U as [|? ? _ U']; subst.
    destruct (drives_busy l s1 _ Q1 U') as (s2 & E2 & B2 & T2 & I2). exists s2. rewrite T2, I2.
    split; [exact E2|]. split; [right; exact B2|]. split; [exact T|]. split; [exact I|]. split.
    + intros [H|H]; [|discriminate]. inversion H; subst. lia.
    + intros [H|H]; [|discriminate]. contradiction.
  - destruct (drives_slow l s1 _ Q1 ltac:(apply P; lia) N') as (s2 & E2 & Q2 & F2 & T2 & I2).
    exists s2. rewrite T2, I2.
    split; [exact E2|]. split; [left; exact Q2|]. split; [exact T|]. split; [exact I|]. split; intros; assumption.
Qed.

Lemma delta_small i : 0 <= i < 65536 -> delta_cycle i = i.
Proof. intros H. unfold delta_cycle. apply Z.mod_small. change (2 ^ 16) with 65536. lia. Qed.

Lemma due_cases s d t : quiet s d -> Forall (fun x => t <= x) (d_pend d) ->
  (exists r, d_pend d = t :: r /\ Forall (fun x => t < x) r /\ StronglySorted Z.lt r) \/
  Forall (fun x => t < x) (d_pend d).
Proof.
  intros Q F. pose proof (q_sorted s d Q) as S. destruct (d_pend d) as [|x r]; [right; constructor|].
  inversion S as [|? ? S' A]; subst. inversion F as [|? ? B F']; subst.
  destruct (Z.eq_dec x t) as [->|N].
  - left. exists r. auto.
  - right. constructor; [lia|]. rewrite Forall_forall in *. intros y Hy. specialize (A y Hy). lia.
Qed.

Lemma begin_step s d n : quiet s d \/ busy s d -> forward n ->
  m_time (after (At (d_time s) (d_iter s)) n) < time_high ->
  m_delta (after (At (d_time s) (d_iter s)) n) < 65536 ->
  sp_fair d n ->
  quiet (dbegin s n) (sp_begin d n) /\ fast (dbegin s n) = fast s /\
  At (d_time (dbegin s n)) (d_iter (dbegin s n)) = after (At (d_time s) (d_iter s)) n.
Proof.
  intros QB FW TL DL FR.
  set (t := m_time (after (At (d_time s) (d_iter s)) n)) in *.
  set (i := m_delta (after (At (d_time s) (d_iter s)) n)) in *.
  assert (EB : dbegin s n =
    if fastqueued s && fast s
    then DState (delta_cycle i) (fast s) (w_when s) (w_value s) (w_next s) false (was_active s) t i
    else match w_next s with
         | x :: nx => if x =? t then DState (delta_cycle i) (fast s) t (w_value s) nx false (was_active s) t i
                      else DState (adelta s) (fast s) (w_when s) (w_value s) (x :: nx) false (was_active s) t i
         | [] => DState (adelta s) (fast s) (w_when s) (w_value s) [] false (was_active s) t i
         end) by (destruct n; reflexivity).
  assert (AF : At t i = after (At (d_time s) (d_iter s)) n) by (unfold t, i; destruct n; reflexivity).
  assert (AT : forall s', dbegin s n = s' -> d_time s' = t -> d_iter s' = i ->
            At (d_time (dbegin s n)) (d_iter (dbegin s n)) = after (At (d_time s) (d_iter s)) n).
  { intros s' -> -> ->. exact AF. }
  destruct QB as [Q|B].
  - assert (ES : sp_begin d n = DSpec t (filter (fun x => negb (x =? t)) (d_pend d)) (existsb (Z.eqb t) (d_pend d))
        (if existsb (Z.eqb t) (d_pend d) then Some t else d_last d)).
    { unfold sp_begin, t. destruct n; cbn [after m_time]; rewrite (q_now s d Q); reflexivity. }
    assert (FT : Forall (fun x => t <= x) (d_pend d)).
    { unfold t. destruct n as [|e]; cbn [after m_time]; [exact (q_due s d Q)|].
      apply Forall_forall. intros x Hx. cbn [sp_fair] in FR. specialize (FR x Hx). rewrite (q_now s d Q) in FR. exact FR. }
    assert (TI : d_time s <= t /\ 0 <= i /\ (t = d_time s -> i = d_iter s + 1)).
    { unfold t, i. pose proof (q_iter s d Q). destruct n as [|e]; cbn [after m_time m_delta]; [lia|]. cbn [forward] in FW. lia. }
    destruct TI as (T1 & I0 & I1). pose proof (q_time s d Q) as TM.
    rewrite EB, ES, (q_queue s d Q), (q_pend s d Q). cbn [andb].
    destruct (due_cases s d t Q FT) as [(r & ER & AR & SR)|NR].
    + rewrite ER. rewrite Z.eqb_refl. cbn [existsb filter]. rewrite Z.eqb_refl. cbn [negb orb].
      rewrite filter_all; [|apply Forall_forall; intros x Hx; rewrite Forall_forall in AR; specialize (AR x Hx);
                            destruct (Z.eqb_spec x t); [lia|reflexivity]].
      split; [|split; [reflexivity|exact AF]].
      assert (FF : fast s = true -> False).
      { intros F. pose proof (q_fast s d Q F) as W. rewrite (q_pend s d Q), ER in W. discriminate. }
      constructor; cbn; auto; try lia.
      * intros F. contradiction (FF F).
      * apply Forall_forall. intros x Hx. rewrite Forall_forall in AR. specialize (AR x Hx). lia.
      * intros _. split; [reflexivity|]. split; [apply delta_small|]; lia.
    + rewrite (existsb_none t _ NR).
      rewrite filter_all; [|apply Forall_forall; intros x Hx; rewrite Forall_forall in NR; specialize (NR x Hx);
                            destruct (Z.eqb_spec x t); [lia|reflexivity]].
      assert (EQ : match d_pend d with
         | [] => DState (adelta s) (fast s) (w_when s) (w_value s) [] false (was_active s) t i
         | x :: nx => if x =? t then DState (delta_cycle i) (fast s) t (w_value s) nx false (was_active s) t i
                      else DState (adelta s) (fast s) (w_when s) (w_value s) (x :: nx) false (was_active s) t i
         end = DState (adelta s) (fast s) (w_when s) (w_value s) (d_pend d) false (was_active s) t i).
      { destruct (d_pend d) as [|x r]; [reflexivity|]. inversion NR; subst. destruct (Z.eqb_spec x t); [lia|reflexivity]. }
      rewrite EQ. split; [|split; [reflexivity|exact AF]].
      constructor; cbn; auto; try lia.
      * intros F. rewrite <- (q_pend s d Q). exact (q_fast s d Q F).
      * exact (q_sorted s d Q).
      * pose proof (q_last s d Q) as L. destruct (d_last d); [|exact L]. destruct L. split; [assumption|lia].
      * intros _ W. pose proof (q_last s d Q) as L.
        assert (TE : t = d_time s).
        { destruct (d_last d) as [u|]; [destruct L; lia|]. lia. }
        rewrite (I1 TE). rewrite TE in W. destruct (d_active d) eqn:A.
        -- destruct (q_active s d Q A) as (_ & -> & ?). lia.
        -- pose proof (q_idle s d Q A W). lia.
  - destruct n as [|e].
    2:{ cbn [sp_fair forward] in *. specialize (FR (d_time s)). rewrite (b_pend s d B), (b_now s d B) in FR.
        specialize (FR (or_introl eq_refl)). lia. }
    assert (ET : t = d_time s) by reflexivity. assert (EI : i = d_iter s + 1) by reflexivity.
    pose proof (b_iter s d B) as BI. pose proof (b_time s d B) as BT.
    assert (ES : sp_begin d NextDelta = DSpec t [] true (Some t)).
    { unfold sp_begin. rewrite (b_now s d B), (b_pend s d B), ET. cbn [existsb filter].
      rewrite Z.eqb_refl. reflexivity. }
    rewrite ES, EB, (b_fast s d B), (b_next s d B), (b_when s d B), andb_true_r.
    destruct (fastqueued s) eqn:F.
    + split; [|split; [reflexivity|exact AF]].
      constructor; cbn; auto; try lia; try constructor; try discriminate; try lia.
      rewrite delta_small; lia.
    + pose proof (b_mark s d B F) as M. split; [|split; [reflexivity|exact AF]].
      constructor; cbn; auto; try lia; try constructor; try discriminate; try lia.
      rewrite M. rewrite delta_small; lia.
Qed.

Lemma run_ok cs : forall s d, (quiet s d \/ busy s d) ->
  (fast s = true -> unmixeds (map snd cs)) ->
  Forall (fun c => nonneg (snd c)) cs ->
  in_time (At (d_time s) (d_iter s)) (map fst cs) -> sp_runs d cs ->
  exists s', drun s cs = Ok s' /\ (quiet s' (sp_run d cs) \/ busy s' (sp_run d cs)).
Proof.
  induction cs as [|[n l] cs IH]; intros s d QB U N IT FR; cbn [drun sp_run].
  - exists s. auto.
  - cbn [map fst snd in_time sp_runs unmixeds] in *. destruct IT as (FW & TL & DL & IT). destruct FR as (FR & FRS).
    inversion N as [|? ? N1 N2]; subst. cbn [snd] in N1.
    destruct (begin_step s d n QB FW TL DL FR) as (Q1 & F1 & A1).
    destruct (drives_ok l _ _ Q1 N1 ltac:(rewrite F1; intros F; exact (proj1 (U F)))) as (s2 & E2 & QB2 & T2 & I2 & _ & D2).
    rewrite E2. cbn [bind]. apply IH; try assumption.
    + intros F. destruct (fast s) eqn:Fs.
      * destruct (proj2 (U eq_refl)) as [X|X]; [|exact X]. rewrite (D2 (or_introl X)) in F. discriminate.
      * rewrite (D2 (or_intror F1)) in F. discriminate.
    + rewrite T2, I2, A1. exact IT.
Qed.

Lemma quiet_active s d : quiet s d -> nexus_active s = d_active d.
Proof.
  intros Q. unfold nexus_active. destruct (d_active d) eqn:A.
  - destruct (q_active s d Q A) as (-> & -> & _). rewrite !Z.eqb_refl. reflexivity.
  - destruct (Z.eqb_spec (w_when s) (d_time s)) as [E|]; [|reflexivity].
    pose proof (q_idle s d Q A E). destruct (Z.eqb_spec (adelta s) (d_iter s)); [lia|].
    destruct (Z.eqb_spec (adelta s) (d_iter s + 1)); [lia|]. reflexivity.
Qed.
Lemma quiet_last s d : quiet s d -> nexus_last_active s = sp_since d.
Proof.
  intros Q. unfold nexus_last_active, sp_since. pose proof (q_last s d Q) as L. pose proof (q_time s d Q) as T.
  destruct (d_last d) as [t|].
  - destruct L as (-> & L). destruct (Z.leb_spec t (d_time s)); [|lia].
    rewrite (q_now s d Q). unfold TIME_HIGH, time_high in *. lia.
  - rewrite L. destruct (Z.leb_spec time_high (d_time s)); [lia|]. reflexivity.
Qed.
Lemma initial_quiet v : quiet (dinitial v) (DSpec 0 [] false None).
Proof.
  constructor; cbn; auto; try lia; try constructor; try discriminate; unfold time_high; try lia;
    try (intros _ H; unfold TIME_HIGH in H; cbn in H; discriminate).
Qed.
