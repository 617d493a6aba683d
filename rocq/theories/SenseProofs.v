From Coq Require Import List Arith Bool Lia.
From Verif Require Import Base SenseModel SenseSpec.
Import ListNotations.

Definition holds (o : obj) (p : pending) : Prop := In (Some o) (slots p).

(* ---- one event ---- *)

Lemma notify_list postponed : forall ws s,
  wakes_exactly postponed (fun o => In (Some o) ws) s
    (fold_left (fun s w => match w with Some o => wakeup_one postponed s o | None => s end) ws s).
Proof.
  induction ws as [|w ws IH]; intros s; cbn [fold_left].
  - exists [], []. rewrite !app_nil_r. split; [reflexivity|]. split; [reflexivity|].
    split; [constructor|]. split; [constructor|].
    split; [|split]; intros o; cbn [In]; tauto.
  - destruct w as [a|].
    2:{ destruct (IH s) as (n & np & H1 & H2 & H3 & H4 & H5 & H6 & H7).
        exists n, np. repeat (split; [assumption|]).
        split; [|split]; intros o.
        + rewrite H5. cbn. intuition congruence.
        + rewrite H6. cbn. intuition congruence.
        + rewrite H7. cbn. intuition congruence. }
    unfold wakeup_one at 2. destruct (wpend s a) eqn:Pa.
    + destruct (IH s) as (n & np & H1 & H2 & H3 & H4 & H5 & H6 & H7).
      exists n, np. repeat (split; [assumption|]).
      split; [|split]; intros o.
      * rewrite H5. cbn. intuition congruence.
      * rewrite H6. cbn. intuition congruence.
      * rewrite H7. cbn. intuition congruence.
    + destruct (postponed a) eqn:Qa.
      * destruct (IH (W (set_flag (wpend s) a) (wprocq s) (wpostq s ++ [a])))
          as (n & np & H1 & H2 & H3 & H4 & H5 & H6 & H7).
        cbn [wpend wprocq wpostq] in *.
        exists n, (a :: np). rewrite <- app_assoc in H2. cbn in H2.
        repeat (split; [assumption|]).
        split; [|split; [|split]].
        -- constructor; [|assumption]. rewrite H6. unfold set_flag. rewrite Nat.eqb_refl. intuition congruence.
        -- intros o. rewrite H5. unfold set_flag. cbn [In].
           destruct (Nat.eqb_spec o a); [subst o|]; intuition congruence.
        -- intros o. cbn [In]. rewrite H6. unfold set_flag.
           destruct (Nat.eqb_spec o a); [subst o|]; intuition congruence.
        -- intros o. rewrite H7. unfold set_flag. cbn [In].
           destruct (Nat.eqb_spec o a); [subst o|]; intuition congruence.
      * destruct (IH (W (set_flag (wpend s) a) (wprocq s ++ [a]) (wpostq s)))
          as (n & np & H1 & H2 & H3 & H4 & H5 & H6 & H7).
        cbn [wpend wprocq wpostq] in *.
        exists (a :: n), np. rewrite <- app_assoc in H1. cbn in H1.
        repeat (split; [assumption|]).
        split; [|split; [|split; [|split]]].
        -- constructor; [|assumption]. rewrite H5. unfold set_flag. rewrite Nat.eqb_refl. intuition congruence.
        -- assumption.
        -- intros o. cbn [In]. rewrite H5. unfold set_flag.
           destruct (Nat.eqb_spec o a); [subst o|]; intuition congruence.
        -- intros o. rewrite H6. unfold set_flag. cbn [In].
           destruct (Nat.eqb_spec o a); [subst o|]; intuition congruence.
        -- intros o. rewrite H7. unfold set_flag. cbn [In].
           destruct (Nat.eqb_spec o a); [subst o|]; intuition congruence.
Qed.

Lemma wakes_ext postponed (P Q : obj -> Prop) s s' :
  (forall o, P o <-> Q o) -> wakes_exactly postponed P s s' -> wakes_exactly postponed Q s s'.
Proof.
  intros E (n & np & H1 & H2 & H3 & H4 & H5 & H6 & H7).
  exists n, np. repeat (split; [assumption|]).
  split; [|split]; intros o; [rewrite H5|rewrite H6|rewrite H7]; rewrite E; reflexivity.
Qed.

Lemma notify_wakes postponed p s :
  wakes_exactly postponed (fun o => holds o p) s (notify postponed p s).
Proof. apply notify_list. Qed.

(* ---- registered, by induction from the right ---- *)

Lemma registered_snoc o ops op :
  registered o (ops ++ [op]) <->
  op = Register o \/ (op <> Unregister o /\ registered o ops).
Proof.
  split.
  - intros (l1 & l2 & E & N). destruct (list_eq_dec Nat.eq_dec [] (map (fun _ => 0) l2)) as [E2|E2].
    + destruct l2; [|discriminate]. apply app_inj_tail in E. left. tauto.
    + destruct (exists_last (l := l2)) as (l2' & x & ->); [intros ->; now apply E2|].
      rewrite app_comm_cons, app_assoc in E. apply app_inj_tail in E. destruct E as [-> ->].
      right. split.
      * intros ->. apply N. apply in_or_app. right. now left.
      * exists l1, l2'. split; [reflexivity|]. intros H. apply N. apply in_or_app. now left.
  - intros [->|[N (l1 & l2 & -> & H)]].
    + exists ops, []. split; [reflexivity|easy].
    + exists l1, (l2 ++ [op]). split; [now rewrite <- app_assoc|].
      intros I. apply in_app_or in I. destruct I as [I|[I|[]]]; [tauto|]. now subst.
Qed.

Definition fresh (o : obj) (ops : list sense_op) : Prop :=
  exists l1 l2, ops = l1 ++ Register o :: l2 /\ forall x, ~ In (Unregister x) l2.

Lemma fresh_snoc o ops op :
  fresh o (ops ++ [op]) -> op = Register o \/ ((forall x, op <> Unregister x) /\ fresh o ops).
Proof.
  intros (l1 & l2 & E & N). destruct (list_eq_dec Nat.eq_dec [] (map (fun _ => 0) l2)) as [E2|E2].
  - destruct l2; [|discriminate]. apply app_inj_tail in E. left. tauto.
  - destruct (exists_last (l := l2)) as (l2' & x & ->); [intros ->; now apply E2|].
    rewrite app_comm_cons, app_assoc in E. apply app_inj_tail in E. destruct E as [-> ->].
    right. split.
    + intros y ->. apply (N y). apply in_or_app. right. now left.
    + exists l1, l2'. split; [reflexivity|]. intros y H. apply (N y). apply in_or_app. now left.
Qed.

Definition before_hole (o : obj) (ws : list (option obj)) : Prop :=
  exists l1 l2, ws = map Some l1 ++ Some o :: l2 /\ ~ In o l1.

Fixpoint occ (o : obj) (ws : list (option obj)) : nat :=
  match ws with
  | [] => 0
  | Some x :: ws' => (if x =? o then 1 else 0) + occ o ws'
  | None :: ws' => occ o ws'
  end.

Lemma occ_in o ws : In (Some o) ws <-> 1 <= occ o ws.
Proof.
  induction ws as [|[x|] ws IH]; cbn [occ In].
  - split; [easy|lia].
  - destruct (Nat.eqb_spec x o) as [E|N]; [subst x|].
    + split; [lia|now left].
    + rewrite <- Nat.add_0_l in IH at 1. split.
      * intros [[= E]|H]; [congruence|]. apply IH in H. lia.
      * intros H. right. apply IH. lia.
  - rewrite <- IH. split; [intros [H|H]; [discriminate|exact H]|now right].
Qed.

Lemma fill_same o ws : before_hole o ws -> wake_fill o ws = ws.
Proof.
  intros (l1 & l2 & -> & N). induction l1 as [|a l1 IH]; cbn [map app wake_fill].
  - now rewrite Nat.eqb_refl.
  - destruct (Nat.eqb_spec a o) as [E|E].
    + subst a. reflexivity.
    + f_equal. apply IH. intros H. apply N. now right.
Qed.

Lemma fill_before o ws : before_hole o (wake_fill o ws).
Proof.
  induction ws as [|[x|] ws IH]; cbn [wake_fill].
  - exists [], []. split; [reflexivity|easy].
  - destruct (Nat.eqb_spec x o) as [E|E].
    + subst x. exists [], ws. split; [reflexivity|easy].
    + destruct IH as (l1 & l2 & E1 & N). exists (x :: l1), l2. rewrite E1. split; [reflexivity|].
      intros [H|H]; congruence || tauto.
  - exists [], ws. split; [reflexivity|easy].
Qed.

Lemma fill_before_other o o' ws : before_hole o' ws -> before_hole o' (wake_fill o ws).
Proof.
  intros (l1 & l2 & -> & N). revert N. induction l1 as [|a l1 IH]; intros N; cbn [map app wake_fill].
  - destruct (Nat.eqb_spec o' o) as [E|E].
    + subst o'. exists [], l2. split; [reflexivity|easy].
    + exists [], (wake_fill o l2). split; [reflexivity|easy].
  - destruct (Nat.eqb_spec a o) as [E|E].
    + subst a. exists (o :: l1), l2. split; [reflexivity|exact N].
    + destruct IH as (m1 & m2 & E1 & N1); [intros H; apply N; now right|].
      exists (a :: m1), m2. rewrite E1. split; [reflexivity|].
      intros [H|H]; [subst a; apply N; now left|tauto].
Qed.

Lemma fill_occ o x ws : occ o ws = 0 ->
  occ x (wake_fill o ws) = (if o =? x then 1 else 0) + occ x ws.
Proof.
  induction ws as [|[a|] ws IH]; cbn [occ wake_fill].
  - intros _. destruct (o =? x); reflexivity.
  - destruct (Nat.eqb_spec a o) as [E|E]; [lia|]. intros H. cbn [occ]. rewrite IH by exact H.
    destruct (a =? x), (o =? x); lia.
  - intros _. cbn [occ]. destruct (o =? x); reflexivity.
Qed.

Lemma drop_occ o x ws :
  occ x (wake_drop o ws) = occ x ws - (if o =? x then Nat.min 1 (occ x ws) else 0).
Proof.
  induction ws as [|[a|] ws IH]; cbn [occ wake_drop].
  - destruct (o =? x); reflexivity.
  - destruct (Nat.eqb_spec a o) as [E|E].
    + subst a. cbn [occ]. destruct (o =? x); lia.
    + cbn [occ]. rewrite IH. destruct (Nat.eqb_spec a x) as [E1|E1].
      * subst a. destruct (Nat.eqb_spec o x); [congruence|]. lia.
      * destruct (o =? x); lia.
  - exact IH.
Qed.

Definition focc (o : obj) (p : pending) : nat := occ o (slots p).

Record sinv (p : pending) (ops : list sense_op) : Prop := {
  si_occ : forall o, focc o p <= 1;
  si_reg : forall o, focc o p = 1 <-> registered o ops;
  si_fresh : forall o, fresh o ops -> before_hole o (slots p) }.

Lemma sched_occ p o x : focc o p = 0 ->
  focc x (sched_event p o) = (if o =? x then 1 else 0) + focc x p.
Proof.
  destruct p as [|c|ws]; unfold focc; cbn [sched_event slots occ].
  - intros _. destruct (o =? x); reflexivity.
  - destruct (c =? o) eqn:E; [lia|]. intros _. cbn [slots occ]. destruct (c =? x), (o =? x); lia.
  - apply fill_occ.
Qed.

Lemma sched_before p o x : (before_hole x (slots p) \/ x = o) -> before_hole x (slots (sched_event p o)).
Proof.
  destruct p as [|c|ws]; cbn [sched_event slots].
  - intros [(l1 & l2 & E & _)| ->]; [destruct l1; discriminate|].
    exists [], []. split; [reflexivity|easy].
  - destruct (Nat.eqb_spec c o) as [E|E].
    + subst c. intros [H| ->]; [exact H|]. exists [], []. split; [reflexivity|easy].
    + cbn [slots]. intros [(l1 & l2 & E1 & N)| ->].
      * destruct l1 as [|a l1]; cbn in E1.
        -- injection E1 as -> <-. exists [], [Some o]. split; [reflexivity|easy].
        -- destruct l1; discriminate.
      * exists [c], []. split; [reflexivity|]. intros [H|[]]. congruence.
  - intros [H| ->]; [now apply fill_before_other|apply fill_before].
Qed.

Lemma sched_same p o : before_hole o (slots p) -> slots (sched_event p o) = slots p.
Proof.
  destruct p as [|c|ws]; cbn [sched_event slots].
  - intros (l1 & l2 & E & _). destruct l1; discriminate.
  - intros (l1 & l2 & E & _). destruct l1 as [|a [|]]; cbn in E; try discriminate.
    injection E as -> _. now rewrite Nat.eqb_refl.
  - apply fill_same.
Qed.

Lemma clear_occ p o x : focc x (clear_event p o) =
  focc x p - (if o =? x then Nat.min 1 (focc x p) else 0).
Proof.
  destruct p as [|c|ws]; unfold focc; cbn [clear_event slots].
  - cbn. destruct (o =? x); reflexivity.
  - destruct (Nat.eqb_spec c o) as [E|E]; cbn [slots occ].
    + subst c. destruct (o =? x); lia.
    + destruct (Nat.eqb_spec c x), (Nat.eqb_spec o x); lia.
  - apply drop_occ.
Qed.

Lemma legal_prefix ops op : no_stale_reregistration (ops ++ [op]) -> no_stale_reregistration ops.
Proof.
  intros L l1 o l2 l3 E N. apply (L l1 o l2 (l3 ++ [op])); [|exact N].
  rewrite E. rewrite <- app_assoc. cbn. rewrite <- app_assoc. reflexivity.
Qed.

Lemma run_inv : forall ops, no_stale_reregistration ops -> sinv (sense_run ops) ops.
Proof.
  induction ops as [|op ops IH] using rev_ind; intros L.
  - split.
    + intros o. cbn. lia.
    + intros o. cbn. split; [discriminate|]. intros (l1 & l2 & E & _). destruct l1; discriminate.
    + intros o (l1 & l2 & E & _). destruct l1; discriminate.
  - specialize (IH (legal_prefix _ _ L)). destruct IH as [I1 I2 I3].
    unfold sense_run. rewrite fold_left_app. cbn [fold_left]. fold (sense_run ops).
    destruct op as [a|a]; cbn [sense_step].
    + destruct (Nat.eq_dec (focc a (sense_run ops)) 1) as [R|R].
      * assert (F : fresh a ops).
        { apply I2 in R. destruct R as (l1 & l2 & E & N). exists l1, l2. split; [exact E|].
          apply (L l1 a l2 []); [|exact N]. rewrite E, <- app_assoc. reflexivity. }
        pose proof (sched_same _ _ (I3 _ F)) as S.
        split.
        -- intros o. unfold focc. rewrite S. apply I1.
        -- intros o. unfold focc. rewrite S. fold (focc o (sense_run ops)).
           rewrite I2, registered_snoc. split.
           ++ intros H. right. split; [discriminate|exact H].
           ++ intros [[= E]|[_ H]]; [|exact H]. subst a. now apply I2.
        -- intros o H. apply sched_before. apply fresh_snoc in H.
           destruct H as [[= E]|[_ H]]; [right; congruence|left; now apply I3].
      * assert (Z : focc a (sense_run ops) = 0) by (specialize (I1 a); lia).
        split.
        -- intros o. rewrite sched_occ by exact Z. destruct (Nat.eqb_spec a o) as [E|E].
           ++ subst o. lia.
           ++ apply I1.
        -- intros o. rewrite sched_occ by exact Z. rewrite registered_snoc.
           destruct (Nat.eqb_spec a o) as [E|E].
           ++ subst o. rewrite Z. split; [now left|reflexivity].
           ++ cbn. rewrite I2. split.
              ** intros H. right. split; [discriminate|exact H].
              ** intros [[= E1]|[_ H]]; [congruence|exact H].
        -- intros o H. apply sched_before. apply fresh_snoc in H.
           destruct H as [[= E]|[_ H]]; [right; congruence|left; now apply I3].
    + split.
      * intros o. rewrite clear_occ. specialize (I1 o). destruct (a =? o); lia.
      * intros o. rewrite clear_occ, registered_snoc. pose proof (I1 o) as B.
        destruct (Nat.eqb_spec a o) as [E|E].
        -- subst o. split; [|intros [H|[H _]]; congruence]. lia.
        -- rewrite Nat.sub_0_r, I2. split.
           ++ intros H. right. split; [congruence|exact H].
           ++ intros [H|[_ H]]; [discriminate|exact H].
      * intros o H. apply fresh_snoc in H. destruct H as [H|[H _]]; [discriminate|].
        exfalso. now apply (H a).
Qed.

(* ---- all histories, also illegal ones ---- *)

Lemma fill_in o x ws : In (Some x) (wake_fill o ws) <-> x = o \/ In (Some x) ws.
Proof.
  induction ws as [|[a|] ws IH]; cbn [wake_fill In].
  - intuition congruence.
  - destruct (Nat.eqb_spec a o) as [E|E]; cbn [In]; [subst a|rewrite IH]; intuition congruence.
  - intuition congruence.
Qed.

Lemma sched_in p o x : holds x (sched_event p o) <-> x = o \/ holds x p.
Proof.
  unfold holds. destruct p as [|c|ws]; cbn [sched_event slots].
  - cbn [In]. intuition congruence.
  - destruct (Nat.eqb_spec c o) as [E|E]; cbn [slots In]; [subst c|]; intuition congruence.
  - apply fill_in.
Qed.

Lemma clear_in_other p o x : x <> o -> (holds x (clear_event p o) <-> holds x p).
Proof.
  intros N. unfold holds. rewrite !occ_in. fold (focc x (clear_event p o)). rewrite clear_occ.
  destruct (Nat.eqb_spec o x); [congruence|]. unfold focc. now rewrite Nat.sub_0_r.
Qed.

Lemma clear_in_sub p o x : holds x (clear_event p o) -> holds x p.
Proof.
  unfold holds. rewrite !occ_in. fold (focc x (clear_event p o)). rewrite clear_occ.
  unfold focc. lia.
Qed.

Lemma never_missed : forall ops o, registered o ops -> holds o (sense_run ops).
Proof.
  induction ops as [|op ops IH] using rev_ind; intros o R.
  - destruct R as (l1 & l2 & E & _). destruct l1; discriminate.
  - unfold sense_run. rewrite fold_left_app. cbn [fold_left]. fold (sense_run ops).
    apply registered_snoc in R. destruct op as [a|a]; cbn [sense_step].
    + apply sched_in. destruct R as [[= ->]|[_ R]]; [now left|right; now apply IH].
    + destruct R as [|[N R]]; [discriminate|]. apply clear_in_other; [congruence|]. now apply IH.
Qed.

Lemma only_mentioned : forall ops o, holds o (sense_run ops) -> In (Register o) ops.
Proof.
  induction ops as [|op ops IH] using rev_ind; intros o R; [easy|].
  unfold sense_run in R. rewrite fold_left_app in R. cbn [fold_left] in R. fold (sense_run ops) in R.
  apply in_or_app. destruct op as [a|a]; cbn [sense_step] in R.
  - apply sched_in in R. destruct R as [->|R]; [right; now left|left; now apply IH].
  - left. apply IH. eapply clear_in_sub. exact R.
Qed.
