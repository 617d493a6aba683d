From Coq Require Import List NArith Bool Lia Sorting.Sorted.
From Verif Require Import WaveModel ImplSpec ImplModel.
Import ListNotations.
Local Open Scope N_scope.

(* Which cycle can come next: src/rt/model.c:3243-3304, 3342-3357.  A delta cycle is at the same
   time; any other is not after the first entry of the queue and comes only if no delta cycle
   was asked for. *)
Definition follows {V} (now : N) (q : queued V) (now' : N) (is_delta : bool) : Prop :=
  if is_delta then now' = now
  else now < now' /\ q_delta q = false /\ forall k, In k (q_heap q) -> now' <= k.
(* Histories of a signal and states of a machine that runs along *)
Inductive legal {V W St} (delay : N) (start : cyc V -> St) (step : cyc V -> St -> St) (queue : St -> queued W)
  : list (cyc V) -> St -> Prop :=
| legal_first c : c_now c = 0 -> c_now c + delay < 2 ^ 63 -> (c_event c = true -> c_active c = true) ->
    legal delay start step queue [c] (start c)
| legal_next p h c st : legal delay start step queue (p :: h) st ->
    follows (c_now p) (queue st) (c_now c) (c_is_delta c) -> c_now c + delay < 2 ^ 63 ->
    (c_event c = true -> c_active c = true) -> (c_event c = false -> c_value c = c_value p) ->
    legal delay start step queue (c :: p :: h) (step c st).

Section Queue.
Context {V : Type}.
Definition waves (q : queued V) : list (tx V) := dwave (q_driver q).
Definition cur (q : queued V) : V := tval (dcur (q_driver q)).
Definition before (a b : tx V) : Prop := twhen a < twhen b.

Definition sound (T now : N) (q : queued V) : Prop :=
  StronglySorted before (waves q) /\
  (forall w, In w (waves q) -> twhen w <= now + T) /\
  (0 < T -> q_delta q = false /\ forall w, In w (waves q) -> now < twhen w /\ In (twhen w) (q_heap q)) /\
  (T = 0 -> (forall w, In w (waves q) -> twhen w = now) /\ (waves q <> [] -> q_delta q = true)).

Lemma sound_empty : forall T now d, sound T now (Queued (Drv d [] false) [] false).
Proof.
  intros. unfold sound, waves. cbn [q_driver dwave q_delta q_heap]. split; [constructor|]. split; [intros ? []|].
  split; intros _; split; try (intros ? []); auto; congruence.
Qed.
Lemma filter_all : forall A (f : A -> bool) l, (forall x, In x l -> f x = true) -> filter f l = l.
Proof. induction l; intros H; cbn; auto. rewrite H by (left; auto). f_equal. apply IHl. intros; apply H; right; auto. Qed.
Lemma filter_none : forall A (f : A -> bool) l, (forall x, In x l -> f x = false) -> filter f l = [].
Proof. induction l; intros H; cbn; auto. rewrite H by (left; auto). apply IHl. intros; apply H; right; auto. Qed.
Lemma sorted_filter : forall f l, StronglySorted before l -> StronglySorted before (filter f l).
Proof.
  induction 1; cbn; [constructor|]. destruct (f a); auto. constructor; auto.
  rewrite Forall_forall in *. intros x X. apply filter_In in X. apply H0. tauto.
Qed.

Lemma update_hit : forall now (w : tx V) r c b, twhen w = now -> update_driver now (Drv c (w :: r) b) = (Drv w r false, true).
Proof. intros. unfold update_driver. cbn. rewrite H, N.eqb_refl. reflexivity. Qed.
Lemma update_miss : forall now d, now < 2 ^ 63 -> (forall w, In w (dwave d) -> now < twhen w < 2 ^ 63) -> update_driver (V := V) now d = (d, false).
Proof.
  intros now d B H. unfold update_driver. destruct (dwave d) as [|w r] eqn:E; auto. specialize (H w (or_introl eq_refl)).
  destruct (N.eqb_spec (twhen w) now); [lia|]. unfold neg64, two64.
  destruct (N.eqb_spec (twhen w) ((2 ^ 64 - now) mod 2 ^ 64)) as [X|]; auto.
  destruct (N.eq_dec now 0) as [-> |]; [rewrite N.sub_0_r, N.mod_same in X by lia; lia|].
  rewrite N.mod_small in X by lia. lia.
Qed.
Lemma updates_miss : forall n now d, now < 2 ^ 63 -> (forall w, In w (dwave d) -> now < twhen w < 2 ^ 63) -> updates (V := V) n now d = (d, false).
Proof. induction n; intros now d B H; cbn [updates]; auto. rewrite update_miss by auto. rewrite IHn by auto. reflexivity. Qed.

(* The transactions that are due are taken from the queue. *)
Lemma wake_is : forall T now q now' is_delta, sound T now q -> follows now q now' is_delta ->
  now' < 2 ^ 63 -> now + T < 2 ^ 63 ->
  let '(q', due) := wake now' is_delta q in
  (forall w, In w (waves q) -> now' <= twhen w) /\
  (due = true -> exists w r, waves q = w :: r /\ twhen w = now' /\ waves q' = r /\ cur q' = tval w /\ forall x, In x r -> now' < twhen x) /\
  (due = false -> waves q' = waves q /\ cur q' = cur q /\ forall x, In x (waves q) -> now' < twhen x) /\
  q_delta q' = false /\ sound T now' q'.
Proof.
  intros T now q now' is_delta (S1 & S2 & S3 & S4) F B B2.
  assert (LE : now <= now') by (destruct is_delta; cbn in F; lia).
  (* times are not before the cycle; hits are run *)
  assert (GE : forall w, In w (waves q) -> now' <= twhen w).
  { intros w W. destruct (N.eq_dec T 0) as [Z|Z].
    - destruct (S4 Z) as [A1 A2]. rewrite (A1 w W). destruct is_delta; cbn in F; [lia|].
      destruct F as (_ & F2 & _). rewrite A2 in F2; [discriminate|]. intros X. rewrite X in W. destruct W.
    - destruct S3 as [_ A]; [lia|]. destruct (A w W) as [A1 A2]. destruct is_delta; cbn in F; [lia|]. apply F. auto. }
  assert (HIT : forall w, In w (waves q) -> twhen w = now' ->
    (if is_delta then (if q_delta q then 1 else 0)%nat else count_occ N.eq_dec (q_heap q) now') <> O).
  { intros w W E. destruct (N.eq_dec T 0) as [Z|Z].
    - destruct (S4 Z) as [A1 A2]. assert (q_delta q = true) by (apply A2; intros X; rewrite X in W; destruct W).
      destruct is_delta; cbn in F; [rewrite H; discriminate|]. destruct F as (_ & F2 & _). congruence.
    - destruct S3 as [_ A]; [lia|]. destruct (A w W) as [A1 A2]. destruct is_delta; cbn in F; [lia|].
      rewrite E in A2. apply (count_occ_In N.eq_dec) in A2. lia. }
  set (n := if is_delta then (if q_delta q then 1 else 0)%nat else count_occ N.eq_dec (q_heap q) now') in *.
  set (hp := if is_delta then q_heap q else filter (fun k => negb (k =? now')) (q_heap q)).
  assert (WK : wake now' is_delta q = (let '(d, due) := updates n now' (q_driver q) in (Queued d hp false, due))).
  { unfold wake, n, hp. destruct is_delta; reflexivity. }
  rewrite WK. clear WK.
  assert (HP : forall k, now' < k -> In k (q_heap q) -> In k hp).
  { intros k K I. unfold hp. destruct is_delta; auto. apply filter_In. split; auto. destruct (N.eqb_spec k now'); auto; lia. }
  assert (BD : forall w, In w (waves q) -> twhen w < 2 ^ 63) by (intros w W; specialize (S2 w W); lia).
  assert (SD : forall d, (forall w, In w (dwave d) -> In w (waves q) /\ now' < twhen w) -> StronglySorted before (dwave d) ->
    sound T now' (Queued d hp false)).
  { intros d D1 D2. unfold sound, waves. cbn [q_driver q_delta q_heap]. split; auto. split; [|split].
    - intros w W. destruct (D1 w W) as [X _]. specialize (S2 w X). lia.
    - intros TP. split; auto. intros w W. destruct (D1 w W) as [X Y]. split; auto. apply HP; auto. apply S3; auto.
    - intros Z. assert (E : dwave d = []).
      { destruct (dwave d) as [|w r]; auto. exfalso. destruct (D1 w (or_introl eq_refl)) as [X Y]. destruct (S4 Z) as [A _]. rewrite (A w X) in Y. lia. }
      rewrite E. split; [intros w []|congruence]. }
  unfold waves in *. destruct (q_driver q) as [dc dw dd] eqn:EQ. cbn [dwave] in *.
  destruct dw as [|w r].
  - rewrite updates_miss by (auto; cbn; tauto). split; auto. split; [discriminate|]. split; [|split; auto].
    + intros _. unfold cur. cbn [q_driver dwave dcur]. rewrite EQ. cbn. split; auto. split; auto. intros ? [].
    + apply SD; cbn [dwave]; [intros ? []|constructor].
  - inversion S1 as [|? ? SR FR]; subst. rewrite Forall_forall in FR.
    destruct (N.eq_dec (twhen w) now') as [E|E].
    + destruct n as [|n'] eqn:EN; [exfalso; apply (HIT w); auto; left; auto|]. cbn [updates].
      rewrite update_hit by auto. rewrite updates_miss by (auto; cbn [dwave]; intros x X; specialize (FR x X); unfold before in FR; specialize (BD x (or_intror X)); lia).
      cbn [orb]. split; auto. split; [|split; [discriminate|split; auto]].
      * intros _. exists w, r. unfold cur. cbn [q_driver dwave dcur]. repeat split; auto. intros x X. specialize (FR x X). unfold before in FR. lia.
      * apply SD; cbn [dwave]; auto. intros x X. split; [right; auto|]. specialize (FR x X). unfold before in FR. lia.
    + assert (GT : forall x, In x (w :: r) -> now' < twhen x).
      { intros x [<- |X]; [specialize (GE w (or_introl eq_refl)); lia|]. specialize (FR x X). unfold before in FR. specialize (GE w (or_introl eq_refl)). lia. }
      rewrite updates_miss by auto.
      split; auto. split; [discriminate|]. split; [|split; auto].
      * intros _. unfold cur. cbn [q_driver dwave dcur]. rewrite EQ. cbn. split; auto.
Qed.

(* An assignment comes last in the queue. *)
Lemma scan_is : forall eqv when reject (v : V) l, StronglySorted before l ->
  (forall w, In w l -> twhen w < when -> (sub64 when reject <=? twhen w) && negb (eqv (tval w) v) = false) ->
  insert_scan eqv when reject v l = (filter (fun w => twhen w <? when) l, filter (fun w => negb (twhen w <? when)) l).
Proof.
  intros eqv when reject v. induction 1 as [|a l SL IH F]; intros H; cbn [insert_scan filter]; auto.
  destruct (N.ltb_spec (twhen a) when) as [L|L]; cbn [negb].
  - rewrite IH by (intros w W; apply H; right; auto). rewrite H by (auto; left; auto). reflexivity.
  - rewrite Forall_forall in F. f_equal.
    + symmetry. apply filter_none. intros x X. specialize (F x X). unfold before in F. apply N.ltb_ge. lia.
    + f_equal. symmetry. apply filter_all. intros x X. specialize (F x X). unfold before in F. apply negb_true_iff, N.ltb_ge. lia.
Qed.
Lemma drive_is : forall eqv T now q reject v, sound T now q -> q_delta q = false -> now + T < 2 ^ 63 ->
  (forall w, In w (waves q) -> now < twhen w) ->
  (forall w, In w (waves q) -> twhen w < now + T -> (sub64 (now + T) reject <=? twhen w) && negb (eqv (tval w) v) = false) ->
  let q' := drive eqv now T reject v q in
  sound T now q' /\ cur q' = cur q /\ waves q' = filter (fun w => twhen w <? now + T) (waves q) ++ [Tx (now + T) v].
Proof.
  intros eqv T now q reject v (S1 & S2 & S3 & S4) DL B GT NR. cbv zeta.
  assert (AD : add64 now T = now + T) by (unfold add64, two64; apply N.mod_small; lia).
  unfold drive, assign, insert_transaction. cbv zeta. rewrite AD. cbn [tval].
  unfold waves, cur in *. destruct (q_driver q) as [dc dw dd] eqn:EQ. cbn [dwave dcur ddisc] in *.
  rewrite scan_is by auto.
  set (kept := filter (fun w => twhen w <? now + T) dw). set (rest := filter (fun w => negb (twhen w <? now + T)) dw).
  assert (SRT : StronglySorted before (kept ++ [Tx (now + T) v])).
  { assert (SK : StronglySorted before kept) by (apply sorted_filter; auto).
    assert (LK : forall w, In w kept -> twhen w < now + T) by (intros w W; apply filter_In in W; apply N.ltb_lt; tauto).
    clear - SK LK. induction SK; cbn; [repeat constructor|]. constructor; [apply IHSK; intros; apply LK; right; auto|].
    rewrite Forall_forall in *. intros x X. apply in_app_or in X. destruct X as [X|[<- |[]]]; auto. unfold before. cbn. apply LK. left; auto. }
  assert (MEM : forall w, In w (kept ++ [Tx (now + T) v]) -> In w dw \/ twhen w = now + T).
  { intros w W. apply in_app_or in W. destruct W as [W|[<- |[]]]; auto. left. apply filter_In in W. tauto. }
  destruct (existsb (fun it => twhen it =? now + T) rest) eqn:AL; cbn [negb].
  - assert (ALR : exists w, In w dw /\ twhen w = now + T).
    { apply existsb_exists in AL. destruct AL as (w & W & E). apply filter_In in W. apply N.eqb_eq in E. exists w. tauto. }
    destruct ALR as (w0 & W0 & E0). assert (TP : 0 < T) by (specialize (GT w0 W0); lia).
    split; [|split; reflexivity]. unfold sound, waves. cbn [q_driver dwave q_delta q_heap]. split; auto. split; [|split].
    + intros w W. destruct (MEM w W) as [X|X]; [apply S2; auto|lia].
    + intros _. split; auto. intros w W. destruct (S3 TP) as [_ A]. destruct (MEM w W) as [X|X]; [apply A; auto|]. rewrite X, <- E0. apply A; auto.
    + intros Z. lia.
  - destruct (N.eqb_spec T 0) as [Z|Z].
    + split; [|split; reflexivity]. unfold sound, waves. cbn [q_driver dwave q_delta q_heap]. split; auto. split; [|split].
      * intros w W. destruct (MEM w W) as [X|X]; [apply S2; auto|lia].
      * lia.
      * intros _. split; auto. intros w W. destruct (MEM w W) as [X|X]; [|lia]. apply (S4 Z); auto.
    + split; [|split; reflexivity]. unfold sound, waves. cbn [q_driver dwave q_delta q_heap]. split; auto. split; [|split].
      * intros w W. destruct (MEM w W) as [X|X]; [apply S2; auto|lia].
      * intros TP. split; auto. destruct (S3 TP) as [_ A]. intros w W. destruct (MEM w W) as [X|X].
        -- destruct (A w X). split; auto. right; auto.
        -- split; [lia|]. left; auto.
      * lia.
Qed.
End Queue.

(* ---- 'STABLE and 'QUIET ---- *)
Definition happened {V} (quiet : bool) (c : cyc V) : bool := if quiet then c_active c else c_event c.
Definition imp_legal {V} (quiet : bool) (T : N) : list (cyc V) -> imp -> Prop :=
  legal T (fun c => imp_cycle quiet T c imp_init) (imp_cycle quiet T) i_queue.

Definition pends {V} (quiet : bool) (T : N) (h : list (cyc V)) (k : N) : Prop :=
  match h with
  | [] => False
  | c :: past => (happened quiet c = true /\ k = c_now c + T) \/
                 exists p, In p past /\ happened quiet p = true /\ k = c_now p + T /\ c_now c < k
  end.
Definition imp_inv {V} quiet T (h : list (cyc V)) (st : imp) : Prop :=
  match h with
  | [] => False
  | c :: _ =>
    sound T (c_now c) (i_queue st) /\ (forall w, In w (waves (i_queue st)) -> tval w = true) /\
    i_value st = (match waves (i_queue st) with [] => true | _ => false end) /\
    (forall k, (exists w, In w (waves (i_queue st)) /\ twhen w = k) <-> pends quiet T h k)
  end.

Lemma legal_times : forall V W St T (start : cyc V -> St) step (queue : St -> queued W) h st,
  legal T start step queue h st -> match h with [] => False | c :: past => c_now c + T < 2 ^ 63 /\ forall p, In p past -> c_now p <= c_now c end.
Proof.
  induction 1; [split; auto; intros ? []|]. destruct IHlegal as [A B]. split; auto.
  assert (c_now p <= c_now c) by (unfold follows in H0; destruct (c_is_delta c); lia).
  intros x [<- |X]; auto. specialize (B x X). lia.
Qed.

Lemma imp_step : forall V quiet T (c : cyc V) st q due, wake (c_now c) (c_is_delta c) (i_queue st) = (q, due) ->
  sound T (c_now c) q -> q_delta q = false -> c_now c + T < 2 ^ 63 ->
  (forall w, In w (waves q) -> c_now c < twhen w) ->
  (forall w, In w (waves q) -> tval w = true) ->
  (c_event c = true -> c_active c = true) ->
  (due = false -> i_value st = match waves q with [] => true | _ => false end) ->
  (waves q <> [] -> i_value st = false) ->
  let st' := imp_cycle quiet T c st in
  sound T (c_now c) (i_queue st') /\ (forall w, In w (waves (i_queue st')) -> tval w = true) /\
  i_value st' = (match waves (i_queue st') with [] => true | _ => false end) /\
  (forall k, (exists w, In w (waves (i_queue st')) /\ twhen w = k) <->
     (happened quiet c = true /\ k = c_now c + T) \/ exists w, In w (waves q) /\ twhen w = k).
Proof.
  intros V quiet T c st q due WK SQ DL B GT TV EA VD VW. cbv zeta. unfold imp_cycle. rewrite WK.
  fold (happened quiet c).
  assert (HA : happened quiet c = true -> c_active c = true) by (unfold happened; destruct quiet; auto).
  destruct (happened quiet c) eqn:HP.
  - rewrite HA by auto. rewrite orb_true_r. cbn [negb]. unfold update_implicit. cbn [negb i_queue].
    pose proof (drive_is Bool.eqb T (c_now c) q T true SQ DL B GT) as D. cbv zeta in D.
    destruct D as (D1 & D2 & D3). { intros w W _. rewrite (TV w W). cbn. apply andb_false_r. }
    cbn [i_queue i_value]. split; auto. rewrite D3. split; [|split].
    + intros w W. apply in_app_or in W. destruct W as [W|[<- |[]]]; auto. apply filter_In in W. apply TV. tauto.
    + destruct (filter _ _); reflexivity.
    + intros k. split.
      * intros (w & W & <-). apply in_app_or in W. destruct W as [W|[<- |[]]]; [right|left; auto].
        apply filter_In in W. exists w. tauto.
      * intros [[_ ->]|(w & W & <-)].
        -- exists (Tx (c_now c + T) true). split; auto. apply in_or_app. right. left. auto.
        -- destruct SQ as (_ & S2 & _). specialize (S2 w W).
           destruct (N.eq_dec (twhen w) (c_now c + T)) as [E|E].
           ++ exists (Tx (c_now c + T) true). split; auto. apply in_or_app. right. left. auto.
           ++ exists w. split; auto. apply in_or_app. left. apply filter_In. split; auto. apply N.ltb_lt. lia.
  - cbn [negb].
    assert (K : forall k, (exists w, In w (waves q) /\ twhen w = k) <->
      (false = true /\ k = c_now c + T) \/ (exists w, In w (waves q) /\ twhen w = k)) by (intros; split; [auto|intros [[X _]|]; auto; discriminate]).
    destruct (due || c_active c) eqn:DA.
    + unfold update_implicit. cbn [negb i_queue i_value]. unfold waves in *.
      destruct (dwave (q_driver q)) eqn:E; cbn [i_queue i_value]; rewrite E in *; (split; [exact SQ|split; [exact TV|split; [|exact K]]]); auto.
      apply VW. discriminate.
    + apply orb_false_iff in DA. cbn [i_queue i_value]. split; [exact SQ|split; [exact TV|split; [|exact K]]]. apply VD. tauto.
Qed.

Lemma imp_invariant : forall V quiet T h st, imp_legal (V := V) quiet T h st -> imp_inv quiet T h st.
Proof.
  induction 1 as [c Z B EA|p h c st L IH F B EA SV].
  - unfold imp_inv.
    assert (WK : wake (c_now c) (c_is_delta c) (i_queue imp_init) = (Queued (Drv (Tx 0 true) [] false) [] false, false)) by (unfold wake; destruct (c_is_delta c); reflexivity).
    destruct (imp_step V quiet T c imp_init _ _ WK) as (A1 & A2 & A3 & A4); auto; try (cbn; tauto).
    { apply sound_empty. }
    split; auto. split; auto. split; auto. intros k. rewrite A4. cbn. split; intros [H|(w & W & _)]; auto; destruct W.
  - pose proof (legal_times _ _ _ _ _ _ _ _ _ L) as [LT1 LT2].
    destruct IH as (S & TV & VAL & PE).
    assert (LE : c_now p <= c_now c) by (unfold follows in F; destruct (c_is_delta c); lia).
    pose proof (wake_is T (c_now p) (i_queue st) (c_now c) (c_is_delta c) S F ltac:(lia) LT1) as W.
    destruct (wake (c_now c) (c_is_delta c) (i_queue st)) as [q due] eqn:WK. destruct W as (W1 & W2 & W3 & W4 & W5).
    (* what is left in the queue *)
    assert (Q : (forall w, In w (waves q) -> In w (waves (i_queue st)) /\ c_now c < twhen w) /\
                (forall w, In w (waves (i_queue st)) -> c_now c < twhen w -> In w (waves q)) /\
                (due = false -> waves q = waves (i_queue st))).
    { destruct due.
      - destruct (W2 eq_refl) as (w & r & E1 & E2 & E3 & E4 & E5). rewrite E3, E1. split; [|split; [|discriminate]].
        + intros x X. split; [right; auto|auto].
        + intros x [<- |X] GT; auto. lia.
      - destruct (W3 eq_refl) as (E1 & E2 & E3). rewrite E1. split; [|split; auto]. intros x X. split; auto. }
    destruct Q as (Q1 & Q2 & Q3).
    destruct (imp_step V quiet T c st q due WK W5 W4 B) as (A1 & A2 & A3 & A4); auto.
    + intros w X. apply Q1. auto.
    + intros w X. apply TV, Q1. auto.
    + intros D. rewrite (Q3 D). auto.
    + intros NE. rewrite VAL. destruct (waves (i_queue st)) eqn:E; auto. exfalso. destruct (waves q) as [|x l]; [congruence|].
      destruct (Q1 x (or_introl eq_refl)) as [[] _].
    + unfold imp_inv. split; auto. split; auto. split; auto. intros k. rewrite A4. cbn [pends]. split.
      * intros [H|(w & X & <-)]; [left; auto|right]. destruct (Q1 w X) as [Y GT].
        assert (PK : pends quiet T (p :: h) (twhen w)) by (apply PE; exists w; auto). cbn [pends] in PK.
        destruct PK as [[P1 P2]|(p' & P1 & P2 & P3 & P4)].
        -- exists p. split; [left; auto|]. auto.
        -- exists p'. split; [right; auto|]. auto.
      * intros [H|(p' & P1 & P2 & P3 & P4)]; [left; auto|right].
        assert (PK : pends quiet T (p :: h) k).
        { cbn [pends]. destruct P1 as [<- |P1]; [left; auto|]. right. exists p'. repeat split; auto. lia. }
        apply PE in PK. destruct PK as (w & X & <-). exists w. split; auto.
Qed.

(* ---- 'DELAYED ---- *)
Section Delayed.
Context {V : Type} (eqv : V -> V -> bool) (default : V) (T : N).
Definition del_legal : list (cyc V) -> del V -> Prop :=
  legal T (fun c => del_cycle eqv T true c (del_init default)) (del_cycle eqv T false) l_queue.
Definition view (l : list (tx V)) (v : V) (k : N) : V :=
  fold_left (fun acc w => if twhen w <=? k then tval w else acc) l v.
Definition lookup (h : list (cyc V)) (k : N) : V :=
  match find (fun p => c_now p + T <=? k) h with Some p => c_value p | None => default end.

Lemma view_none : forall l v k, (forall w, In w l -> k < twhen w) -> view l v k = v.
Proof.
  induction l; intros v k H; cbn; auto. destruct (N.leb_spec (twhen a) k); [specialize (H a (or_introl eq_refl)); lia|].
  apply IHl. intros; apply H; right; auto.
Qed.
Lemma view_app : forall a b v k, view (a ++ b) v k = view b (view a v k) k.
Proof. intros. unfold view. apply fold_left_app. Qed.
Lemma view_filter : forall l v k when, k < when -> view (filter (fun w => twhen w <? when) l) v k = view l v k.
Proof.
  induction l; intros v k when H; cbn; auto. destruct (N.ltb_spec (twhen a) when); cbn; [apply IHl; auto|].
  destruct (N.leb_spec (twhen a) k); [lia|]. apply IHl; auto.
Qed.

Definition del_inv (h : list (cyc V)) (st : del V) : Prop :=
  match h with
  | [] => False
  | c :: past =>
    sound T (c_now c) (l_queue st) /\ l_value st = cur (l_queue st) /\
    (forall k, c_now c <= k -> view (waves (l_queue st)) (cur (l_queue st)) k = lookup h k) /\
    l_value st = ago default T h
  end.

Lemma del_after : forall (first : bool) (c : cyc V) q past, sound T (c_now c) q -> q_delta q = false -> c_now c + T < 2 ^ 63 ->
  (forall w, In w (waves q) -> c_now c < twhen w) ->
  (forall k, c_now c <= k -> view (waves q) (cur q) k = lookup past k) ->
  (first || c_event c = false -> forall k, c_now c + T <= k -> lookup past k = c_value c) ->
  let q' := if first || c_event c then drive eqv (c_now c) T 0 (c_value c) q else q in
  sound T (c_now c) q' /\ cur q' = cur q /\
  forall k, c_now c <= k -> view (waves q') (cur q') k = lookup (c :: past) k.
Proof.
  intros first c q past S DL B GT VW KEEP. cbv zeta.
  assert (LK : forall k, lookup (c :: past) k = if c_now c + T <=? k then c_value c else lookup past k).
  { intros k. unfold lookup. cbn [find]. destruct (c_now c + T <=? k); reflexivity. }
  destruct (first || c_event c) eqn:E.
  - pose proof (drive_is eqv T (c_now c) q 0 (c_value c) S DL B GT) as D. cbv zeta in D. destruct D as (D1 & D2 & D3).
    { intros w W L. unfold sub64, two64. rewrite N.sub_0_r. replace (c_now c + T + 2 ^ 64) with (c_now c + T + 1 * 2 ^ 64) by lia.
      rewrite N.mod_add, N.mod_small by lia. destruct (N.leb_spec (c_now c + T) (twhen w)); auto. lia. }
    split; auto. split; auto. intros k K. rewrite D2, D3, LK, view_app. cbn.
    destruct (N.leb_spec (c_now c + T) k); auto. rewrite view_filter by lia. apply VW; auto.
  - split; auto. split; auto. intros k K. rewrite LK. rewrite VW by auto. destruct (N.leb_spec (c_now c + T) k); auto.
Qed.

Lemma del_invariant : forall h st, del_legal h st -> del_inv h st.
Proof.
  induction 1 as [c Z B EA|p h c st L IH F B EA SV].
  - unfold del_inv, del_cycle.
    assert (WK : wake (c_now c) (c_is_delta c) (l_queue (del_init default)) = (Queued (Drv (Tx 0 default) [] false) [] false, false)) by (unfold wake; destruct (c_is_delta c); reflexivity).
    rewrite WK. cbn [l_queue l_value].
    destruct (del_after true c (Queued (Drv (Tx 0 default) [] false) [] false) []) as (A1 & A2 & A3); auto; try (cbn; tauto); try discriminate.
    { apply sound_empty. }
  - pose proof (legal_times _ _ _ _ _ _ _ _ _ L) as [LT1 LT2].
    destruct IH as (S & VC & VW & _).
    assert (LE : c_now p <= c_now c) by (unfold follows in F; destruct (c_is_delta c); lia).
    pose proof (wake_is T (c_now p) (l_queue st) (c_now c) (c_is_delta c) S F ltac:(lia) LT1) as W.
    unfold del_inv, del_cycle.
    destruct (wake (c_now c) (c_is_delta c) (l_queue st)) as [q due] eqn:WK. destruct W as (W1 & W2 & W3 & W4 & W5).
    cbn [l_queue l_value].
    assert (Q : (forall w, In w (waves q) -> c_now c < twhen w) /\
                (forall k, c_now c <= k -> view (waves q) (cur q) k = lookup (p :: h) k) /\
                (if due then tval (dcur (q_driver q)) else l_value st) = cur q).
    { destruct due.
      - destruct (W2 eq_refl) as (w & r & E1 & E2 & E3 & E4 & E5). rewrite E3. split; auto. split; [|reflexivity].
        intros k K. rewrite <- VW by lia. rewrite E1, E4. cbn. destruct (N.leb_spec (twhen w) k); auto. lia.
      - destruct (W3 eq_refl) as (E1 & E2 & E3). rewrite E1, E2. split; auto. split; [intros k K; apply VW; lia|]. auto. }
    destruct Q as (Q1 & Q2 & Q3). rewrite Q3.
    destruct (del_after false c q (p :: h)) as (A1 & A2 & A3); auto.
    { cbn [orb]. intros E k K. unfold lookup. cbn [find]. destruct (N.leb_spec (c_now p + T) k); [|lia]. symmetry. auto. }
    cbn [orb] in *. split; auto. split; [rewrite A2; reflexivity|]. split; auto.
    specialize (Q2 (c_now c) (N.le_refl _)). rewrite view_none in Q2 by auto. rewrite Q2. reflexivity.
Qed.
End Delayed.
