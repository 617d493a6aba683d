(* C93: S'STABLE(T), S'QUIET(T), S'DELAYED(T) and S'TRANSACTION *)
From Coq Require Import List NArith Arith Bool Lia.
From Verif Require Import WaveModel ImplSpec ImplModel ImplProofs.
Import ListNotations.
Local Open Scope N_scope.

(* In every cycle of every history S'STABLE(T) is true exactly if S had no event in this cycle nor
   in the last T units of time. *)
Lemma imp_calm : forall V quiet T (h : list (cyc V)) st, imp_legal quiet T h st ->
  (i_value st = true <-> calm (happened quiet) T h).
Proof.
  intros V quiet T h st L. pose proof (imp_invariant _ _ _ _ _ L) as I. destruct h as [|c past]; [destruct I|].
  destruct I as (S & TV & VAL & PE). unfold calm. rewrite VAL. split.
  - intros E. destruct (waves (i_queue st)) eqn:W; [|discriminate]. split.
    + destruct (happened quiet c) eqn:H; auto. destruct (proj2 (PE (c_now c + T))) as (w & [] & _). left. auto.
    + intros p P H. destruct (N.le_gt_cases (c_now p + T) (c_now c)) as [X|X]; auto.
      destruct (proj2 (PE (c_now p + T))) as (w & [] & _). right. exists p. repeat split; auto.
  - intros [H1 H2]. destruct (waves (i_queue st)) as [|w l] eqn:W; auto.
    destruct (proj1 (PE (twhen w))) as [[X _]|(p & P & X & Y & Z)]; [exists w; split; auto; left; auto|congruence|].
    specialize (H2 p P X). lia.
Qed.
Theorem C93_stable : forall V T (h : list (cyc V)) st, imp_legal false T h st ->
  (i_value st = true <-> calm c_event T h).
Proof. intros V T h st L. exact (imp_calm V false T h st L). Qed.
Theorem C93_quiet : forall V T (h : list (cyc V)) st, imp_legal true T h st ->
  (i_value st = true <-> calm c_active T h).
Proof. intros V T h st L. exact (imp_calm V true T h st L). Qed.

(* As long as it is false a cycle is in the queue in which it can become true: the next delta
   cycle for T = 0, or the cycle T after the last event. *)
Theorem C93_wakes : forall V quiet T c past st, imp_legal (V := V) quiet T (c :: past) st -> i_value st = false ->
  if T =? 0 then q_delta (i_queue st) = true
  else exists p, In p (c :: past) /\ happened quiet p = true /\ c_now c < c_now p + T /\
       In (c_now p + T) (q_heap (i_queue st)) /\
       forall e, In e (c :: past) -> happened quiet e = true -> c_now e <= c_now p.
Proof.
  intros V quiet T c past st L V0. pose proof (imp_invariant _ _ _ _ _ L) as (S & TV & VAL & PE).
  pose proof (legal_times _ _ _ _ _ _ _ _ _ L) as [LT LE].
  destruct S as (S1 & S2 & S3 & S4). rewrite V0 in VAL.
  destruct (waves (i_queue st)) as [|w0 l0] eqn:W; [discriminate|].
  destruct (N.eqb_spec T 0) as [Z|Z]. { apply S4; auto. discriminate. }
  rewrite <- W in *. assert (TP : 0 < T) by lia. destruct (S3 TP) as [_ A].
  assert (LAST : exists w, In w (waves (i_queue st)) /\ forall x, In x (waves (i_queue st)) -> twhen x <= twhen w).
  { assert (NE : waves (i_queue st) <> []) by (rewrite W; discriminate). clear - S1 NE.
    induction S1 as [|a l SS IH F]; [congruence|]. destruct l as [|b l'].
    - exists a. split; [left; auto|]. intros x [<- |[]]. lia.
    - destruct IH as (w & W1 & W2); [discriminate|]. exists w. split; [right; auto|].
      rewrite Forall_forall in F. intros x [<- |X]; auto. specialize (F w W1). unfold before in F. lia. }
  destruct LAST as (w & W1 & W2). destruct (A w W1) as [A1 A2].
  assert (MAX : forall e, In e (c :: past) -> happened quiet e = true -> c_now e + T <= twhen w \/ c_now e + T <= c_now c).
  { intros e E H. destruct (N.le_gt_cases (c_now e + T) (c_now c)) as [X|X]; auto. left.
    destruct (proj2 (PE (c_now e + T))) as (x & X1 & X2).
    - cbn. destruct E as [<- |E]; [left; auto|right]. exists e. repeat split; auto.
    - rewrite <- X2. apply W2; auto. }
  destruct (proj1 (PE (twhen w))) as [[X Y]|(p & P & X & Y & Y2)]; [exists w; auto| |].
  - exists c. split; [left; auto|]. split; auto. split; [lia|]. split; [rewrite <- Y; auto|].
    intros e E H. destruct (MAX e E H); lia.
  - exists p. split; [right; auto|]. split; auto. split; [lia|]. split; [rewrite <- Y; auto|].
    intros e E H. destruct (MAX e E H); lia.
Qed.
(* Without a delay that cycle is the next one: it is true again there unless S is active again. *)
Theorem C93_next : forall V quiet c past st, imp_legal (V := V) quiet 0 (c :: past) st ->
  forall n, follows (c_now c) (i_queue st) (c_now n) (c_is_delta n) -> c_now n < 2 ^ 63 ->
  (c_event n = true -> c_active n = true) -> (c_event n = false -> c_value n = c_value c) ->
  i_value (imp_cycle quiet 0 n st) = negb (happened quiet n).
Proof.
  intros V quiet c past st L n F B EA SV.
  assert (L2 : imp_legal quiet 0 (n :: c :: past) (imp_cycle quiet 0 n st)) by (apply legal_next; auto; lia).
  pose proof (imp_calm _ _ _ _ _ L2) as X. cbn [calm] in X.
  pose proof (legal_times _ _ _ _ _ _ _ _ _ L2) as [_ LE].
  destruct (happened quiet n); cbn [negb]; [|apply X; split; auto; intros p P _; rewrite N.add_0_r; auto].
  destruct (i_value (imp_cycle quiet 0 n st)); auto. destruct X as [X _]. destruct (X eq_refl). discriminate.
Qed.

(* S'DELAYED(T) has the value that S had T ago.  In the first T units of time, where the LRM has
   the initial value of S, it has the default value of the type. *)
Theorem C93_delayed_partial : forall V (eqv : V -> V -> bool) default T h st, del_legal eqv default T h st ->
  l_value st = ago default T h.
Proof.
  intros V eqv default T h st L. pose proof (del_invariant eqv default T h st L) as I. destruct h; [destruct I|]. apply I.
Qed.
Theorem C93_delayed_late : forall V (eqv : V -> V -> bool) default init T c past st, del_legal eqv default T (c :: past) st ->
  (exists p, In p past /\ c_now p + T <= c_now c) -> l_value st = ago init T (c :: past).
Proof.
  intros V eqv default init T c past st L (p & P & X). rewrite (C93_delayed_partial _ _ _ _ _ _ L). unfold ago.
  destruct (find (fun p => c_now p + T <=? c_now c) past) eqn:E; auto.
  apply find_none with (x := p) in E; auto. apply N.leb_gt in E. lia.
Qed.

(* S'TRANSACTION toggles in the cycles in which a part of S is active, and once in each. *)
Theorem C93_transaction : forall pieces p, transaction_cycle pieces p = xorb p (existsb (fun a => a) pieces).
Proof.
  intros pieces p. unfold transaction_cycle.
  assert (P : forall l k, fold_left (fun s a => schedule a s) l (k, true) = (k, true)).
  { induction l as [|a l IH]; intros k; auto. cbn [fold_left]. unfold schedule at 2. cbn [negb]. rewrite andb_false_r. apply IH. }
  assert (G : fold_left (fun s a => schedule a s) pieces (O, false) = if existsb (fun a => a) pieces then (1%nat, true) else (O, false)).
  { induction pieces as [|a l IH]; cbn; auto. destruct a; cbn; auto. }
  rewrite G. destruct (existsb _ pieces), p; reflexivity.
Qed.
Theorem C93_transaction_parity : forall (cycles : list (list bool)) p,
  fold_left (fun p pieces => transaction_cycle pieces p) cycles p =
  xorb p (Nat.odd (length (filter (existsb (fun a => a)) cycles))).
Proof.
  induction cycles as [|c l IH]; intros p; cbn [fold_left filter length]; [destruct p; reflexivity|].
  rewrite IH, C93_transaction. destruct (existsb (fun a => a) c); cbn [length]; [|destruct p; reflexivity].
  rewrite Nat.odd_succ, <- Nat.negb_odd. destruct (Nat.odd _), p; reflexivity.
Qed.

(* ---- Histories ---- *)
Definition cy (now : N) (d a e : bool) (v : nat) : cyc nat := Cyc now d a e v.
Definition run {St} (start step : cyc nat -> St -> St) (st : St) (h : list (cyc nat)) : St :=
  match rev h with [] => st | c :: r => fold_left (fun s c => step c s) r (start c st) end.
Ltac fol := unfold follows; cbn [c_is_delta cy c_now];
  first [reflexivity | split; [lia|split; [vm_compute; reflexivity|intros k K; vm_compute in K; repeat (destruct K as [K|K]; [subst k; lia|]); destruct K]] ].
Ltac nxt := apply legal_next; [ | fol | vm_compute; reflexivity | cbn; intros; congruence | cbn; intros; congruence ].
Ltac fst' := refine (legal_first _ _ _ _ _ _ _ _); [reflexivity | vm_compute; reflexivity | cbn; intros; congruence].
Ltac history := repeat nxt; fst'.
(* Events at 10 and 12 and a transaction without an event at 13; T = 5 *)
Definition hist : list (cyc nat) :=
  [cy 18 false false false 2; cy 17 false false false 2; cy 15 false false false 2; cy 13 false true false 2;
   cy 12 true false false 2; cy 12 false true true 2; cy 10 false true true 1; cy 0 false false false 0].
Fixpoint tails {A} (l : list A) : list (list A) := match l with [] => [] | _ :: r => l :: tails r end.
Definition istate quiet T h := run (imp_cycle quiet T) (imp_cycle quiet T) imp_init h.
Example ex_stable : imp_legal false 5 (skipn 1 hist) (istate false 5 (skipn 1 hist)).
Proof. unfold hist, istate, run. cbn [skipn rev app fold_left]. unfold imp_legal. history. Qed.
Example ex_stable_values : map (fun h => i_value (istate false 5 h)) (tails hist) = [true; true; false; false; false; false; false; true].
Proof. vm_compute. reflexivity. Qed.
Example ex_quiet : imp_legal true 5 hist (istate true 5 hist).
Proof. unfold hist, istate, run. cbn [skipn rev app fold_left]. unfold imp_legal. history. Qed.
Example ex_quiet_values : map (fun h => i_value (istate true 5 h)) (tails hist) = [true; false; false; false; false; false; false; true].
Proof. vm_compute. reflexivity. Qed.
Definition dstate default T h := run (del_cycle Nat.eqb T true) (del_cycle Nat.eqb T false) (del_init default) h.
Definition dhist : list (cyc nat) :=
  [cy 18 false false false 2; cy 17 false false false 2; cy 15 false false false 2; cy 12 true true true 2;
   cy 12 false true true 3; cy 10 false true true 1; cy 5 false false false 7; cy 0 false false false 7].
Example ex_delayed : del_legal Nat.eqb 4%nat 5 dhist (dstate 4%nat 5 dhist).
Proof. unfold dhist, dstate, run. cbn [rev app fold_left]. unfold del_legal. history. Qed.
Example ex_delayed_values : map (fun h => l_value (dstate 4%nat 5 h)) (tails dhist) = [2; 2; 1; 7; 7; 7; 7; 4]%nat.
Proof. vm_compute. reflexivity. Qed.
Example ex_transaction : transaction_cycle [false; true; true] false = true.
Proof. reflexivity. Qed.

(* A signal with the initial value 7 of a type with the default value 4: S'DELAYED(5) is 4 *)
Theorem C93_delayed_initial_refuted : exists h st, del_legal Nat.eqb 4%nat 5 h st /\
  (forall c, In c h -> c_value c = 7%nat) /\ l_value st <> ago 7%nat 5 h.
Proof.
  exists [cy 0 false false false 7], (dstate 4%nat 5 [cy 0 false false false 7]). split; [|split].
  - unfold dstate, run. cbn [rev app fold_left]. unfold del_legal. history.
  - intros c [<- |[]]. reflexivity.
  - vm_compute. discriminate.
Qed.

Print Assumptions C93_stable.
Print Assumptions C93_quiet.
Print Assumptions C93_wakes.
Print Assumptions C93_next.
Print Assumptions C93_delayed_partial.
Print Assumptions C93_delayed_late.
Print Assumptions C93_transaction.
Print Assumptions C93_transaction_parity.
Print Assumptions C93_delayed_initial_refuted.
