(* C39: the work-stealing queue hands out every task exactly once. *)
From Coq Require Import List Arith NArith Lia Bool Permutation.
From Verif Require Import Base DequeModel DequeSpec DequeProofs.
Import ListNotations.

(* At every moment of every schedule the tasks handed out so far, together with
   some rest, are the tasks pushed so far: none is invented, none is handed out
   twice and none is torn.  Whenever a pop reports an empty queue, that rest is
   empty: none has been lost.  [h1] is the history up to any moment. *)
Theorem C39_exactly_once : forall es st h2 h1,
  run init es = Ok st -> whole_tasks es -> short_steals es ->
  log st = h2 ++ h1 ->
  (exists rest, Permutation (taken h1 ++ rest) (pushed h1)) /\
  (forall h0, h1 = PopEmpty :: h0 -> Permutation (taken h0) (pushed h0)).
Proof. intros es st h2 h1 R F W E. exact (run_log es st R F W h2 h1 E). Qed.

(* Distinct tasks are handed out to at most one caller. *)
Corollary C39_at_most_once : forall es st,
  run init es = Ok st -> whole_tasks es -> short_steals es ->
  NoDup (pushed (log st)) -> NoDup (taken (log st)).
Proof.
  intros es st R F W N. destruct (C39_exactly_once es st [] (log st) R F W eq_refl) as [(rest & P) _].
  apply Permutation_sym in P. eapply Permutation_NoDup in P; [|exact N].
  clear - P. induction (taken (log st)) as [|x l IH]; [constructor|]. cbn [app] in P. inversion P as [|? ? A B]; subst.
  constructor; [|auto]. intros H. apply A. apply in_or_app. now left.
Qed.

(* Runs that are shorter than the range of the tag need no further condition. *)
Lemma resets_bound : forall es st st', run st es = Ok st' -> (resets st' <= resets st + N.of_nat (length es))%N.
Proof.
  induction es as [|e es IH]; intros st st' R; cbn [run] in R.
  - injection R as <-. cbn. lia.
  - destruct (do_event st e) as [s|] eqn:E; [|discriminate]. cbn [bind] in R. apply IH in R.
    assert (resets s <= resets st + 1)%N; [|cbn [length]; lia].
    destruct e as [xs| |t| |t]; cbn [do_event] in E.
    + destruct (own st); try (injection E as <-; cbn; lia). destruct (_ <=? _); [|discriminate]. injection E as <-. cbn. lia.
    + destruct (own st); injection E as <-; cbn; lia.
    + destruct (thief st t); injection E as <-; cbn; lia.
    + injection E as <-. unfold own_step. destruct (own st) as [|[|? ?] ? ? ?| |?|? ?|? ?|? ? ? ?|? ? ? ?|?];
        repeat match goal with |- context[if ?b then _ else _] => destruct b | |- context[match bot st with _ => _ end] => destruct (bot st) end; cbn; lia.
    + injection E as <-. unfold thief_step. destruct (thief st t);
        repeat match goal with |- context[if ?b then _ else _] => destruct b end; cbn; lia.
Qed.
Theorem C39_short_runs : forall es, (N.of_nat (length es) < TAGS)%N -> short_steals es.
Proof.
  intros es L es1 es2 st E R t. apply resets_bound in R. cbn [init resets] in R. subst es. rewrite app_length in L.
  unfold no_wrap. destruct (thief st t); auto; lia.
Qed.

Definition whole_b (e : event) : bool :=
  match e with CallPush xs => forallb (fun x => length x =? WORDS) xs | _ => true end.
Lemma whole_check es : forallb whole_b es = true -> whole_tasks es.
Proof.
  intros H xs Hin. rewrite forallb_forall in H. specialize (H _ Hin). cbn [whole_b] in H. rewrite forallb_forall in H.
  apply Forall_forall. intros x Hx. apply Nat.eqb_eq. now apply H.
Qed.

(* The condition is needed: a thief that sleeps between its read and its
   compare-and-swap while the owner empties the queue 2^32 times hands out a task
   again. *)
Definition X : task := [1; 1; 1; 1]%N.
Definition Y : task := [2; 2; 2; 2]%N.
Definition owner (n : nat) : list event := repeat OwnStep n.
Definition start : list event :=
  [CallPush [X]] ++ owner 5 ++ [CallSteal 0] ++ repeat (ThiefStep 0) 7 ++ [CallPop] ++ owner 10.
Definition again : list event := [CallPush [Y]] ++ owner 5 ++ [CallPop] ++ owner 10.
Fixpoint cycles (n : nat) : list event := match n with O => [] | S n => cycles n ++ again end.

(* The queue is empty and the thief is about to compare and swap. *)
Definition waiting (k : N) (st : sys) : Prop :=
  top st = 0 /\ tag st = N.modulo k TAGS /\ bot st = 0 /\ own st = OIdle /\ thief st 0 = TCas 0 0 X.

Definition idx (o : outcome) : Prop := o = Pushed [Y] \/ o = Popped Y.

Lemma again_ok k st : waiting k st ->
  exists st', run st again = Ok st' /\ waiting (N.succ k) st' /\ log st' = [Popped Y; Pushed [Y]] ++ log st.
Proof.
  intros (Et & Eg & Eb & Eo & Eth). destruct st as [m tp tg b o th lg r s]. cbn in Et, Eg, Eb, Eo, Eth. subst tp b o.
  unfold again, owner. eexists. split.
  - lazy -[N.modulo N.add N.eqb TAGS]. rewrite N.eqb_refl. lazy -[N.modulo N.add N.eqb TAGS]. reflexivity.
  - unfold waiting. cbn [top tag bot own thief log]. split; [|reflexivity]. split; [reflexivity|]. split; [|auto].
    rewrite Eg. apply tag_succ.
Qed.

Lemma cycles_ok st k : waiting k st -> forall n, exists st', run st (cycles n) = Ok st' /\
  waiting (k + N.of_nat n) st' /\ exists h, log st' = h ++ log st /\ Forall idx h.
Proof.
  intros W. induction n as [|n (s & R & Wn & h & L & F)].
  - exists st. split; [reflexivity|]. split; [now rewrite N.add_0_r|]. exists []. split; [reflexivity|constructor].
  - destruct (again_ok _ _ Wn) as (s' & R' & W' & L'). exists s'. cbn [cycles]. rewrite run_app, R. cbn [bind].
    split; [exact R'|]. split; [replace (k + N.of_nat (S n))%N with (N.succ (k + N.of_nat n)) by lia; exact W'|].
    exists ([Popped Y; Pushed [Y]] ++ h). rewrite L', L. split; [reflexivity|].
    constructor; [now right|]. constructor; [now left|exact F].
Qed.

Definition task_dec : forall x y : task, {x = y} + {x <> y} := list_eq_dec N.eq_dec.
Lemma idx_counts h l : Forall idx h ->
  count_occ task_dec (taken (h ++ l)) X = count_occ task_dec (taken l) X /\
  count_occ task_dec (pushed (h ++ l)) X = count_occ task_dec (pushed l) X.
Proof.
  induction h as [|o h IH]; intros F; [auto|]. pose proof (Forall_inv F) as H. apply Forall_inv_tail in F. destruct (IH F) as [A B].
  cbn [app]. destruct H as [->| ->]; cbn [taken pushed app].
  - split; [exact A|]. rewrite count_occ_cons_neq; [exact B|]. intros Q. discriminate.
  - split; [|exact B]. rewrite count_occ_cons_neq; [exact A|]. intros Q. discriminate.
Qed.

Theorem C39_wrap_refuted : exists es st, run init es = Ok st /\ whole_tasks es /\
  ~ (exists rest, Permutation (taken (log st) ++ rest) (pushed (log st))).
Proof.
  assert (S0 : exists st, run init start = Ok st /\ waiting 1 st /\ log st = [Popped X; Pushed [X]]).
  { eexists. split; [vm_compute; reflexivity|]. split; [|reflexivity]. unfold waiting. cbn. auto. }
  destruct S0 as (s0 & R0 & W0 & L0).
  assert (Hn : exists n, (1 + N.of_nat n)%N = TAGS) by (exists (N.to_nat (N.pred TAGS)); rewrite N2Nat.id; reflexivity).
  destruct Hn as (n & Hn).
  destruct (cycles_ok s0 1 W0 n) as (s1 & R1 & W1 & h & L1 & F1).
  set (fin := [CallPush [Y]] ++ owner 5 ++ [ThiefStep 0]).
  assert (S2 : exists st, run s1 fin = Ok st /\ log st = Stole 0 X :: Pushed [Y] :: log s1).
  { rewrite Hn in W1.
    destruct W1 as (Et & Eg & Eb & Eo & Eth). rewrite N.mod_same in Eg by discriminate.
    destruct s1 as [m tp tg b o th lg r s]. cbn in Et, Eg, Eb, Eo, Eth. subst tp tg b o.
    eexists. split.
    - cbn. unfold thief_step. cbn. rewrite Eth. cbn. reflexivity.
    - reflexivity. }
  destruct S2 as (s2 & R2 & L2). exists (start ++ cycles n ++ fin), s2.
  split; [rewrite run_app, R0; cbn [bind]; rewrite run_app, R1; exact R2|]. split.
  - assert (Wc : forallb whole_b (cycles n) = true).
    { clear. induction n as [|n IH]; [reflexivity|]. cbn [cycles]. rewrite forallb_app, IH. reflexivity. }
    apply whole_check. rewrite !forallb_app, Wc. reflexivity.
  - intros (rest & P). pose proof (proj1 (Permutation_count_occ task_dec _ _) P X) as Q.
    rewrite L2, L1, L0 in Q. destruct (idx_counts h [Popped X; Pushed [X]] F1) as [A B].
    cbn [taken pushed] in Q. rewrite count_occ_app in Q. cbn [app] in Q. rewrite count_occ_cons_eq in Q by reflexivity.
    rewrite count_occ_cons_neq in Q by discriminate. rewrite A, B in Q. cbn in Q. lia.
Qed.

Print Assumptions C39_exactly_once.
Print Assumptions C39_at_most_once.
Print Assumptions C39_short_runs.
Print Assumptions C39_wrap_refuted.

(* The last task is wanted by the owner and by two thieves at once. *)
Definition race : list event :=
  [CallPush [X; Y]] ++ owner 9 ++ [CallSteal 0; CallSteal 1] ++ repeat (ThiefStep 0) 6 ++ repeat (ThiefStep 1) 3 ++
  [CallPop] ++ owner 10 ++ [CallPop] ++ owner 7 ++ repeat (ThiefStep 0) 2 ++ repeat (ThiefStep 1) 10 ++ owner 4.
Example race_runs : exists st, run init race = Ok st /\ whole_tasks race /\ short_steals race /\
  taken (log st) = [X; Y] /\ pushed (log st) = [X; Y] /\ hd_error (log st) = Some PopEmpty.
Proof.
  eexists. split; [vm_compute; reflexivity|]. split.
  - apply whole_check. reflexivity.
  - split; [apply C39_short_runs; vm_compute; reflexivity|]. cbn. auto.
Qed.
