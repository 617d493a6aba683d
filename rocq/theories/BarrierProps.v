(* C40: barriers separate phases. *)
From Coq Require Import List Arith NArith Lia Bool.
From Verif Require Import Base BarrierModel BarrierProofs.
Import ListNotations.

(* For every number of participants and every schedule: a thread that has left
   the barrier k times did so after every participant had entered it k times, and
   no thread gets ahead of another by more than one phase. *)
Theorem C40_phases : forall n es, 1 <= n -> Forall (fun e => thread_of e < n) es ->
  let st := run n init es in
  forall t u, t < n -> u < n -> left st t <= entered st u /\ entered st t <= entered st u + 1.
Proof.
  intros n es Hn F st t u Ht Hu.
  destruct (run_inv n es init (init_inv n Hn) F) as (_ & I2 & _). fold st in I2.
  pose proof (I2 t Ht) as A. pose proof (I2 u Hu) as B. unfold thread_ok in A, B.
  destruct (pcs st t), (pcs st u); lia.
Qed.

(* Every participant takes a step in [es], among any other steps and calls. *)
Definition full (n : nat) (es : list event) : Prop := forall t, t < n -> In (Step t) es.

Section Sweep.
Variable n : nat.
Variable B : sys -> Prop.
Variable Q : sys -> nat -> Prop.
Hypothesis HB : forall st e, inv n st -> thread_of e < n -> B st -> B (do_event n st e).
Hypothesis HQ : forall st e t, inv n st -> thread_of e < n -> t < n -> B st -> Q st t -> Q (do_event n st e) t.
Hypothesis HS : forall st t, inv n st -> t < n -> B st -> Q (step n st t) t.
Lemma sweep_run : forall es st, inv n st -> B st -> Forall (fun e => thread_of e < n) es ->
  B (run n st es) /\ forall t, t < n -> In (Step t) es \/ Q st t -> Q (run n st es) t.
Proof.
  induction es as [|e es IH]; intros st I0 Hb F.
  - split; [exact Hb|]. intros t _ [[]|H]. exact H.
  - pose proof (Forall_inv F) as Fe. apply Forall_inv_tail in F. cbn beta in Fe.
    destruct (IH (do_event n st e) (event_inv n st e I0 Fe) (HB st e I0 Fe Hb) F) as [A C].
    split; [exact A|]. intros t Ht H. apply C; [exact Ht|]. destruct H as [[->|H]|H].
    + right. now apply HS.
    + now left.
    + right. now apply HQ.
Qed.
End Sweep.

Lemma sweep n (B : sys -> Prop) (Q : sys -> nat -> Prop) :
  (forall st e, inv n st -> thread_of e < n -> B st -> B (do_event n st e)) ->
  (forall st e t, inv n st -> thread_of e < n -> t < n -> B st -> Q st t -> Q (do_event n st e) t) ->
  (forall st t, inv n st -> t < n -> B st -> Q (step n st t) t) ->
  forall es st, inv n st -> B st -> Forall (fun e => thread_of e < n) es -> full n es ->
  inv n (run n st es) /\ B (run n st es) /\ forall t, t < n -> Q (run n st es) t.
Proof.
  intros HB HQ HS es st I0 Hb F Fu. split; [now apply run_inv|].
  destruct (sweep_run n B Q HB HQ HS es st I0 Hb F) as [A C]. split; [exact A|]. intros t Ht. apply C; auto.
Qed.

(* What a step does to the counters. *)
Lemma counters n st e t : (entered st t <= entered (do_event n st e) t /\ arrived st t <= arrived (do_event n st e) t /\
  left st t <= left (do_event n st e) t /\ gen st <= gen (do_event n st e)).
Proof.
  assert (U : forall f u, f t <= bump f u t).
  { intros f u. unfold bump. destruct (Nat.eq_dec t u) as [->|N]; [rewrite upd_same; lia|rewrite upd_other by exact N; lia]. }
  destruct e as [u|u]; cbn [do_event]; [destruct (pcs st u)|unfold step; destruct (pcs st u); try destruct (_ =? _)%N]; cbn; auto 10 using Nat.le_refl.
Qed.

Definition entered_all (n r : nat) (st : sys) : Prop := forall t, t < n -> r <= entered st t.
Definition Q1 (r : nat) (st : sys) (t : nat) : Prop := r <= arrived st t \/ (r <= entered st t /\ exists p, pcs st t = BAdd p).
Definition Q2 (r : nat) (st : sys) (t : nat) : Prop := r <= arrived st t.
Definition Q3 (r : nat) (st : sys) (t : nat) : Prop := r <= gen st \/ forall p, pcs st t <> BReset p.
Definition Q4 (r : nat) (st : sys) (t : nat) : Prop := r <= gen st \/ is_last (pcs st t) = false.
Definition Q5 (r : nat) (st : sys) (t : nat) : Prop := r <= left st t.

Lemma b0 n r st e : inv n st -> thread_of e < n -> entered_all n r st -> entered_all n r (do_event n st e).
Proof. intros _ _ H t Ht. pose proof (counters n st e t). specialize (H t Ht). lia. Qed.

Lemma pc_other n st e t : t <> thread_of e -> pcs (do_event n st e) t = pcs st t.
Proof.
  intros N. destruct e as [u|u]; cbn [thread_of] in N; cbn [do_event]; [destruct (pcs st u)|unfold step; destruct (pcs st u); try destruct (_ =? _)%N]; cbn;
    rewrite ?upd_other by exact N; reflexivity.
Qed.

Lemma q1_keep n r st e t : inv n st -> thread_of e < n -> t < n -> Q1 r st t -> Q1 r (do_event n st e) t.
Proof.
  intros (_ & I2 & _) He Ht [H|[H (p & Hp)]].
  - left. pose proof (counters n st e t). lia.
  - destruct (Nat.eq_dec t (thread_of e)) as [->|N].
    + destruct e as [u|u]; cbn [thread_of] in *; cbn [do_event]; [rewrite Hp; right; eauto|].
      unfold step. rewrite Hp. left. cbn [arrived]. unfold bump. rewrite upd_same.
      specialize (I2 u He). unfold thread_ok in I2. rewrite Hp in I2. lia.
    + right. rewrite pc_other by exact N. pose proof (counters n st e t). split; [lia|eauto].
Qed.

Lemma q1_step n r st t : inv n st -> t < n -> entered_all n r st -> Q1 r (step n st t) t.
Proof.
  intros (_ & I2 & _) Ht H. specialize (H t Ht). specialize (I2 t Ht). unfold thread_ok in I2. unfold Q1, step.
  destruct (pcs st t) eqn:Ep.
  - left. lia.
  - destruct (le_lt_dec r (arrived st t)) as [L|L]; [left; exact L|]. right. cbn. rewrite upd_same. split; [lia|eauto].
  - left. cbn. unfold bump. rewrite upd_same. lia.
  - left. cbn. lia.
  - left. cbn. lia.
  - left. destruct (_ =? _)%N; cbn; lia.
Qed.

Definition all (n : nat) (Q : sys -> nat -> Prop) (st : sys) : Prop := forall t, t < n -> Q st t.

Lemma q2_step n r st t : inv n st -> t < n -> all n (Q1 r) st -> Q2 r (step n st t) t.
Proof.
  intros (_ & I2 & _) Ht H. specialize (H t Ht). specialize (I2 t Ht). unfold thread_ok in I2. unfold Q2.
  destruct H as [H|[H (p & Hp)]].
  - pose proof (counters n st (Step t) t) as K. cbn [do_event] in K. lia.
  - rewrite Hp in I2. unfold step. rewrite Hp. cbn. unfold bump. rewrite upd_same. lia.
Qed.

Lemma q2_keep n r st e t : Q2 r st t -> Q2 r (do_event n st e) t.
Proof. unfold Q2. pose proof (counters n st e t). lia. Qed.

(* Once everybody has arrived nobody becomes the last thread again in this round. *)
Lemma q3_keep n r st e t : inv n st -> thread_of e < n -> t < n -> all n (Q2 r) st -> Q3 r st t -> Q3 r (do_event n st e) t.
Proof.
  intros (_ & I2 & _) He Ht A [H|H]; [left; pose proof (counters n st e t); lia|].
  destruct (Nat.eq_dec t (thread_of e)) as [->|N]; [|right; rewrite pc_other by exact N; exact H].
  specialize (A _ He). specialize (I2 _ He). unfold thread_ok in I2. unfold Q2 in A. unfold Q3.
  destruct e as [u|u]; cbn [thread_of] in *; cbn [do_event].
  - right. destruct (pcs st u) eqn:Ep; cbn; rewrite ?upd_same, ?Ep; auto; intros ? Q; discriminate Q.
  - unfold step. destruct (pcs st u) eqn:Ep; [right; rewrite Ep; intros ? Q; discriminate Q|right; cbn; rewrite upd_same; intros ? Q; discriminate Q|left; cbn; lia|destruct (H p); reflexivity|
      right; cbn; rewrite upd_same; intros ? Q; discriminate Q|].
    right. destruct (_ =? _)%N; [rewrite Ep; intros ? Q; discriminate Q|]. cbn. rewrite upd_same. intros ? Q; discriminate Q.
Qed.
Lemma q3_step n r st t : inv n st -> t < n -> all n (Q2 r) st -> Q3 r (step n st t) t.
Proof.
  intros (_ & I2 & _) Ht A. specialize (A _ Ht). specialize (I2 _ Ht). unfold thread_ok in I2. unfold Q2 in A. unfold Q3, step.
  destruct (pcs st t) eqn:Ep; [right; rewrite Ep; intros ? Q; discriminate Q|right; cbn; rewrite upd_same; intros ? Q; discriminate Q|left; cbn; lia|
      right; cbn; rewrite upd_same; intros ? Q; discriminate Q|right; cbn; rewrite upd_same; intros ? Q; discriminate Q|].
  right. destruct (_ =? _)%N; [rewrite Ep; intros ? Q; discriminate Q|]. cbn. rewrite upd_same. intros ? Q; discriminate Q.
Qed.

Definition B3 (n r : nat) (st : sys) : Prop := all n (Q2 r) st /\ all n (Q3 r) st.
Lemma q4_keep n r st e t : inv n st -> thread_of e < n -> t < n -> B3 n r st -> Q4 r st t -> Q4 r (do_event n st e) t.
Proof.
  intros (_ & I2 & _) He Ht [A _] [H|H]; [left; pose proof (counters n st e t); lia|].
  destruct (Nat.eq_dec t (thread_of e)) as [->|N]; [|right; rewrite pc_other by exact N; exact H].
  specialize (A _ He). specialize (I2 _ He). unfold thread_ok in I2. unfold Q2 in A. unfold Q4.
  destruct e as [u|u]; cbn [thread_of] in *; cbn [do_event].
  - right. destruct (pcs st u) eqn:Ep; cbn; rewrite ?upd_same, ?Ep; auto.
  - unfold step. destruct (pcs st u) eqn:Ep; [right; now rewrite Ep|right; cbn; now rewrite upd_same|left; cbn; lia|discriminate|discriminate|].
    right. destruct (_ =? _)%N; [now rewrite Ep|]. cbn. now rewrite upd_same.
Qed.
Lemma q4_step n r st t : inv n st -> t < n -> B3 n r st -> Q4 r (step n st t) t.
Proof.
  intros (_ & I2 & _) Ht [A C]. specialize (A _ Ht). specialize (C _ Ht). specialize (I2 _ Ht). unfold thread_ok in I2. unfold Q2 in A. unfold Q3 in C. unfold Q4, step.
  destruct (pcs st t) eqn:Ep; [right; now rewrite Ep|right; cbn; now rewrite upd_same|left; cbn; lia| |right; cbn; now rewrite upd_same|].
  - destruct C as [C|C]; [left; exact C|]. destruct (C p). reflexivity.
  - right. destruct (_ =? _)%N; [now rewrite Ep|]. cbn. now rewrite upd_same.
Qed.

Lemma all_gen n r st : inv n st -> 1 <= n -> all n (Q2 r) st -> all n (Q4 r) st -> r <= gen st.
Proof.
  intros (_ & I2 & I3) Hn A C. destruct I3 as [(D & E & F)|(u & Hu & L & _)].
  - assert (K : ~ forall t, t < n -> arrived st t = S (gen st)).
    { intros K. assert (cnt n st = n); [|lia]. unfold cnt. rewrite <- (seq_length n 0) at 2. f_equal.
      assert (G : forall l, (forall t, In t l -> arrived st t = S (gen st)) -> filter (fun t => arrived st t =? S (gen st)) l = l).
      { induction l as [|x l IH]; intros Q; [reflexivity|]. cbn [filter]. rewrite (Q x) by (now left). rewrite Nat.eqb_refl. f_equal.
        apply IH. intros t Ht. apply Q. now right. }
      apply G. intros t Ht. apply in_seq in Ht. apply K. lia. }
    destruct (le_lt_dec r (gen st)) as [L|L]; [exact L|]. exfalso. apply K. intros t Ht. specialize (A t Ht). unfold Q2 in A.
    specialize (I2 t Ht). unfold thread_ok in I2. destruct (pcs st t); lia.
  - destruct (C u Hu) as [Q|Q]; [exact Q|congruence].
Qed.

Definition B5 (n r : nat) (st : sys) : Prop := r <= gen st /\ all n (Q2 r) st.
Lemma q5_step n r st t : inv n st -> t < n -> B5 n r st -> Q5 r (step n st t) t.
Proof.
  intros (I1 & I2 & _) Ht [G A]. specialize (A t Ht). specialize (I2 t Ht). unfold thread_ok in I2. unfold Q2, Q5, step in *.
  destruct (pcs st t) eqn:Ep; cbn; try lia.
  - unfold bump. rewrite upd_same. lia.
  - destruct I2 as (K1 & K2 & K3 & K4). destruct (N.eqb_spec (passed st) p) as [E|E]; [|cbn; unfold bump; rewrite upd_same; lia].
    destruct K4 as [K4|K4]; [lia|]. exfalso. rewrite I1, <- K4, K3 in E. exact (md_neq _ (eq_sym E)).
Qed.

(* No participant is left behind: once all of them have entered the barrier r
   times, all of them have left it r times after each has taken five more steps,
   in whatever order and among whatever other steps. *)
Theorem C40_all_leave : forall n r es es1 es2 es3 es4 es5, 1 <= n ->
  Forall (fun e => thread_of e < n) (es ++ es1 ++ es2 ++ es3 ++ es4 ++ es5) ->
  (forall t, t < n -> r <= entered (run n init es) t) ->
  full n es1 -> full n es2 -> full n es3 -> full n es4 -> full n es5 ->
  forall t, t < n -> r <= left (run n init (es ++ es1 ++ es2 ++ es3 ++ es4 ++ es5)) t.
Proof.
  intros n r es es1 es2 es3 es4 es5 Hn F H0 F1 F2 F3 F4 F5.
  apply Forall_app in F. destruct F as [G0 F]. apply Forall_app in F. destruct F as [G1 F]. apply Forall_app in F. destruct F as [G2 F].
  apply Forall_app in F. destruct F as [G3 F]. apply Forall_app in F. destruct F as [G4 G5].
  unfold run. rewrite !fold_left_app. fold (run n init es). set (s0 := run n init es).
  pose proof (run_inv n es init (init_inv n Hn) G0) as I0. fold s0 in I0.
  destruct (sweep n (entered_all n r) (Q1 r)) with (es := es1) (st := s0) as (I1 & _ & A1); auto.
  { intros. now apply b0. } { intros. now apply q1_keep. } { intros. now apply q1_step. }
  fold (run n s0 es1). set (s1 := run n s0 es1) in *.
  assert (K1 : forall st e, inv n st -> thread_of e < n -> all n (Q1 r) st -> all n (Q1 r) (do_event n st e)) by (intros st e J He K t Ht; apply q1_keep; auto).
  destruct (sweep n (all n (Q1 r)) (Q2 r)) with (es := es2) (st := s1) as (I2 & _ & A2); auto.
  { intros. now apply q2_keep. } { intros. now apply q2_step. }
  fold (run n s1 es2). set (s2 := run n s1 es2) in *.
  assert (K2 : forall st e, inv n st -> thread_of e < n -> all n (Q2 r) st -> all n (Q2 r) (do_event n st e)) by (intros st e J He K t Ht; apply q2_keep; auto).
  destruct (sweep n (all n (Q2 r)) (Q3 r)) with (es := es3) (st := s2) as (I3 & A3' & A3); auto.
  { intros. now apply q3_keep. } { intros. now apply q3_step. }
  fold (run n s2 es3). set (s3 := run n s2 es3) in *.
  destruct (sweep n (B3 n r) (Q4 r)) with (es := es4) (st := s3) as (I4 & A4' & A4); auto.
  { intros st e J He [K L]. split; [auto|]. intros t Ht. apply q3_keep; auto. } { intros. now apply q4_keep. } { intros. now apply q4_step. }
  { split; assumption. }
  fold (run n s3 es4). set (s4 := run n s3 es4) in *.
  destruct (sweep n (B5 n r) (Q5 r)) with (es := es5) (st := s4) as (I5 & _ & A5); auto.
  { intros st e J He [K L]. split; [|auto]. pose proof (counters n st e 0). lia. }
  { intros st e t _ _ _ _ K. unfold Q5 in *. pose proof (counters n st e t). lia. }
  { intros. now apply q5_step. }
  { split; [|exact (proj1 A4')]. apply (all_gen n); auto. exact (proj1 A4'). }
Qed.

Print Assumptions C40_phases.
Print Assumptions C40_all_leave.

(* Three threads, two phases: thread 0 is already waiting in the second phase
   while thread 2 has not noticed the end of the first. *)
Definition two_phases : list event :=
  [Call 0; Step 0; Step 0; Call 1; Step 1; Step 1; Call 2; Step 2; Step 2; Step 2; Step 2; Step 0; Call 0; Step 0; Step 0].
Example two_phases_run :
  let st := run 3 init two_phases in
  Forall (fun e => thread_of e < 3) two_phases /\
  map (entered st) [0; 1; 2] = [2; 1; 1] /\ map (left st) [0; 1; 2] = [1; 0; 1] /\ reached st = 1 /\
  full 3 (two_phases ++ [Step 1]).
Proof.
  split; [repeat constructor|]. split; [reflexivity|]. split; [reflexivity|]. split; [reflexivity|].
  intros [|[|[|t]]] H; [cbn; auto 12|cbn; auto 12|cbn; auto 20|lia].
Qed.
