(* Lemmas for C77. *)
From Coq Require Import List ZArith Arith Bool Lia.
From Verif Require Import Base LoadSpec LoadModel.
Import ListNotations.

(* ---- memory ---- *)

Lemma replace_length l n x : length (replace l n x) = length l.
Proof. revert n; induction l; intros [|n]; cbn; auto. Qed.

Lemma replace_same l n x y : nth_error l n = Some y -> nth_error (replace l n x) n = Some x.
Proof. revert n; induction l; intros [|n]; cbn; intros H; try discriminate; auto. Qed.

Lemma replace_other l n k x : n <> k -> nth_error (replace l n x) k = nth_error l k.
Proof.
  revert n k; induction l; intros [|n] [|k] H; cbn; auto; try congruence.
Qed.

Lemma look_put_same m l x y : look m l = Some y -> look (put m l x) l = Some x.
Proof. destruct l; cbn; apply replace_same. Qed.

Lemma look_put_other m l k x : l <> k -> look (put m l x) k = look m k.
Proof.
  destruct l, k; cbn; intros H; auto; apply replace_other; congruence.
Qed.

Lemma loc_eq_dec (a b : loc) : {a = b} + {a <> b}.
Proof. decide equality; apply Nat.eq_dec. Qed.

(* Memories that agree except at one location. *)
Definition agree (l : loc) (m m' : mem) : Prop :=
  length (vars m) = length (vars m') /\ length (others m) = length (others m') /\
  forall k, k <> l -> look m k = look m' k.

Lemma agree_refl l m : agree l m m.
Proof. split; [reflexivity|split; [reflexivity|auto]]. Qed.

Lemma look_defined m m' l k : agree l m m' -> look m k <> None -> look m' k <> None.
Proof.
  intros (Hv & Ho & _) H; destruct k; cbn in *; apply nth_error_Some;
    apply nth_error_Some in H; lia.
Qed.

Lemma put_lengths m l x :
  length (vars (put m l x)) = length (vars m) /\ length (others (put m l x)) = length (others m).
Proof. destruct l; cbn; rewrite ?replace_length; auto. Qed.

Lemma agree_put l m m' k x : agree l m m' -> look m k <> None -> agree l (put m k x) (put m' k x).
Proof.
  intros A D; pose proof (look_defined _ _ _ _ A D) as D'; destruct A as (Hv & Ho & H).
  destruct (put_lengths m k x), (put_lengths m' k x).
  split; [lia|split; [lia|]]. intros j Hj.
  destruct (loc_eq_dec k j) as [->|N].
  - destruct (look m j) eqn:E; [|congruence]. destruct (look m' j) eqn:E'; [|congruence].
    rewrite (look_put_same _ _ _ _ E), (look_put_same _ _ _ _ E'); reflexivity.
  - rewrite !look_put_other by auto. auto.
Qed.

Lemma agree_erase l m x y : look m l = Some y -> agree l (put m l x) m.
Proof.
  intros E; destruct (put_lengths m l x). split; [lia|split; [lia|]].
  intros k Hk; rewrite look_put_other; auto.
Qed.

Lemma agree_trans l a b c : agree l a b -> agree l b c -> agree l a c.
Proof.
  intros (A1 & A2 & A3) (B1 & B2 & B3); split; [lia|split; [lia|]].
  intros k Hk; rewrite A3, B3; auto.
Qed.

Lemma list_ext (a b : list value) : (forall k, nth_error a k = nth_error b k) -> a = b.
Proof.
  revert b; induction a as [|x a IH]; intros [|y b] H; auto.
  - specialize (H 0); discriminate.
  - specialize (H 0); discriminate.
  - f_equal; [specialize (H 0); cbn in H; congruence|].
    apply IH; intros k; apply (H (S k)).
Qed.

Lemma mem_ext m m' : (forall k, look m k = look m' k) -> m = m'.
Proof.
  intros H; destruct m as [a b], m' as [a' b']; f_equal; apply list_ext; intros k.
  - apply (H (Var k)).
  - apply (H (Other k)).
Qed.

Lemma agree_put_eq l m m' x : agree l m m' -> look m l <> None -> put m l x = put m' l x.
Proof.
  intros A D. apply mem_ext; intros k.
  pose proof (agree_put _ _ _ l x A D) as (_ & _ & H).
  destruct (loc_eq_dec k l) as [->|N]; [|auto].
  pose proof (look_defined _ _ _ _ A D).
  destruct (look m l) eqn:E; [|congruence]. destruct (look m' l) eqn:E'; [|congruence].
  rewrite (look_put_same _ _ _ _ E), (look_put_same _ _ _ _ E'); reflexivity.
Qed.

Lemma store_some m l x m' : store m l x = Some m' -> exists k, l = Some k /\ look m k <> None /\ m' = put m k x.
Proof.
  unfold store; destruct l as [k|]; [|discriminate]. destruct (look m k) eqn:E; [|discriminate].
  intros [= <-]; exists k; split; [reflexivity|split; [congruence|reflexivity]].
Qed.

Lemma store_put m k x : look m k <> None -> store m (Some k) x = Some (put m k x).
Proof. unfold store; destruct (look m k); congruence. Qed.

(* ---- registers ---- *)

Lemma nth_error_snoc {A} (l : list A) x n y : nth_error l n = Some y -> nth_error (l ++ [x]) n = Some y.
Proof.
  intros H; rewrite nth_error_app1; auto. apply nth_error_Some; congruence.
Qed.

Lemma nth_error_last {A} (l : list A) x : nth_error (l ++ [x]) (length l) = Some x.
Proof. rewrite nth_error_app2, Nat.sub_diag by lia; reflexivity. Qed.

Lemma define_some m e r x m' e' : define m e r x = Some (m', e') -> m' = m /\ e' = e ++ [x] /\ r = length e.
Proof.
  unfold define; destruct (Nat.eqb_spec r (length e)); [|discriminate]. intros [= <- <-]; auto.
Qed.

Lemma keep_some e m m' e' : keep e m = Some (m', e') -> m = Some m' /\ e' = e.
Proof. destruct m; cbn; [intros [= <- <-]; auto|discriminate]. Qed.

(* An operation keeps the registers and adds at most one. *)
Lemma exec_op_env w o m e m' e' : exec_op w o (m, e) = Some (m', e') -> exists l, e' = e ++ l.
Proof.
  destruct o; cbn [exec_op]; intros H;
    repeat match type of H with
    | match ?x with _ => _ end = Some _ => destruct x; try discriminate
    end;
    try (apply define_some in H; destruct H as (_ & -> & _); eexists; reflexivity);
    try (apply keep_some in H; destruct H as (_ & ->); exists []; rewrite app_nil_r; reflexivity);
    injection H as <- <-; exists []; rewrite app_nil_r; reflexivity.
Qed.

Lemma exec_op_reg w o m e m' e' r x :
  exec_op w o (m, e) = Some (m', e') -> nth_error e r = Some x -> nth_error e' r = Some x.
Proof.
  intros H E; destruct (exec_op_env _ _ _ _ _ _ H) as (l & ->).
  rewrite nth_error_app1; auto. apply nth_error_Some; congruence.
Qed.

(* ---- what an operation may write other than by OStore ---- *)

Definition writes (w : world) (e : env) (o : op) (l : loc) : Prop :=
  match o with
  | OStoreIndirect _ p | OFileRead p _ | ODeallocate p | OCopy p _ => target e p = Some l
  | OFileOpen p s _ => target e p = Some l \/ exists s', s = Some s' /\ target e s' = Some l
  | OCall k args _ => exists xs, pick_all e args = Some xs /\ touches w k xs l
  | _ => False
  end.

Lemma exec_op_keeps w o m e m' e' l :
  exec_op w o (m, e) = Some (m', e') ->
  ~ writes w e o l -> (forall r v, o = OStore r v -> l <> Var v) -> look m' l = look m l.
Proof.
  intros H N S; destruct o; cbn [exec_op writes] in *;
    repeat match type of H with
    | match ?x with _ => _ end = Some _ => let E := fresh "E" in destruct x eqn:E; try discriminate
    end;
    try (apply define_some in H; destruct H as (-> & _ & _); reflexivity);
    try (apply keep_some in H; destruct H as (H & _));
    try (injection H as <- _);
    repeat match goal with
    | K : store _ _ _ = Some _ |- _ => apply store_some in K; destruct K as (? & ? & _ & ->)
    end;
    try reflexivity.
  - rewrite look_put_other; [reflexivity|]. injection H as <-.
    intros <-; eapply S; reflexivity.
  - rewrite look_put_other; [reflexivity|]. congruence.
  - apply define_some in H. destruct H as (-> & _ & _).
    destruct (look m l) eqn:A, (look m0 l) eqn:B; auto.
    + assert (C : {v0 = v1} + {v0 <> v1}) by (repeat decide equality).
      destruct C as [->|C]; [reflexivity|]. exfalso; apply N. exists l0; split; [auto|].
      exists m; rewrite E0; cbn. congruence.
    + exfalso; apply N. exists l0; split; [auto|]. exists m; rewrite E0; cbn. congruence.
    + exfalso; apply N. exists l0; split; [auto|]. exists m; rewrite E0; cbn. congruence.
  - rewrite look_put_other; [reflexivity|]. congruence.
  - rewrite look_put_other.
    + rewrite look_put_other; [reflexivity|]. intros ->; apply N; left; congruence.
    + intros ->; apply N; right; eexists; split; [reflexivity|congruence].
  - rewrite look_put_other; [reflexivity|]. intros ->; apply N; left; congruence.
  - rewrite look_put_other; [reflexivity|]. congruence.
  - rewrite look_put_other; [reflexivity|]. congruence.
Qed.

(* ---- operations that respect the conditions ---- *)

Definition has (v : nat) (l : list op) : Prop :=
  (exists r, In (OIndex v r) l) \/ (exists r, In (OContext r) l).

Definition conf1 (w : world) (l : list op) (e : env) (o : op) : Prop :=
  (forall v, writes w e o (Var v) -> has v l) /\
  match o with
  | OCopy p _ | OLoadIndirect p _ => forall v, target e p <> Some (Var v)
  | _ => True
  end.

Fixpoint conf (w : world) (m : mem) (l : list op) : Prop :=
  match l with
  | [] => True
  | o :: l => conf w m l /\ forall m1 e1, exec w m l = Some (m1, e1) -> conf1 w l e1 o
  end.

Definition frees (e : env) (o : op) (k : loc) : Prop :=
  match o with
  | ODeallocate p => target e p = Some k
  | OFileOpen p s _ => target e p = Some k \/ exists s', s = Some s' /\ target e s' = Some k
  | _ => False
  end.

Fixpoint clean (w : world) (m : mem) (l : list op) (k : loc) : Prop :=
  match l with
  | [] => True
  | o :: l => clean w m l k /\ forall m1 e1, exec w m l = Some (m1, e1) -> ~ frees e1 o k
  end.

Lemma has_cons v o l : has v l -> has v (o :: l).
Proof. intros [[r H]|[r H]]; [left|right]; exists r; right; auto. Qed.

(* ---- the scans ---- *)

Definition holds (e : env) (m : mem) (k : loc) (r : nat) : Prop :=
  exists x, nth_error e r = Some x /\ look m k = Some x.

Lemma holds_step w o m e m' e' k r :
  exec_op w o (m, e) = Some (m', e') -> holds e m k r ->
  ~ writes w e o k -> (forall r v, o = OStore r v -> k <> Var v) -> holds e' m' k r.
Proof.
  intros H (x & A & B) N S; exists x; split; [eapply exec_op_reg; eauto|].
  rewrite (exec_op_keeps _ _ _ _ _ _ _ H N S); auto.
Qed.

Lemma holds_load w v r m e m' e' : exec_op w (OLoad v r) (m, e) = Some (m', e') -> holds e' m' (Var v) r.
Proof.
  cbn [exec_op]. destruct (look m (Var v)) as [x|] eqn:E; [|discriminate].
  intros H; apply define_some in H; destruct H as (-> & -> & ->).
  exists x; split; [apply nth_error_last|auto].
Qed.

Lemma holds_store w v r m e m' e' : exec_op w (OStore r v) (m, e) = Some (m', e') -> holds e' m' (Var v) r.
Proof.
  cbn [exec_op]. destruct (nth_error e r) as [x|] eqn:E; [|discriminate].
  intros H; apply keep_some in H; destruct H as (H & ->).
  apply store_some in H; destruct H as (k & [= <-] & D & ->).
  exists x; split; [auto|]. destruct (look m (Var v)) eqn:F; [|congruence].
  eapply look_put_same; eauto.
Qed.

Lemma exec_cons w m o l m' e' :
  exec w m (o :: l) = Some (m', e') ->
  exists m1 e1, exec w m l = Some (m1, e1) /\ exec_op w o (m1, e1) = Some (m', e').
Proof.
  cbn [exec]. destruct (exec w m l) as [[m1 e1]|]; [|discriminate]. intros H; exists m1, e1; auto.
Qed.

Lemma conservative_sound w m0 v r l : forall fold m e,
  scan_conservative v fold l = Some r -> exec w m0 l = Some (m, e) -> conf w m0 l ->
  ~ has v l /\ (fold = Some r \/ (fold = None /\ holds e m (Var v) r)).
Proof.
  induction l as [|o l IH]; intros fold m e S X C.
  { cbn in S; subst. split; [intros [[? []]|[? []]]|left; auto]. }
  apply exec_cons in X; destruct X as (m1 & e1 & X & Y).
  destruct C as (C & C1). specialize (C1 _ _ X).
  (* an operation that is skipped *)
  assert (skip : (forall r', o <> OIndex v r') -> (forall r', o <> OContext r') ->
            (forall r', o <> OStore r' v) -> scan_conservative v fold l = Some r ->
            ~ has v (o :: l) /\ (fold = Some r \/ (fold = None /\ holds e m (Var v) r))).
  { intros N1 N2 N3 S'. destruct (IH _ _ _ S' X C) as (NH & Q). split.
    - intros [[q [A|A]]|[q [A|A]]].
      + eapply N1; eauto.
      + apply NH; left; eauto.
      + eapply N2; eauto.
      + apply NH; right; eauto.
    - destruct Q as [Q|(Q & R)]; [auto|right; split; [auto|]].
      eapply holds_step; eauto.
      + intros W; apply NH. apply (proj1 C1); auto.
      + intros q u -> [= ->]. eapply N3; eauto. }
  destruct o; cbn [scan_conservative] in S;
    try (apply skip; solve [auto|intros; discriminate]).
  - (* load *)
    destruct fold as [f|]; [apply skip; solve [auto|intros; discriminate]|].
    destruct (Nat.eqb_spec v0 v) as [->|Nv]; [|apply skip; solve [auto|intros; discriminate]].
    destruct (IH _ _ _ S X C) as (NH & Q). split.
    + intros [[q [A|A]]|[q [A|A]]]; try discriminate; apply NH; [left|right]; eauto.
    + right; split; [auto|]. destruct Q as [[= ->]|(? & _)]; [|discriminate].
      eapply holds_load; eauto.
  - (* store *)
    destruct (Nat.eqb_spec v0 v) as [->|Nv].
    + destruct (IH _ _ _ S X C) as (NH & Q). split.
      * intros [[q [A|A]]|[q [A|A]]]; try discriminate; apply NH; [left|right]; eauto.
      * destruct fold as [f|]; [destruct Q as [Q|(? & _)]; [auto|discriminate]|].
        right; split; [auto|]. destruct Q as [[= ->]|(? & _)]; [|discriminate].
        eapply holds_store; eauto.
    + apply skip; try (intros; discriminate).
      * intros q [= _ ->]; congruence.
      * destruct fold; auto.
  - (* index *)
    destruct (Nat.eqb_spec v0 v) as [->|Nv]; [discriminate|].
    apply skip; auto; intros; congruence.
Qed.

Lemma eager_sound w m0 v r l : forall m e,
  scan_eager v l = Some r -> exec w m0 l = Some (m, e) -> conf w m0 l -> holds e m (Var v) r.
Proof.
  induction l as [|o l IH]; intros m e S X C; [discriminate|].
  apply exec_cons in X; destruct X as (m1 & e1 & X & Y).
  destruct C as (C & C1). specialize (C1 _ _ X).
  assert (clobber : scan_conservative v None l = Some r -> (forall r' v', o <> OStore r' v') -> holds e m (Var v) r).
  { intros S' N. destruct (conservative_sound _ _ _ _ _ _ _ _ S' X C) as (NH & Q).
    destruct Q as [?|(_ & Q)]; [discriminate|].
    eapply holds_step; eauto.
    - intros W; apply NH, (proj1 C1); auto.
    - intros q u ->; exfalso; eapply N; eauto. }
  destruct o; cbn [scan_eager] in S;
    try (apply clobber; solve [auto|intros; discriminate]);
    try solve [eapply holds_step; [exact Y|apply IH; auto|cbn [writes]; auto|intros; discriminate]].
  - destruct (Nat.eqb_spec v0 v) as [->|N].
    + injection S as ->. eapply holds_load; eauto.
    + eapply holds_step; [exact Y|apply IH; auto|cbn [writes]; auto|intros; discriminate].
  - destruct (Nat.eqb_spec v0 v) as [->|N].
    + injection S as ->. eapply holds_store; eauto.
    + eapply holds_step; [exact Y|apply IH; auto|cbn [writes]; auto|].
      intros q u [= _ ->]; congruence.
  - eapply holds_step; [exact Y|apply IH; auto| |intros; discriminate].
    intros W. apply (proj2 C1 v); auto.
Qed.

Lemma target_snoc e e' p k l : e' = e ++ l -> target e p = Some k -> target e' p = Some k.
Proof.
  intros ->; unfold target. destruct (nth_error e p) eqn:E; [|discriminate].
  rewrite nth_error_app1 by (apply nth_error_Some; congruence). rewrite E; auto.
Qed.

Lemma indirect_sound w m0 p r k l : forall m e,
  scan_indirect p l = Some r -> exec w m0 l = Some (m, e) -> clean w m0 l k ->
  target e p = Some k -> holds e m k r.
Proof.
  induction l as [|o l IH]; intros m e S X C T; [discriminate|].
  apply exec_cons in X; destruct X as (m1 & e1 & X & Y).
  destruct C as (C & C1). specialize (C1 _ _ X).
  (* the pointer was there before *)
  assert (D : forall r' m2 e2 l', scan_indirect p l' = Some r' -> exec w m0 l' = Some (m2, e2) ->
            exists y, target e2 p = Some y).
  { clear. intros r' m2 e2 l'; revert m2 e2.
    induction l' as [|o l' IH']; intros m2 e2 S X; [discriminate|].
    apply exec_cons in X; destruct X as (m1 & e1 & X & Y).
    assert (K : scan_indirect p l' = Some r' -> exists y, target e2 p = Some y).
    { intros S'. destruct (IH' _ _ S' X) as (y & H). exists y.
      destruct (exec_op_env _ _ _ _ _ _ Y) as (q & Q). eapply target_snoc; eauto. }
    destruct o; cbn [scan_indirect] in S; try discriminate; auto.
    destruct (Nat.eqb_spec p0 p) as [->|N]; [|auto].
    cbn [exec_op] in Y. destruct (target e1 p) as [y|] eqn:F; [|discriminate].
    destruct (look m1 y); [|discriminate]. exists y.
    apply define_some in Y. destruct Y as (_ & Y & _). eapply target_snoc; eauto. }
  assert (skip : scan_indirect p l = Some r -> ~ writes w e1 o k ->
            (forall r' v', o <> OStore r' v') -> holds e m k r).
  { intros S' N1 N2. eapply holds_step; eauto.
    - apply IH; auto. destruct (D _ _ _ _ S' X) as (y & H).
      destruct (exec_op_env _ _ _ _ _ _ Y) as (q & Q).
      rewrite (target_snoc _ _ _ _ _ Q H) in T. congruence.
    - intros q u ->; exfalso; eapply N2; eauto. }
  destruct o; cbn [scan_indirect] in S; try discriminate;
    try (apply skip; solve [auto|intros; discriminate]).
  destruct (Nat.eqb_spec p0 p) as [->|N]; [|apply skip; solve [auto|intros; discriminate]].
  injection S as ->. cbn [exec_op] in Y.
  destruct (target e1 p) as [y|] eqn:F; [|discriminate].
  destruct (look m1 y) as [x|] eqn:G; [|discriminate].
  apply define_some in Y. destruct Y as (-> & Q & ->).
  rewrite (target_snoc _ _ _ _ _ Q F) in T. injection T as ->.
  exists x; split; [rewrite Q; apply nth_error_last|auto].
Qed.

(* ---- dead stores ---- *)

Lemma in_kill o u l : (forall r v, o <> OStore r v) -> o <> OComment -> (In o (kill u l) <-> In o l).
Proof.
  intros N N'; induction l as [|o' l IH]; [reflexivity|].
  destruct o'; cbn [kill];
    repeat match goal with |- context [if ?b then _ else _] => destruct b end; cbn [In];
    rewrite ?IH; try reflexivity.
  split; (intros [E|E]; [exfalso|right; auto]).
  - congruence.
  - eapply N; eauto.
Qed.

Lemma has_kill v u l : has v (kill u l) <-> has v l.
Proof.
  unfold has; split; (intros [[r H]|[r H]]; [left|right]; exists r; revert H; apply in_kill; discriminate).
Qed.

(* What the operations skipped by the scan of emit_store do on memories that agree
   except at the variable. *)
Definition passes (v : nat) (o : op) : Prop :=
  match o with
  | OCall _ _ _ => False
  | OIndex v' _ | OLoad v' _ => v' <> v
  | _ => True
  end.

Lemma store_agree l m m' k x m1 :
  agree l m m' -> store m k x = Some m1 -> exists m1', store m' k x = Some m1' /\ agree l m1 m1'.
Proof.
  intros A H. apply store_some in H; destruct H as (j & -> & D & ->).
  exists (put m' j x); split; [apply store_put; eapply look_defined; eauto|apply agree_put; auto].
Qed.

Lemma pass_agree w v o m m' e m1 e1 l :
  passes v o -> conf1 w l e o -> agree (Var v) m m' -> exec_op w o (m, e) = Some (m1, e1) ->
  exists m1', exec_op w o (m', e) = Some (m1', e1) /\ agree (Var v) m1 m1'.
Proof.
  intros P (_ & C) A H. pose proof A as (_ & _ & AL).
  assert (K : forall k x m1 e1, keep e (store m k x) = Some (m1, e1) ->
            exists m1', keep e (store m' k x) = Some (m1', e1) /\ agree (Var v) m1 m1').
  { intros k x m2 e2 H'. apply keep_some in H'; destruct H' as (H' & ->).
    destruct (store_agree _ _ _ _ _ _ A H') as (m1' & S & A'). exists m1'; rewrite S; auto. }
  assert (Df : forall r x, define m e r x = Some (m1, e1) ->
            exists m1', define m' e r x = Some (m1', e1) /\ agree (Var v) m1 m1').
  { intros r x H'. unfold define in *. destruct (Nat.eqb r (length e)); [|discriminate].
    injection H' as <- <-. eexists; split; [reflexivity|auto]. }
  destruct o; cbn [exec_op passes] in *; try contradiction; auto.
  - destruct (pick_all e args); [auto|discriminate].
  - rewrite <- AL by congruence. destruct (look m (Var v0)); [auto|discriminate].
  - destruct (nth_error e r); [auto|discriminate].
  - destruct (target e p) as [k|] eqn:T; [|discriminate].
    rewrite <- AL by (intros ->; eapply C; reflexivity).
    destruct (look m k); [auto|discriminate].
  - destruct (nth_error e r); [auto|discriminate].
  - destruct (store m (target e p) (file w k 0)) as [m2|] eqn:S; [|discriminate].
    destruct (store_agree _ _ _ _ _ _ A S) as (m2' & S' & A'). rewrite S'.
    destruct s as [s|].
    + apply keep_some in H; destruct H as (H & ->).
      destruct (store_agree _ _ _ _ _ _ A' H) as (m3 & S3 & A3). rewrite S3. exists m3; auto.
    + injection H as <- <-. exists m2'; auto.
  - injection H as <- <-. exists m'; auto.
Qed.

Lemma kill_exec w m0 v l : forall m e,
  exec w m0 l = Some (m, e) -> conf w m0 l ->
  (exists m', exec w m0 (kill v l) = Some (m', e) /\ agree (Var v) m m') /\ conf w m0 (kill v l) /\
  forall k, clean w m0 l k -> clean w m0 (kill v l) k.
Proof.
  induction l as [|o l IH]; intros m e X C.
  { split; [exists m; split; [auto|apply agree_refl]|split; auto]. }
  pose proof X as X0. pose proof C as C0.
  apply exec_cons in X; destruct X as (m1 & e1 & X & Y).
  destruct C as (C & C1). pose proof (C1 _ _ X) as C1'.
  destruct (IH _ _ X C) as ((m' & X' & A) & CK & CL).
  assert (stop : (exists m', exec w m0 (o :: l) = Some (m', e) /\ agree (Var v) m m') /\
            conf w m0 (o :: l) /\ forall k, clean w m0 (o :: l) k -> clean w m0 (o :: l) k).
  { split; [exists m; split; [auto|apply agree_refl]|split; auto]. }
  assert (go : passes v o -> (exists m', exec w m0 (o :: kill v l) = Some (m', e) /\ agree (Var v) m m') /\
            conf w m0 (o :: kill v l) /\
            forall k, clean w m0 (o :: l) k -> clean w m0 (o :: kill v l) k).
  { intros P. destruct (pass_agree _ _ _ _ _ _ _ _ _ P C1' A Y) as (m1' & Y' & A').
    split; [|split].
    - exists m1'; split; [cbn [exec]; rewrite X'; exact Y'|exact A'].
    - split; [exact CK|]. intros m2 e2 E2. rewrite X' in E2. injection E2 as <- <-.
      destruct C1' as (W & R). split; [|exact R].
      intros u Hu. apply has_kill; auto.
    - intros k (K1 & K2). split; [auto|]. intros m2 e2 E2. rewrite X' in E2. injection E2 as <- <-.
      eapply K2; eauto. }
  destruct o; cbn [kill];
    try (apply go; exact Logic.I); try exact stop.
  - destruct (Nat.eqb_spec v0 v) as [->|N]; [exact stop|apply go; exact N].
  - destruct (Nat.eqb_spec v0 v) as [->|N]; [|apply go; exact Logic.I].
    cbn [exec_op] in Y. destruct (nth_error e1 r) as [x|]; [|discriminate].
    apply keep_some in Y; destruct Y as (Y & ->).
    apply store_some in Y; destruct Y as (k & [= <-] & D & ->).
    destruct (look m1 (Var v)) as [y|] eqn:Ly; [|congruence].
    split; [|split].
    + exists m'; split; [cbn [exec]; rewrite X'; reflexivity|].
      eapply agree_trans; [eapply agree_erase; eauto|exact A].
    + split; [exact CK|]. intros m2 e2 E2. split; [intros u []|exact Logic.I].
    + intros k (K1 & K2). split; [auto|]. intros m2 e2 E2 [].
  - destruct (Nat.eqb_spec v0 v) as [->|N]; [exact stop|apply go; exact N].
Qed.

(* ---- the invariant ---- *)

Definition regs (e : env) (rs : list nat) (vs : list value) : Prop :=
  Forall2 (fun r x => nth_error e r = Some x) rs vs.

Definition inv (w : world) (m0 : mem) (before : list act) (gone : loc -> Prop)
    (c : code) (rs : list nat) (m : mem) (vs : list value) : Prop :=
  exists e, exec w m0 (ops c) = Some (m, e) /\ nregs c = length e /\ conf w m0 (ops c) /\
    (forall v, taken before v -> has v (ops c)) /\
    (forall k, ~ gone k -> clean w m0 (ops c) k) /\ regs e rs vs.

Lemma regs_snoc e rs vs x : regs e rs vs -> regs (e ++ [x]) rs vs.
Proof. induction 1; constructor; [apply nth_error_snoc|]; auto. Qed.

Lemma regs_pick e rs vs n x : regs e rs vs -> nth_error vs n = Some x ->
  exists r, pick rs n = Ok r /\ nth_error e r = Some x.
Proof.
  intros H; revert n; induction H as [|r y rs vs A _ IH]; intros [|n] E; try discriminate.
  - injection E as ->. exists r; auto.
  - apply IH; auto.
Qed.

Lemma regs_picks e rs vs l xs : regs e rs vs -> pick_all vs l = Some xs ->
  exists q, picks rs l = Ok q /\ pick_all e q = Some xs.
Proof.
  intros H; revert xs; induction l as [|n l IH]; cbn [pick_all picks]; intros xs E.
  - injection E as <-. exists []; auto.
  - destruct (nth_error vs n) as [x|] eqn:F; [|discriminate].
    destruct (pick_all vs l) as [ys|]; [|discriminate]. injection E as <-.
    destruct (regs_pick _ _ _ _ _ H F) as (r & -> & A).
    destruct (IH _ eq_refl) as (q & -> & B). exists (r :: q); split; [reflexivity|].
    cbn [pick_all]; rewrite A, B; reflexivity.
Qed.

Lemma regs_target e rs vs p k : regs e rs vs -> target vs p = Some k ->
  exists q, pick rs p = Ok q /\ target e q = Some k.
Proof.
  unfold target; intros H E. destruct (nth_error vs p) as [x|] eqn:F; [|discriminate].
  destruct (regs_pick _ _ _ _ _ H F) as (r & A & B). exists r; rewrite B; auto.
Qed.

Lemma taken_snoc before a v : taken (before ++ [a]) v -> taken before v \/ a = Take v \/ a = Context.
Proof.
  intros [H|H]; apply in_app_or in H; destruct H as [H|[->|[]]]; auto; left; [left|right]; auto.
Qed.

(* Adding an operation at the end. *)
Lemma add_inv w m0 before (gone : loc -> Prop) c m vs a o m' e' e n rs' vs' :
  exec w m0 (ops c) = Some (m, e) -> conf w m0 (ops c) ->
  (forall v, taken before v -> has v (ops c)) ->
  (forall k, ~ gone k -> clean w m0 (ops c) k) ->
  exec_op w o (m, e) = Some (m', e') -> n = length e' ->
  conf1 w (ops c) e o ->
  (forall k, frees e o k -> releases vs a k) ->
  (forall v, a = Take v \/ a = Context -> has v (o :: ops c)) ->
  regs e' rs' vs' ->
  inv w m0 (before ++ [a]) (fun x => gone x \/ releases vs a x) (Code (o :: ops c) n) rs' m' vs'.
Proof.
  intros X C T G Y -> C1 F K R. exists e'. cbn [ops nregs].
  split; [cbn [exec]; rewrite X; exact Y|]. split; [reflexivity|].
  split; [split; [exact C|intros m1 e1 E1; rewrite X in E1; injection E1 as <- <-; exact C1]|].
  split; [|split; [|exact R]].
  - intros v H; apply taken_snoc in H; destruct H as [H|H]; [apply has_cons; auto|auto].
  - intros k N. split; [apply G; auto|].
    intros m1 e1 E1; rewrite X in E1; injection E1 as <- <-. intros Q; apply N; right; auto.
Qed.

(* No operation is needed. *)
Lemma reuse_inv w m0 before (gone : loc -> Prop) c m vs a e rs' vs' :
  exec w m0 (ops c) = Some (m, e) -> nregs c = length e -> conf w m0 (ops c) ->
  (forall v, taken before v -> has v (ops c)) ->
  (forall k, ~ gone k -> clean w m0 (ops c) k) ->
  (forall v, a = Take v \/ a = Context -> has v (ops c)) ->
  regs e rs' vs' ->
  inv w m0 (before ++ [a]) (fun x => gone x \/ releases vs a x) c rs' m vs'.
Proof.
  intros X Nr C T G K R. exists e. repeat (split; [assumption|]).
  split; [|split; [|exact R]].
  - intros v H; apply taken_snoc in H; destruct H as [H|H]; auto.
  - intros k N. apply G; auto.
Qed.

Lemma find_op_in f l r : find_op f l = Some r -> exists o, In o l /\ f o = Some r.
Proof.
  induction l as [|o l IH]; cbn [find_op]; [discriminate|].
  destruct (f o) eqn:E.
  - intros [= ->]. exists o; split; [left|]; auto.
  - intros H; destruct (IH H) as (o' & A & B). exists o'; split; [right|]; auto.
Qed.

(* The result of an address computation stays in its register. *)
Lemma exec_index w m0 v r l : forall m e,
  exec w m0 l = Some (m, e) -> In (OIndex v r) l -> nth_error e r = Some (Ptr (Var v)).
Proof.
  induction l as [|o l IH]; intros m e X; [intros []|].
  apply exec_cons in X; destruct X as (m1 & e1 & X & Y).
  intros [->|H].
  - cbn [exec_op] in Y. apply define_some in Y; destruct Y as (_ & -> & ->). apply nth_error_last.
  - eapply exec_op_reg; eauto.
Qed.
Lemma exec_context w m0 r l : forall m e,
  exec w m0 l = Some (m, e) -> In (OContext r) l -> nth_error e r = Some Null.
Proof.
  induction l as [|o l IH]; intros m e X; [intros []|].
  apply exec_cons in X; destruct X as (m1 & e1 & X & Y).
  intros [->|H].
  - cbn [exec_op] in Y. apply define_some in Y; destruct Y as (_ & -> & ->). apply nth_error_last.
  - eapply exec_op_reg; eauto.
Qed.

Lemma define_ok m e x : define m e (length e) x = Some (m, e ++ [x]).
Proof. unfold define; rewrite Nat.eqb_refl; reflexivity. Qed.

Lemma regs_value e rs vs x : regs e rs vs -> regs (e ++ [x]) (rs ++ [length e]) (vs ++ [x]).
Proof.
  intros H; apply Forall2_app; [apply regs_snoc; auto|].
  constructor; [apply nth_error_last|constructor].
Qed.

Lemma regs_reuse e rs vs r x : regs e rs vs -> nth_error e r = Some x -> regs e (rs ++ [r]) (vs ++ [x]).
Proof. intros H E; apply Forall2_app; auto. Qed.

Lemma act_ok w m0 before gone c rs m vs a m' vs' :
  inv w m0 before gone c rs m vs -> fits w before gone vs a -> step w (m, vs) a = Some (m', vs') ->
  exists c' rs', emit_act c rs a = Ok (c', rs') /\
    inv w m0 (before ++ [a]) (fun x => gone x \/ releases vs a x) c' rs' m' vs'.
Proof.
  intros (e & X & Nr & C & T & G & R) (F1 & F2) S.
  destruct a; cbn [step emit_act] in *.
  - (* Given *)
    injection S as <- <-. eexists _, _; split; [reflexivity|]. cbn [fst snd add]. rewrite Nr.
    eapply add_inv; eauto; cbn [exec_op]; rewrite ?define_ok; auto.
    + rewrite app_length; cbn; lia.
    + split; [intros u []|exact Logic.I].
    + intros v [H|H]; discriminate.
    + apply regs_value; auto.
  - (* Compute *)
    destruct (pick_all vs args) as [xs|] eqn:P; [|discriminate]. injection S as <- <-.
    destruct (regs_picks _ _ _ _ _ R P) as (q & -> & Q). cbn [bind].
    eexists _, _; split; [reflexivity|]. cbn [fst snd add]. rewrite Nr.
    eapply add_inv; eauto; cbn [exec_op]; rewrite ?Q, ?define_ok; auto.
    + rewrite app_length; cbn; lia.
    + split; [intros u []|exact Logic.I].
    + intros v [H|H]; discriminate.
    + apply regs_value; auto.
  - (* Read *)
    destruct (look m (Var v)) as [x|] eqn:L; [|discriminate]. injection S as <- <-.
    eexists _, _; split; [reflexivity|]. unfold emit_load.
    destruct (scan_eager v (ops c)) as [r|] eqn:E; cbn [fst snd].
    + destruct (eager_sound _ _ _ _ _ _ _ E X C) as (y & Y & L'). rewrite L in L'. injection L' as <-.
      eapply reuse_inv; eauto.
      * intros u [H|H]; discriminate.
      * apply regs_reuse; auto.
    + cbn [add fst snd]. rewrite Nr.
      eapply add_inv; eauto; cbn [exec_op]; rewrite ?L, ?define_ok; auto.
      * rewrite app_length; cbn; lia.
      * split; [intros u []|exact Logic.I].
      * intros u [H|H]; discriminate.
      * apply regs_value; auto.
  - (* Write *)
    destruct (nth_error vs n) as [x|] eqn:P; [|discriminate].
    destruct (store m (Some (Var v)) x) as [m1|] eqn:St; [|discriminate]. injection S as <- <-.
    destruct (regs_pick _ _ _ _ _ R P) as (r & -> & Q). cbn [bind].
    eexists _, _; split; [reflexivity|]. unfold emit_store. rewrite Nr.
    apply store_some in St; destruct St as (k & [= <-] & D & ->).
    destruct (kill_exec w m0 v _ _ _ X C) as ((m2 & X' & A) & CK & CL).
    change (OStore r v :: kill v (ops c)) with (OStore r v :: ops (Code (kill v (ops c)) (nregs c))).
    eapply add_inv with (m := m2) (e := e); cbn [ops]; eauto.
    + intros u Hu; apply has_kill; auto.
    + cbn [exec_op]. rewrite Q, store_put by (eapply look_defined; eauto).
      rewrite (agree_put_eq _ _ _ x A D). reflexivity.
    + split; [intros u []|exact Logic.I].
    + intros u [H|H]; discriminate.
  - (* Take *)
    injection S as <- <-. eexists _, _; split; [reflexivity|]. unfold emit_index.
    destruct (find_op _ _) as [r|] eqn:E; cbn [fst snd].
    + apply find_op_in in E; destruct E as (o & I & E). apply in_rev in I.
      destruct o; try discriminate. destruct (Nat.eqb_spec v0 v) as [->|]; [|discriminate].
      injection E as ->.
      eapply reuse_inv; eauto.
      * intros u [[= <-]|]; [left; eauto|discriminate].
      * apply regs_reuse; auto. eapply exec_index; eauto.
    + cbn [add fst snd]. rewrite Nr.
      eapply add_inv; eauto; cbn [exec_op]; rewrite ?define_ok; auto.
      * rewrite app_length; cbn; lia.
      * split; [intros u []|exact Logic.I].
      * intros u [[= <-]|]; [left; exists (length e); left; auto|discriminate].
      * apply regs_value; auto.
  - (* Context *)
    injection S as <- <-. eexists _, _; split; [reflexivity|]. unfold emit_context_upref.
    destruct (find_op _ _) as [r|] eqn:E; cbn [fst snd].
    + apply find_op_in in E; destruct E as (o & I & E). apply in_rev in I.
      destruct o; try discriminate. injection E as ->.
      eapply reuse_inv; eauto.
      * intros u _; right; eauto.
      * apply regs_reuse; auto. eapply exec_context; eauto.
    + cbn [add fst snd]. rewrite Nr.
      eapply add_inv; eauto; cbn [exec_op]; rewrite ?define_ok; auto.
      * rewrite app_length; cbn; lia.
      * split; [intros u []|exact Logic.I].
      * intros u _; right; exists (length e); left; auto.
      * apply regs_value; auto.
  - (* ReadAt *)
    destruct (target vs p) as [k|] eqn:P; [|discriminate].
    destruct (look m k) as [x|] eqn:L; [|discriminate]. injection S as <- <-.
    destruct (regs_target _ _ _ _ _ R P) as (q & -> & Q). cbn [bind].
    destruct (F2 _ eq_refl) as (NV & NG).
    eexists _, _; split; [reflexivity|]. unfold emit_load_indirect.
    destruct (scan_indirect q (ops c)) as [r|] eqn:E; cbn [fst snd].
    + destruct (indirect_sound _ _ _ _ _ _ _ _ E X (G _ NG) Q) as (y & Y & L').
      rewrite L in L'. injection L' as <-.
      eapply reuse_inv; eauto.
      * intros u [H|H]; discriminate.
      * apply regs_reuse; auto.
    + cbn [add fst snd]. rewrite Nr.
      eapply add_inv; eauto; cbn [exec_op]; rewrite ?Q, ?L, ?define_ok; auto.
      * rewrite app_length; cbn; lia.
      * split; [intros u []|]. intros u; rewrite Q. intros [= ->]; eapply NV; eauto.
      * intros u [H|H]; discriminate.
      * apply regs_value; auto.
  - (* WriteAt *)
    destruct (nth_error vs n) as [x|] eqn:P; [|discriminate].
    destruct (store m (target vs p) x) as [m1|] eqn:St; [|discriminate]. injection S as <- <-.
    destruct (regs_pick _ _ _ _ _ R P) as (r & -> & Q). cbn [bind].
    pose proof St as St'. apply store_some in St'; destruct St' as (k & Tk & D & ->).
    destruct (regs_target _ _ _ _ _ R Tk) as (q & -> & Q'). cbn [bind].
    eexists _, _; split; [reflexivity|]. unfold add_void.
    eapply add_inv; eauto.
    + cbn [exec_op]. rewrite Q, Q', store_put by auto. reflexivity.
    + split; [|exact Logic.I]. cbn [writes]. intros u Hu. apply T, F1. cbn [indirect]. congruence.
    + intros u [H|H]; discriminate.
  - (* Invoke *)
    destruct (pick_all vs args) as [xs|] eqn:P; [|discriminate].
    destruct (invoke w k xs m) as [m1 x] eqn:V. injection S as <- <-.
    destruct (regs_picks _ _ _ _ _ R P) as (q & -> & Q). cbn [bind].
    eexists _, _; split; [reflexivity|]. cbn [fst snd add]. rewrite Nr.
    eapply add_inv; eauto.
    + cbn [exec_op]; rewrite Q, V, define_ok; reflexivity.
    + rewrite app_length; cbn; lia.
    + split; [|exact Logic.I]. cbn [writes]. intros u (ys & Hy & Tu). apply T, F1.
      exists xs; split; [exact P|]. congruence.
    + intros u [H|H]; discriminate.
    + apply regs_value; auto.
  - (* FileRead *)
    destruct (store m (target vs p) (file w k 0)) as [m1|] eqn:St; [|discriminate]. injection S as <- <-.
    apply store_some in St; destruct St as (j & Tk & D & ->).
    destruct (regs_target _ _ _ _ _ R Tk) as (q & -> & Q'). cbn [bind].
    eexists _, _; split; [reflexivity|]. unfold add_void.
    eapply add_inv; eauto.
    + cbn [exec_op]. rewrite Q', store_put by auto. reflexivity.
    + split; [|exact Logic.I]. cbn [writes]. intros u Hu. apply T, F1. cbn [indirect]. congruence.
    + intros u [H|H]; discriminate.
  - (* FileOpen *)
    destruct (store m (target vs p) (file w k 0)) as [m1|] eqn:St; [|discriminate].
    apply store_some in St; destruct St as (j & Tk & D & ->).
    destruct (regs_target _ _ _ _ _ R Tk) as (q & -> & Q'). cbn [bind].
    destruct s as [s|].
    + destruct (store (put m j (file w k 0)) (target vs s) (file w k 1)) as [m2|] eqn:St; [|discriminate].
      injection S as <- <-.
      apply store_some in St; destruct St as (j2 & Tk2 & D2 & ->).
      destruct (regs_target _ _ _ _ _ R Tk2) as (q2 & -> & Q2). cbn [bind].
      eexists _, _; split; [reflexivity|]. unfold add_void.
      eapply add_inv; eauto.
      * cbn [exec_op]. rewrite Q', store_put, Q2, store_put by auto. reflexivity.
      * split; [|exact Logic.I]. cbn [writes]. intros u [Hu|(s' & [= <-] & Hu)]; apply T, F1; cbn [indirect].
        -- left; congruence.
        -- right; exists s; split; [reflexivity|congruence].
      * cbn [frees releases]. intros u [Hu|(s' & [= <-] & Hu)].
        -- left; congruence.
        -- right; exists s; split; [reflexivity|congruence].
      * intros u [H|H]; discriminate.
    + injection S as <- <-. eexists _, _; split; [reflexivity|]. unfold add_void.
      eapply add_inv; eauto.
      * cbn [exec_op]. rewrite Q', store_put by auto. reflexivity.
      * split; [|exact Logic.I]. cbn [writes]. intros u [Hu|(s' & [=] & Hu)]; apply T, F1; cbn [indirect].
        left; congruence.
      * cbn [frees releases]. intros u [Hu|(s' & [=] & Hu)].
        left; congruence.
      * intros u [H|H]; discriminate.
  - (* Free *)
    destruct (store m (target vs p) Null) as [m1|] eqn:St; [|discriminate]. injection S as <- <-.
    apply store_some in St; destruct St as (j & Tk & D & ->).
    destruct (regs_target _ _ _ _ _ R Tk) as (q & -> & Q'). cbn [bind].
    eexists _, _; split; [reflexivity|]. unfold add_void.
    eapply add_inv; eauto.
    + cbn [exec_op]. rewrite Q', store_put by auto. reflexivity.
    + split; [|exact Logic.I]. cbn [writes]. intros u Hu. apply T, F1. cbn [indirect]. congruence.
    + cbn [frees releases]. intros u Hu. congruence.
    + intros u [H|H]; discriminate.
  - (* Copy *)
    destruct (store m (target vs p) (file w k 0)) as [m1|] eqn:St; [|discriminate]. injection S as <- <-.
    apply store_some in St; destruct St as (j & Tk & D & ->).
    destruct (regs_target _ _ _ _ _ R Tk) as (q & -> & Q'). cbn [bind].
    eexists _, _; split; [reflexivity|]. unfold add_void.
    eapply add_inv; eauto.
    + cbn [exec_op]. rewrite Q', store_put by auto. reflexivity.
    + cbn [conf1 writes]. split; intros u Hu; exfalso; apply (F2 u); congruence.
    + intros u [H|H]; discriminate.
Qed.

Lemma acts_ok w m0 l : forall before gone c rs m vs m' vs',
  inv w m0 before gone c rs m vs -> all_fit w before gone (m, vs) l -> run w (m, vs) l = Some (m', vs') ->
  exists c' rs' before' gone', emit_acts c rs l = Ok (c', rs') /\ inv w m0 before' gone' c' rs' m' vs'.
Proof.
  induction l as [|a l IH]; intros before gone c rs m vs m' vs' I F R.
  - injection R as <- <-. exists c, rs, before, gone; split; [reflexivity|auto].
  - cbn [run all_fit] in *. destruct F as (F & FL).
    destruct (step w (m, vs) a) as [[m1 vs1]|] eqn:S; [|discriminate].
    destruct (act_ok _ _ _ _ _ _ _ _ _ _ _ I F S) as (c1 & rs1 & E & I1).
    destruct (IH _ _ _ _ _ _ _ _ I1 FL R) as (c2 & rs2 & b2 & g2 & E2 & I2).
    exists c2, rs2, b2, g2; split; [|exact I2]. cbn [emit_acts]. rewrite E. exact E2.
Qed.
