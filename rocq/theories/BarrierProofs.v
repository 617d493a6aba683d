(* The invariant of barriers. *)
From Coq Require Import List Arith NArith ZArith Lia Bool.
From Verif Require Import Base BarrierModel.
Import ListNotations.

Definition cnt (n : nat) (st : sys) : nat := length (filter (fun t => arrived st t =? S (gen st)) (seq 0 n)).
Definition md (k : nat) : N := N.modulo (N.of_nat k) INTS.

Definition thread_ok (st : sys) (t : nat) : Prop :=
  let a := arrived st t in let e := entered st t in let l := left st t in let g := gen st in
  match pcs st t with
  | BIdle => a = g /\ e = g /\ l = g
  | BLoad => a = g /\ e = S g /\ l = g
  | BAdd p => a = g /\ e = S g /\ l = g /\ p = md g
  | BSpin p => a = S l /\ e = S l /\ p = md l /\ (l = g \/ S l = g)
  | BReset p | BPass p => a = S g /\ e = S g /\ l = g /\ p = md g
  end.
Definition is_last (p : pc) : bool := match p with BReset _ | BPass _ => true | _ => false end.

Definition inv (n : nat) (st : sys) : Prop :=
  passed st = md (gen st) /\
  (forall t, t < n -> thread_ok st t) /\
  (((forall t, t < n -> is_last (pcs st t) = false) /\ reached st = cnt n st /\ reached st < n) \/
   (exists u, u < n /\ is_last (pcs st u) = true /\ (forall t, t < n -> arrived st t = S (gen st)) /\
      (forall t, t < n -> t <> u -> is_last (pcs st t) = false) /\
      match pcs st u with BPass _ => reached st = 0 | _ => True end)).

Lemma cnt_none n st : (forall t, t < n -> arrived st t <> S (gen st)) -> cnt n st = 0.
Proof.
  intros H. unfold cnt. replace (filter _ _) with (@nil nat); [reflexivity|]. symmetry.
  assert (G : forall l, (forall t, In t l -> arrived st t <> S (gen st)) -> filter (fun t => arrived st t =? S (gen st)) l = []).
  { induction l as [|x l IH]; intros K; [reflexivity|]. cbn [filter]. destruct (Nat.eqb_spec (arrived st x) (S (gen st))) as [E|E].
    - destruct (K x); [now left|exact E].
    - apply IH. intros t Ht. apply K. now right. }
  apply G. intros t Ht. apply in_seq in Ht. apply H. lia.
Qed.

Lemma init_inv n : 1 <= n -> inv n init.
Proof.
  intros H. split; [reflexivity|]. split; [intros t _; cbn; auto|]. left. split; [reflexivity|].
  rewrite cnt_none by (intros t _; cbn; lia). cbn. lia.
Qed.

Lemma filter_length_le {A} (f : A -> bool) l : length (filter f l) <= length l.
Proof. induction l as [|x l IH]; cbn [filter length]; [lia|]. destruct (f x); cbn [length]; lia. Qed.

Lemma filter_all {A} (f : A -> bool) l : length (filter f l) = length l -> forall x, In x l -> f x = true.
Proof.
  induction l as [|x l IH]; intros H y [].
  - subst y. cbn [filter] in H. destruct (f x) eqn:E; [reflexivity|]. pose proof (filter_length_le f l). cbn [length] in H. lia.
  - apply IH; [|assumption]. cbn [filter] in H. destruct (f x) eqn:E; cbn [length] in H; [lia|]. pose proof (filter_length_le f l). lia.
Qed.

Lemma cnt_full n st : cnt n st = n -> forall t, t < n -> arrived st t = S (gen st).
Proof.
  intros H t Ht. apply Nat.eqb_eq. apply (filter_all (fun t => arrived st t =? S (gen st)) (seq 0 n)).
  - rewrite seq_length. exact H.
  - apply in_seq. lia.
Qed.

(* One more thread arrives. *)
Lemma filter_bump f t g : f t = g -> forall l, NoDup l -> In t l ->
  length (filter (fun u => bump f t u =? S g) l) = S (length (filter (fun u => f u =? S g) l)).
Proof.
  intros E. induction l as [|x l IH]; intros N H; [destruct H|]. inversion N as [|? ? N1 N2]; subst. cbn [filter].
  destruct (Nat.eq_dec x t) as [->|Nx].
  - unfold bump at 1. rewrite upd_same, Nat.eqb_refl.
    destruct (Nat.eqb_spec (f t) (S (f t))) as [Q|_]; [lia|]. cbn [length]. f_equal.
    f_equal. apply filter_ext_in. intros y Hy. unfold bump. rewrite upd_other; [reflexivity|]. intros ->. contradiction.
  - unfold bump at 1. rewrite upd_other by exact Nx. destruct H as [H|H]; [congruence|]. specialize (IH N2 H).
    destruct (f x =? S (f t)); cbn [length]; rewrite IH; reflexivity.
Qed.

Lemma md_neq l : md l <> md (S l).
Proof. unfold md, INTS. Zify.zify. Z.to_euclidean_division_equations. lia. Qed.
Lemma md_succ g : N.modulo (md g + 1) INTS = md (S g).
Proof. unfold md. rewrite N.add_mod_idemp_l by discriminate. f_equal. lia. Qed.

(* A change of one thread that keeps its arrivals. *)
Lemma inv_pc n st t p r e l :
  inv n st -> t < n ->
  is_last (pcs st t) = false -> is_last p = false -> r = reached st ->
  (let st' := Sys r (passed st) (upd (pcs st) t p) e l (arrived st) (gen st) in
   (forall u, u <> t -> e u = entered st u /\ l u = left st u) -> thread_ok st' t -> inv n st').
Proof.
  intros (I1 & I2 & I3) Ht Hl Hp -> st' K Kt. split; [exact I1|]. split.
  - intros u Hu. destruct (Nat.eq_dec u t) as [->|Nu]; [exact Kt|]. specialize (I2 u Hu). destruct (K u Nu) as [K1 K2].
    unfold thread_ok in *. cbn [st' pcs arrived entered left gen]. rewrite upd_other by exact Nu. now rewrite K1, K2.
  - assert (L : forall u, is_last (upd (pcs st) t p u) = is_last (pcs st u)).
    { intros u. destruct (Nat.eq_dec u t) as [->|Nu]; [rewrite upd_same; congruence|now rewrite upd_other]. }
    destruct I3 as [(A & B & C)|(u & A & B & C & D & E)].
    + left. split; [intros u Hu; cbn; rewrite L; auto|]. auto.
    + right. exists u. split; [exact A|]. cbn [st' pcs arrived gen reached]. rewrite L. split; [exact B|]. split; [exact C|]. split; [intros v Hv Nv; rewrite L; auto|].
      rewrite upd_other; [exact E|]. intros ->. congruence.
Qed.

Definition thread_of (e : event) : nat := match e with Call t | Step t => t end.

Lemma event_inv n st e : inv n st -> thread_of e < n -> inv n (do_event n st e).
Proof.
  intros I0 Ht. pose proof I0 as (I1 & I2 & I3). destruct e as [t|t]; cbn [thread_of] in Ht; cbn [do_event].
  - destruct (pcs st t) eqn:Ep; try exact I0. specialize (I2 t Ht). unfold thread_ok in I2. rewrite Ep in I2.
    apply inv_pc; auto; [now rewrite Ep| |].
    + intros u Nu. unfold bump. now rewrite upd_other.
    + unfold thread_ok, bump. cbn. rewrite !upd_same. lia.
  - unfold step. pose proof (I2 t Ht) as K. unfold thread_ok in K. destruct (pcs st t) eqn:Ep.
    + exact I0.
    + apply inv_pc; auto; [now rewrite Ep|]. unfold thread_ok. cbn. rewrite !upd_same. intuition.
    + destruct K as (K1 & K2 & K3 & K4). destruct I3 as [(A & B & C)|(u & A & B & Cu & D & E)]; [|specialize (Cu t Ht); lia].
      set (st' := Sys _ _ _ _ _ _ _).
      assert (Cn : cnt n st' = S (cnt n st)).
      { unfold cnt. cbn [st' arrived gen]. apply filter_bump; [exact K1|apply seq_NoDup|apply in_seq; lia]. }
      assert (Th : forall u, u < n -> thread_ok st' u).
      { intros u Hu. destruct (Nat.eq_dec u t) as [->|Nu].
        - unfold thread_ok. cbn [st' pcs arrived entered left gen]. unfold bump. rewrite !upd_same.
          destruct (reached st =? n - 1); [|rewrite K3]; intuition lia.
        - specialize (I2 u Hu). unfold thread_ok in *. cbn [st' pcs arrived entered left gen]. unfold bump. now rewrite !upd_other. }
      split; [exact I1|]. split; [exact Th|]. destruct (Nat.eqb_spec (reached st) (n - 1)) as [El|El].
      * right. exists t. cbn [st' pcs arrived gen reached]. rewrite upd_same. split; [exact Ht|]. split; [reflexivity|].
        split; [|split; [|exact Logic.I]].
        -- intros u Hu. apply (cnt_full n st'); [lia|exact Hu].
        -- intros u Hu Nu. rewrite upd_other by exact Nu. auto.
      * left. cbn [st' pcs reached]. split; [|split; [fold st'; lia|lia]].
        intros u Hu. destruct (Nat.eq_dec u t) as [->|Nu]; [now rewrite upd_same|rewrite upd_other by exact Nu; auto].
    + destruct I3 as [(A & B & C)|(u & A & B & Cu & D & E)]; [specialize (A t Ht); rewrite Ep in A; discriminate|].
      assert (u = t) as -> by (destruct (Nat.eq_dec u t) as [e|Ne]; [exact e|]; specialize (D t Ht (not_eq_sym Ne)); rewrite Ep in D; discriminate).
      split; [exact I1|]. split.
      * intros u Hu. specialize (I2 u Hu). unfold thread_ok in *. cbn [pcs arrived entered left gen].
        destruct (Nat.eq_dec u t) as [->|Nu]; [rewrite upd_same; rewrite Ep in I2; exact I2|now rewrite upd_other].
      * right. exists t. cbn [pcs arrived gen reached]. rewrite upd_same. split; [exact Ht|]. split; [reflexivity|]. split; [exact Cu|]. split; [|reflexivity].
        intros u Hu Nu. rewrite upd_other by exact Nu. auto.
    + destruct I3 as [(A & B & C)|(u & A & B & Cu & D & E)]; [specialize (A t Ht); rewrite Ep in A; discriminate|].
      assert (u = t) as -> by (destruct (Nat.eq_dec u t) as [e|Ne]; [exact e|]; specialize (D t Ht (not_eq_sym Ne)); rewrite Ep in D; discriminate).
      destruct K as (K1 & K2 & K3 & K4). rewrite Ep in E. set (st' := Sys _ _ _ _ _ _ _). split; [|split].
      * cbn [st' passed gen]. rewrite K4. apply md_succ.
      * intros u Hu. destruct (Nat.eq_dec u t) as [->|Nu].
        -- unfold thread_ok. cbn [st' pcs arrived entered left gen]. unfold bump. rewrite !upd_same. lia.
        -- specialize (I2 u Hu). specialize (D u Hu Nu). specialize (Cu u Hu). unfold thread_ok in *. cbn [st' pcs arrived entered left gen]. unfold bump. rewrite !upd_other by exact Nu.
           destruct (pcs st u); try discriminate; intuition lia.
      * left. cbn [st' pcs reached]. fold st'. split; [|split].
        -- intros u Hu. destruct (Nat.eq_dec u t) as [->|Nu]; [now rewrite upd_same|rewrite upd_other by exact Nu; auto].
        -- rewrite E. symmetry. apply cnt_none. intros u Hu. cbn [st' arrived gen]. rewrite (Cu u Hu). lia.
        -- lia.
    + destruct (N.eqb_spec (passed st) p) as [E|E]; [exact I0|]. destruct K as (K1 & K2 & K3 & K4).
      apply inv_pc; auto; [now rewrite Ep| |].
      * intros u Nu. unfold bump. now rewrite upd_other.
      * unfold thread_ok, bump. cbn. rewrite !upd_same. destruct K4 as [K4|K4]; [exfalso; apply E; congruence|lia].
Qed.

Lemma run_inv n es : forall st, inv n st -> Forall (fun e => thread_of e < n) es -> inv n (run n st es).
Proof.
  induction es as [|e es IH]; intros st I0 F; [exact I0|]. cbn [run fold_left]. apply IH; [|exact (Forall_inv_tail F)].
  apply event_inv; [exact I0|exact (Forall_inv F)].
Qed.
