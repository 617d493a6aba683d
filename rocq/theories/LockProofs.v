From Coq Require Import List Arith Bool Lia.
From Verif Require Import Base LockModel.
Import ListNotations.

(* What a program counter implies. *)
Definition unl (p : pc) : option nat :=
  match p with UFast l | UAssert l | UMutex l | USet l => Some l | _ => None end.
Definition both (p : pc) : option nat :=
  match p with UAssert l | UMutex l | USet l => Some l | _ => None end.
Definition mtx (p : pc) : option nat :=
  match p with KCheck l | KDec l | KUnlock l | USet l | UUnlock l => Some l | _ => None end.
Definition pk (p : pc) : option nat :=
  match p with KSleep l | KWoken l | KDec l => Some l | _ => None end.
Definition sleeps (p : pc) : option nat := match p with KSleep l => Some l | _ => None end.
Definition bc (p : pc) : option nat := match p with UUnlock l | UBcast l => Some l | _ => None end.
Definition try_ok (p : pc) : Prop := match p with LTry _ s => is_locked s = false | _ => True end.

Definition owns (st : sys) (t l : nat) : Prop := In l (held st t) \/ unl (pcs st t) = Some l.

Section Inv.
Variable bay_of : nat -> nat.

Definition inv (st : sys) : Prop :=
  (forall l, is_locked (lock st l) = true -> exists t, owns st t l) /\
  (forall t l, owns st t l -> is_locked (lock st l) = true) /\
  (forall t u l, owns st t l -> owns st u l -> t = u) /\
  (forall t l, unl (pcs st t) = Some l -> ~ In l (held st t)) /\
  (forall t l, both (pcs st t) = Some l -> lock st l = BOTH) /\
  (forall t l, mtx (pcs st t) = Some l -> mutex (bays st (bay_of l)) = Some t) /\
  (forall b t, mutex (bays st b) = Some t -> exists l, mtx (pcs st t) = Some l /\ bay_of l = b) /\
  (forall b, exists P, NoDup P /\ length P = parked (bays st b) /\
     forall t, In t P <-> exists l, pk (pcs st t) = Some l /\ bay_of l = b) /\
  (forall t l, sleeps (pcs st t) = Some l -> lock st l = BOTH \/
     exists u l', bc (pcs st u) = Some l' /\ bay_of l' = bay_of l) /\
  (forall t, try_ok (pcs st t)).

Lemma init_inv : inv init.
Proof.
  unfold inv, owns, init. cbn.
  split; [discriminate|]. split; [intros t l [[]|H]; discriminate|]. split; [intros t u l [[]|H]; discriminate|].
  split; [discriminate|]. split; [discriminate|]. split; [discriminate|]. split; [discriminate|].
  split; [|split; [discriminate|auto]].
  intros b. exists []. split; [constructor|]. split; [reflexivity|]. intros t. split; [intros []|intros (l & H & _); discriminate].
Qed.

Lemma bits_eqb_spec a b : reflect (a = b) (bits_eqb a b).
Proof. destruct a as [[] []], b as [[] []]; constructor; congruence. Qed.

Lemma upd_case {V} (f : nat -> V) i v j : (j = i /\ upd f i v j = v) \/ (j <> i /\ upd f i v j = f j).
Proof. unfold upd. destruct (Nat.eqb_spec j i); auto. Qed.

(* Only the program counter of [t] changes, and nothing it implies. *)
Lemma inv_pc st t p p' : inv st -> pcs st t = p -> unl p' = unl p -> mtx p' = mtx p -> pk p' = pk p ->
  (sleeps p' = None) -> bc p' = bc p -> try_ok p' ->
  (forall l, both p' = Some l -> lock st l = BOTH) -> inv (set_pc st t p').
Proof.
  intros (I1 & I2 & I3 & I4 & I5 & I6 & I7 & I8 & I9 & I10) Ep Eu Em Ek Es Eb Et Ebo.
  assert (Eq : forall {A} (f : pc -> A), f p' = f p -> forall u, f (upd (pcs st) t p' u) = f (pcs st u)).
  { intros A f E u. destruct (upd_case (pcs st) t p' u) as [[-> ->]|[_ ->]]; congruence. }
  assert (Ow : forall u l, owns (set_pc st t p') u l <-> owns st u l).
  { intros u l. unfold owns. cbn [set_pc pcs held]. rewrite (Eq _ unl) by exact Eu. tauto. }
  unfold inv. cbn [set_pc lock bays pcs held].
  split; [intros l H; destruct (I1 l H) as [u Hu]; exists u; now apply Ow|].
  split; [intros u l H; apply Ow in H; eauto|].
  split; [intros u v l H H'; apply Ow in H, H'; eauto|].
  split; [intros u l H; rewrite (Eq _ unl) in H by exact Eu; eauto|].
  split. { intros u l H. destruct (upd_case (pcs st) t p' u) as [[-> E]|[_ E]]; rewrite E in H; eauto. }
  split; [intros u l H; rewrite (Eq _ mtx) in H by exact Em; eauto|].
  split; [intros b u H; rewrite (Eq _ mtx) by exact Em; eauto|].
  split. { intros b. destruct (I8 b) as (P & N & L & F). exists P. split; [exact N|]. split; [exact L|].
    intros u. rewrite (Eq _ pk) by exact Ek. apply F. }
  split. { intros u l H. destruct (upd_case (pcs st) t p' u) as [[-> E]|[_ E]]; rewrite E in H; [congruence|].
    destruct (I9 u l H) as [L|(v & l' & Hb & Hl)]; [now left|]. right. exists v, l'. rewrite (Eq _ bc) by exact Eb. auto. }
  intros u. destruct (upd_case (pcs st) t p' u) as [[-> ->]|[_ ->]]; auto.
Qed.

Ltac at_thread u t := destruct (upd_case (pcs _) t _ u) as [[-> ?E]|[? ?E]].

(* Mutex of the bay taken. *)
Lemma inv_take st t p p' l : inv st -> pcs st t = p -> mutex (bays st (bay_of l)) = None ->
  unl p' = unl p -> mtx p = None -> mtx p' = Some l -> pk p' = pk p -> sleeps p' = None -> bc p' = bc p ->
  both p' = both p -> try_ok p' ->
  inv (set_pc (set_bay st (bay_of l) (Bay (Some t) (parked (bays st (bay_of l))))) t p').
Proof.
  intros (I1 & I2 & I3 & I4 & I5 & I6 & I7 & I8 & I9 & I10) Ep Hm Eu Em Em' Ek Es Eb Ebo Et.
  assert (Eq : forall {A} (f : pc -> A), f p' = f p -> forall u, f (upd (pcs st) t p' u) = f (pcs st u)).
  { intros A f E u. destruct (upd_case (pcs st) t p' u) as [[-> ->]|[_ ->]]; congruence. }
  assert (Ow : forall u k, owns (set_pc (set_bay st (bay_of l) (Bay (Some t) (parked (bays st (bay_of l))))) t p') u k <-> owns st u k).
  { intros u k. unfold owns. cbn [set_pc set_bay pcs held]. rewrite (Eq _ unl) by exact Eu. tauto. }
  unfold inv. cbn [set_pc set_bay lock bays pcs held].
  split; [intros k H; destruct (I1 k H) as [u Hu]; exists u; now apply Ow|].
  split; [intros u k H; apply Ow in H; eauto|].
  split; [intros u v k H H'; apply Ow in H, H'; eauto|].
  split; [intros u k H; rewrite (Eq _ unl) in H by exact Eu; eauto|].
  split; [intros u k H; rewrite (Eq _ both) in H by exact Ebo; eauto|].
  split. { intros u k H. destruct (upd_case (pcs st) t p' u) as [[-> E]|[Ne E]]; rewrite E in H.
    - rewrite Em' in H. injection H as <-. now rewrite upd_same.
    - specialize (I6 _ _ H). destruct (Nat.eq_dec (bay_of k) (bay_of l)) as [El|Nl]; [congruence|]. now rewrite upd_other. }
  split. { intros b u H. destruct (upd_case (bays st) (bay_of l) (Bay (Some t) (parked (bays st (bay_of l)))) b) as [[-> E]|[Ne E]]; rewrite E in H.
    - cbn [mutex] in H. injection H as <-. rewrite upd_same. eauto.
    - destruct (I7 _ _ H) as (k & Hk & Ek'). destruct (Nat.eq_dec u t) as [->|Nu]; [congruence|]. rewrite upd_other by exact Nu. eauto. }
  split. { intros b. destruct (I8 b) as (P & N & L & F). exists P. split; [exact N|]. split.
    - destruct (upd_case (bays st) (bay_of l) (Bay (Some t) (parked (bays st (bay_of l)))) b) as [[-> ->]|[Ne ->]]; exact L.
    - intros u. rewrite (Eq _ pk) by exact Ek. apply F. }
  split. { intros u k H. destruct (upd_case (pcs st) t p' u) as [[-> E]|[_ E]]; rewrite E in H; [congruence|].
    destruct (I9 u k H) as [L|(v & l' & Hb & Hl)]; [now left|]. right. exists v, l'. rewrite (Eq _ bc) by exact Eb. auto. }
  intros u. destruct (upd_case (pcs st) t p' u) as [[-> ->]|[_ ->]]; auto.
Qed.

(* Mutex of the bay released, with a new count of parked threads. *)
Lemma inv_release st t p p' l n : inv st -> pcs st t = p ->
  unl p' = unl p -> mtx p = Some l -> mtx p' = None -> bc p' = bc p -> both p' = None -> try_ok p' ->
  (pk p' = pk p /\ n = parked (bays st (bay_of l)) \/ pk p = None /\ pk p' = Some l /\ n = S (parked (bays st (bay_of l)))) ->
  (forall k, sleeps p' = Some k -> lock st k = BOTH) ->
  inv (set_pc (set_bay st (bay_of l) (Bay None n)) t p').
Proof.
  intros (I1 & I2 & I3 & I4 & I5 & I6 & I7 & I8 & I9 & I10) Ep Eu Em Em' Eb Ebo Et Ek Es.
  assert (Eq : forall {A} (f : pc -> A), f p' = f p -> forall u, f (upd (pcs st) t p' u) = f (pcs st u)).
  { intros A f E u. destruct (upd_case (pcs st) t p' u) as [[-> ->]|[_ ->]]; congruence. }
  assert (Ow : forall u k, owns (set_pc (set_bay st (bay_of l) (Bay None n)) t p') u k <-> owns st u k).
  { intros u k. unfold owns. cbn [set_pc set_bay pcs held]. rewrite (Eq _ unl) by exact Eu. tauto. }
  assert (Hm : mutex (bays st (bay_of l)) = Some t) by (apply I6; congruence).
  unfold inv. cbn [set_pc set_bay lock bays pcs held].
  split; [intros k H; destruct (I1 k H) as [u Hu]; exists u; now apply Ow|].
  split; [intros u k H; apply Ow in H; eauto|].
  split; [intros u v k H H'; apply Ow in H, H'; eauto|].
  split; [intros u k H; rewrite (Eq _ unl) in H by exact Eu; eauto|].
  split. { intros u k H. destruct (upd_case (pcs st) t p' u) as [[-> E]|[Ne E]]; rewrite E in H; [congruence|eauto]. }
  split. { intros u k H. destruct (upd_case (pcs st) t p' u) as [[-> E]|[Ne E]]; rewrite E in H; [congruence|].
    specialize (I6 _ _ H). destruct (Nat.eq_dec (bay_of k) (bay_of l)) as [El|Nl]; [congruence|]. now rewrite upd_other. }
  split. { intros b u H. destruct (upd_case (bays st) (bay_of l) (Bay None n) b) as [[-> E]|[Ne E]]; rewrite E in H; [discriminate|].
    destruct (I7 _ _ H) as (k & Hk & Ek'). destruct (Nat.eq_dec u t) as [->|Nu]; [congruence|]. rewrite upd_other by exact Nu. eauto. }
  split. { intros b. destruct (I8 b) as (P & N & L & F). destruct Ek as [[Ek En]|(Ek & Ek' & En)].
    - exists P. split; [exact N|]. split.
      + destruct (upd_case (bays st) (bay_of l) (Bay None n) b) as [[-> ->]|[Ne ->]]; cbn [parked]; congruence.
      + intros u. rewrite (Eq _ pk) by exact Ek. apply F.
    - destruct (Nat.eq_dec b (bay_of l)) as [->|Nb].
      + exists (t :: P). split; [constructor; [|exact N]; rewrite F; intros (k & Hk & _); congruence|].
        split; [rewrite upd_same; cbn [parked length]; congruence|].
        intros u. cbn [In]. destruct (upd_case (pcs st) t p' u) as [[-> ->]|[Ne ->]].
        * split; [intros _; eauto|now left].
        * rewrite F. split; [intros [E|H]; [congruence|exact H]|now right].
      + exists P. split; [exact N|]. split; [now rewrite upd_other|].
        intros u. rewrite F. destruct (upd_case (pcs st) t p' u) as [[-> E]|[Ne E]]; rewrite E; [|tauto].
        split; [intros (k & Hk & _); congruence|]. intros (k & Hk & Ebk). congruence. }
  split. { intros u k H. destruct (upd_case (pcs st) t p' u) as [[-> E]|[_ E]]; rewrite E in H; [left; auto|].
    destruct (I9 u k H) as [L|(v & l' & Hb & Hl)]; [now left|]. right. exists v, l'. rewrite (Eq _ bc) by exact Eb. auto. }
  intros u. destruct (upd_case (pcs st) t p' u) as [[-> ->]|[_ ->]]; auto.
Qed.

Lemma inv_dec st t l n : inv st -> pcs st t = KDec l -> parked (bays st (bay_of l)) = S n ->
  inv (set_pc (set_bay st (bay_of l) (Bay (mutex (bays st (bay_of l))) n)) t (KUnlock l)).
Proof.
  intros (I1 & I2 & I3 & I4 & I5 & I6 & I7 & I8 & I9 & I10) Ep En.
  set (p' := KUnlock l).
  assert (Eq : forall {A} (f : pc -> A), f p' = f (KDec l) -> forall u, f (upd (pcs st) t p' u) = f (pcs st u)).
  { intros A f E u. destruct (upd_case (pcs st) t p' u) as [[-> ->]|[_ ->]]; congruence. }
  unfold inv, owns. cbn [set_pc set_bay lock bays pcs held].
  assert (Mx : forall b, mutex (upd (bays st) (bay_of l) (Bay (mutex (bays st (bay_of l))) n) b) = mutex (bays st b)).
  { intros b. destruct (upd_case (bays st) (bay_of l) (Bay (mutex (bays st (bay_of l))) n) b) as [[-> ->]|[_ ->]]; reflexivity. }
  split; [intros k H; destruct (I1 k H) as [u Hu]; exists u; now rewrite (Eq _ unl)|].
  split; [intros u k H; rewrite (Eq _ unl) in H by reflexivity; eauto|].
  split; [intros u v k H H'; rewrite (Eq _ unl) in H, H' by reflexivity; eauto|].
  split; [intros u k H; rewrite (Eq _ unl) in H by reflexivity; eauto|].
  split; [intros u k H; rewrite (Eq _ both) in H by reflexivity; eauto|].
  split; [intros u k H; rewrite (Eq _ mtx) in H by reflexivity; rewrite Mx; eauto|].
  split; [intros b u H; rewrite Mx in H; rewrite (Eq _ mtx) by reflexivity; eauto|].
  split. { intros b. destruct (I8 b) as (P & N & L & F). destruct (Nat.eq_dec b (bay_of l)) as [->|Nb].
    - assert (In t P) by (apply F; exists l; rewrite Ep; auto).
      exists (remove Nat.eq_dec t P). rewrite upd_same. cbn [parked].
      destruct (in_split _ _ H) as (P1 & P2 & EP).
      assert (R : remove Nat.eq_dec t P = P1 ++ P2).
      { subst P. apply NoDup_remove in N. destruct N as [_ N]. rewrite remove_app. cbn [remove].
        destruct (Nat.eq_dec t t); [|congruence]. rewrite !notin_remove; [reflexivity| |]; intros K; apply N, in_or_app; auto. }
      rewrite R. split; [subst P; now apply NoDup_remove in N|]. split.
      + subst P. rewrite app_length in L |- *. cbn [length] in L. lia.
      + intros u. rewrite <- R. destruct (upd_case (pcs st) t p' u) as [[-> E]|[Ne E]]; rewrite E.
        * split; [intros K; apply remove_In in K; contradiction|intros (k & K & _); discriminate].
        * rewrite <- F. split; [intros K; now apply in_remove in K|intros K; now apply in_in_remove].
    - exists P. split; [exact N|]. split; [now rewrite upd_other|]. intros u. rewrite F.
      destruct (upd_case (pcs st) t p' u) as [[-> E]|[Ne E]]; rewrite E; [|tauto]. rewrite Ep.
      split; [intros (k & [= <-] & K); congruence|intros (k & K & _); discriminate]. }
  split. { intros u k H. rewrite (Eq _ sleeps) in H by reflexivity.
    destruct (I9 u k H) as [L|(v & l' & Hb & Hl)]; [now left|]. right. exists v, l'. rewrite (Eq _ bc) by reflexivity. auto. }
  intros u. destruct (upd_case (pcs st) t p' u) as [[-> ->]|[_ ->]]; [exact Logic.I|auto].
Qed.

(* The lock goes from free to owned by [t]. *)
Lemma inv_acquire st t p l h : inv st -> pcs st t = p -> is_locked (lock st l) = false ->
  unl p = None -> mtx p = None -> pk p = None -> bc p = None ->
  inv (acquired (set_lock st l (Bits true h)) t l).
Proof.
  intros (I1 & I2 & I3 & I4 & I5 & I6 & I7 & I8 & I9 & I10) Ep Hf Eu Em Ek Eb.
  assert (Eq : forall {A} (f : pc -> A), f Idle = f p -> forall u, f (upd (pcs st) t Idle u) = f (pcs st u)).
  { intros A f E u. destruct (upd_case (pcs st) t Idle u) as [[-> ->]|[_ ->]]; congruence. }
  assert (No : forall u, ~ owns st u l) by (intros u H; apply I2 in H; congruence).
  assert (Ow : forall u k, owns (acquired (set_lock st l (Bits true h)) t l) u k <-> owns st u k \/ (u = t /\ k = l)).
  { intros u k. unfold owns, acquired. cbn [set_pc set_held set_lock pcs held]. rewrite (Eq _ unl) by now rewrite Eu.
    destruct (upd_case (held st) t (l :: held st t) u) as [[-> ->]|[Ne ->]]; cbn [In]; intuition (subst; auto; congruence). }
  unfold inv. cbn [acquired set_pc set_held set_lock lock bays pcs held].
  split. { intros k H. destruct (upd_case (lock st) l (Bits true h) k) as [[-> E]|[Ne E]]; rewrite E in H.
    - exists t. apply Ow. auto.
    - destruct (I1 k H) as [u Hu]. exists u. apply Ow. auto. }
  split. { intros u k H. apply Ow in H. destruct (upd_case (lock st) l (Bits true h) k) as [[-> ->]|[Ne ->]]; [reflexivity|].
    destruct H as [H|[-> ->]]; [eauto|congruence]. }
  split. { intros u v k H H'. apply Ow in H, H'. destruct H as [H|[-> ->]], H' as [H'|[-> H']]; subst; eauto; exfalso; eapply No; eassumption. }
  split. { intros u k H. rewrite (Eq _ unl) in H by now rewrite Eu.
    destruct (upd_case (held st) t (l :: held st t) u) as [[-> ->]|[Ne ->]]; [congruence|eauto]. }
  split. { intros u k H. assert (both (pcs st u) = Some k) as Hb.
    { destruct (upd_case (pcs st) t Idle u) as [[-> E]|[_ E]]; rewrite E in H; [discriminate|exact H]. }
    rewrite upd_other; [eauto|]. intros ->. apply (No u). right. destruct (pcs st u); try discriminate; exact Hb. }
  split; [intros u k H; rewrite (Eq _ mtx) in H by (now rewrite Em); eauto|].
  split; [intros b u H; rewrite (Eq _ mtx) by (now rewrite Em); eauto|].
  split. { intros b. destruct (I8 b) as (P & N & L & F). exists P. split; [exact N|]. split; [exact L|].
    intros u. rewrite (Eq _ pk) by (now rewrite Ek). apply F. }
  split. { intros u k H. assert (sleeps (pcs st u) = Some k) as Hs.
    { destruct (upd_case (pcs st) t Idle u) as [[-> E]|[_ E]]; rewrite E in H; [discriminate|exact H]. }
    destruct (I9 u k Hs) as [L|(v & l' & Hb & Hl)].
    - left. rewrite upd_other; [exact L|]. intros ->. rewrite L in Hf. discriminate.
    - right. exists v, l'. rewrite (Eq _ bc) by (now rewrite Eb). auto. }
  intros u. destruct (upd_case (pcs st) t Idle u) as [[-> ->]|[_ ->]]; [exact Logic.I|auto].
Qed.

Lemma inv_mark st t l : inv st -> pcs st t = LMark l -> lock st l = LOCKED ->
  inv (set_pc (set_lock st l BOTH) t (KMutex l)).
Proof.
  intros (I1 & I2 & I3 & I4 & I5 & I6 & I7 & I8 & I9 & I10) Ep Hl.
  set (p' := KMutex l).
  assert (Eq : forall {A} (f : pc -> A), f p' = f (LMark l) -> forall u, f (upd (pcs st) t p' u) = f (pcs st u)).
  { intros A f E u. destruct (upd_case (pcs st) t p' u) as [[-> ->]|[_ ->]]; congruence. }
  assert (Lk : forall k, is_locked (upd (lock st) l BOTH k) = is_locked (lock st k)).
  { intros k. destruct (upd_case (lock st) l BOTH k) as [[-> ->]|[_ ->]]; [now rewrite Hl|reflexivity]. }
  assert (Bo : forall k, lock st k = BOTH -> upd (lock st) l BOTH k = BOTH).
  { intros k H. destruct (upd_case (lock st) l BOTH k) as [[-> ->]|[_ ->]]; auto. }
  unfold inv, owns. cbn [set_pc set_lock lock bays pcs held].
  split; [intros k H; rewrite Lk in H; destruct (I1 k H) as [u Hu]; exists u; now rewrite (Eq _ unl)|].
  split; [intros u k H; rewrite (Eq _ unl) in H by reflexivity; rewrite Lk; eauto|].
  split; [intros u v k H H'; rewrite (Eq _ unl) in H, H' by reflexivity; eauto|].
  split; [intros u k H; rewrite (Eq _ unl) in H by reflexivity; eauto|].
  split; [intros u k H; rewrite (Eq _ both) in H by reflexivity; eauto|].
  split; [intros u k H; rewrite (Eq _ mtx) in H by reflexivity; eauto|].
  split; [intros b u H; rewrite (Eq _ mtx) by reflexivity; eauto|].
  split. { intros b. destruct (I8 b) as (P & N & L & F). exists P. split; [exact N|]. split; [exact L|].
    intros u. rewrite (Eq _ pk) by reflexivity. apply F. }
  split. { intros u k H. rewrite (Eq _ sleeps) in H by reflexivity.
    destruct (I9 u k H) as [L|(v & l' & Hb & Hl')]; [left; auto|]. right. exists v, l'. rewrite (Eq _ bc) by reflexivity. auto. }
  intros u. destruct (upd_case (pcs st) t p' u) as [[-> ->]|[_ ->]]; [exact Logic.I|auto].
Qed.

(* The lock is released by its owner [t]. *)
Lemma inv_free st t p p' l b : inv st -> pcs st t = p -> unl p = Some l -> unl p' = None -> mtx p' = mtx p ->
  pk p' = pk p -> sleeps p' = None -> try_ok p' -> both p' = None -> is_locked b = false -> bc p = None ->
  (lock st l = BOTH -> bc p' = Some l) -> (lock st l <> BOTH -> bc p' = None) ->
  inv (set_pc (set_lock st l b) t p').
Proof.
  intros (I1 & I2 & I3 & I4 & I5 & I6 & I7 & I8 & I9 & I10) Ep Eu Eu' Em Ek Es Et Ebo Hb Ebc B1 B2.
  assert (Eq : forall {A} (f : pc -> A), f p' = f p -> forall u, f (upd (pcs st) t p' u) = f (pcs st u)).
  { intros A f E u. destruct (upd_case (pcs st) t p' u) as [[-> ->]|[_ ->]]; congruence. }
  assert (Ot : owns st t l) by (right; congruence).
  assert (Ow : forall u k, owns (set_pc (set_lock st l b) t p') u k <-> owns st u k /\ k <> l).
  { intros u k. unfold owns. cbn [set_pc set_lock pcs held]. split.
    - intros H. assert (K : owns st u k).
      { unfold owns. destruct (upd_case (pcs st) t p' u) as [[-> E]|[_ E]]; rewrite E in H; [|exact H].
        destruct H as [H|H]; [now left|congruence]. }
      split; [exact K|]. intros ->. assert (u = t) by (eapply I3; eassumption). subst u. rewrite upd_same in H.
      destruct H as [H|H]; [|congruence]. apply (I4 t l); [congruence|exact H].
    - intros [[H|H] Nk]; [now left|]. right. destruct (upd_case (pcs st) t p' u) as [[-> E]|[_ E]]; rewrite E; congruence. }
  unfold inv. cbn [set_pc set_lock lock bays pcs held].
  split. { intros k H. destruct (upd_case (lock st) l b k) as [[-> E]|[Ne E]]; rewrite E in H; [congruence|].
    destruct (I1 k H) as [u Hu]. exists u. now apply Ow. }
  split. { intros u k H. apply Ow in H. destruct H as [H Nk]. rewrite upd_other by exact Nk. eauto. }
  split. { intros u v k H H'. apply Ow in H, H'. destruct H, H'. eauto. }
  split. { intros u k H. destruct (upd_case (pcs st) t p' u) as [[-> E]|[_ E]]; rewrite E in H; [congruence|eauto]. }
  split. { intros u k H. destruct (upd_case (pcs st) t p' u) as [[-> E]|[Nu E]]; rewrite E in H; [congruence|].
    rewrite upd_other; [eauto|]. intros ->. apply Nu. eapply I3; [|exact Ot]. right. destruct (pcs st u); try discriminate; exact H. }
  split; [intros u k H; rewrite (Eq _ mtx) in H by exact Em; eauto|].
  split; [intros c u H; rewrite (Eq _ mtx) by exact Em; eauto|].
  split. { intros c. destruct (I8 c) as (P & N & L & F). exists P. split; [exact N|]. split; [exact L|].
    intros u. rewrite (Eq _ pk) by exact Ek. apply F. }
  split. { intros u k H. destruct (upd_case (pcs st) t p' u) as [[-> E]|[Nu E]]; rewrite E in H; [congruence|].
    destruct (I9 u k H) as [L|(v & l' & Hv & Hl)].
    - destruct (Nat.eq_dec k l) as [->|Nk].
      + right. exists t, l. rewrite upd_same. auto.
      + left. now rewrite upd_other.
    - right. exists v, l'. split; [|exact Hl]. rewrite upd_other; [exact Hv|]. intros ->. congruence. }
  intros u. destruct (upd_case (pcs st) t p' u) as [[-> ->]|[_ ->]]; auto.
Qed.

Lemma inv_call_unlock st t l : inv st -> pcs st t = Idle -> In l (held st t) ->
  inv (set_pc (set_held st t (remove1 l (held st t))) t (UFast l)).
Proof.
  intros (I1 & I2 & I3 & I4 & I5 & I6 & I7 & I8 & I9 & I10) Ep Hh.
  set (p' := UFast l).
  assert (Eq : forall {A} (f : pc -> A), f p' = f Idle -> forall u, f (upd (pcs st) t p' u) = f (pcs st u)).
  { intros A f E u. destruct (upd_case (pcs st) t p' u) as [[-> ->]|[_ ->]]; congruence. }
  assert (Ow : forall u k, owns (set_pc (set_held st t (remove1 l (held st t))) t p') u k <-> owns st u k).
  { intros u k. unfold owns. cbn [set_pc set_held pcs held].
    destruct (Nat.eq_dec u t) as [->|Nu]; [|now rewrite !upd_other].
    rewrite !upd_same, Ep. unfold remove1. cbn [unl p']. destruct (Nat.eq_dec k l) as [->|Nk].
    - split; auto.
    - split; intros [H|H]; try (injection H as <-; congruence); try discriminate.
      + left. now apply in_remove in H.
      + left. now apply in_in_remove. }
  unfold inv. cbn [set_pc set_held lock bays pcs held].
  split; [intros k H; destruct (I1 k H) as [u Hu]; exists u; now apply Ow|].
  split; [intros u k H; apply Ow in H; eauto|].
  split; [intros u v k H H'; apply Ow in H, H'; eauto|].
  split. { intros u k H. destruct (Nat.eq_dec u t) as [->|Nu].
    - rewrite upd_same in H. cbn [unl p'] in H. injection H as <-. rewrite upd_same. unfold remove1. apply remove_In.
    - rewrite (upd_other (pcs st)) in H by exact Nu. rewrite upd_other by exact Nu. eauto. }
  split; [intros u k H; rewrite (Eq _ both) in H by reflexivity; eauto|].
  split; [intros u k H; rewrite (Eq _ mtx) in H by reflexivity; eauto|].
  split; [intros b u H; rewrite (Eq _ mtx) by reflexivity; eauto|].
  split. { intros b. destruct (I8 b) as (P & N & L & F). exists P. split; [exact N|]. split; [exact L|].
    intros u. rewrite (Eq _ pk) by reflexivity. apply F. }
  split. { intros u k H. rewrite (Eq _ sleeps) in H by reflexivity.
    destruct (I9 u k H) as [L|(v & l' & Hb & Hl')]; [left; auto|]. right. exists v, l'. rewrite (Eq _ bc) by reflexivity. auto. }
  intros u. destruct (upd_case (pcs st) t p' u) as [[-> ->]|[_ ->]]; [exact Logic.I|auto].
Qed.

Lemma inv_bcast st t l : inv st -> pcs st t = UBcast l ->
  inv (set_pc (Sys (lock st) (bays st)
         (fun u => match pcs st u with
                   | KSleep l' => if bay_of l' =? bay_of l then KWoken l' else KSleep l'
                   | p => p
                   end) (held st)) t Idle).
Proof.
  intros (I1 & I2 & I3 & I4 & I5 & I6 & I7 & I8 & I9 & I10) Ep.
  set (f := fun u => match pcs st u with KSleep l' => if bay_of l' =? bay_of l then KWoken l' else KSleep l' | p => p end).
  assert (Eq : forall {A} (g : pc -> A), g Idle = g (UBcast l) -> (forall k, g (KWoken k) = g (KSleep k)) ->
    forall u, g (upd f t Idle u) = g (pcs st u)).
  { intros A g E W u. destruct (upd_case f t Idle u) as [[-> ->]|[_ ->]]; [congruence|].
    unfold f. destruct (pcs st u); try reflexivity. destruct (_ =? _); auto. }
  unfold inv, owns. cbn [set_pc lock bays pcs held].
  split; [intros k H; destruct (I1 k H) as [u Hu]; exists u; now rewrite (Eq _ unl)|].
  split; [intros u k H; rewrite (Eq _ unl) in H by reflexivity; eauto|].
  split; [intros u v k H H'; rewrite (Eq _ unl) in H by reflexivity; rewrite (Eq _ unl) in H' by reflexivity; eauto|].
  split; [intros u k H; rewrite (Eq _ unl) in H by reflexivity; eauto|].
  split; [intros u k H; rewrite (Eq _ both) in H by reflexivity; eauto|].
  split; [intros u k H; rewrite (Eq _ mtx) in H by reflexivity; eauto|].
  split; [intros b u H; rewrite (Eq _ mtx) by reflexivity; eauto|].
  split. { intros b. destruct (I8 b) as (P & N & L & F). exists P. split; [exact N|]. split; [exact L|].
    intros u. rewrite (Eq _ pk) by reflexivity. apply F. }
  split. { intros u k H. destruct (upd_case f t Idle u) as [[-> E]|[_ E]]; rewrite E in H; [discriminate|].
    unfold f in H. destruct (pcs st u) eqn:Eu; try discriminate. destruct (Nat.eqb_spec (bay_of l0) (bay_of l)) as [?|Nb]; [discriminate|].
    injection H as <-. destruct (I9 u l0) as [L|(v & l' & Hb & Hl')]; [now rewrite Eu|left; auto|]. right. exists v, l'.
    split; [|exact Hl']. assert (v <> t) by (intros ->; rewrite Ep in Hb; injection Hb as <-; congruence).
    rewrite upd_other by assumption. unfold f. destruct (pcs st v); try discriminate; exact Hb. }
  intros u. destruct (upd_case f t Idle u) as [[-> ->]|[_ ->]]; [exact Logic.I|].
  unfold f. specialize (I10 u). destruct (pcs st u); try exact I10. destruct (_ =? _); exact Logic.I.
Qed.

Variable LOCK_SPINS : nat.

Lemma step_inv st t : inv st -> exists st', step bay_of LOCK_SPINS st t = Ok st' /\ inv st'.
Proof.
  intros I0. pose proof I0 as (I1 & I2 & I3 & I4 & I5 & I6 & I7 & I8 & I9 & I10).
  unfold step. destruct (pcs st t) eqn:Ep.
  - eauto.
  - destruct (bits_eqb_spec (lock st l) ZERO) as [E|N].
    + eexists. split; [reflexivity|]. apply (inv_acquire st t (LFast l) l false); auto. now rewrite E.
    + eexists. split; [reflexivity|]. eapply inv_pc; try eassumption; try reflexivity; cbn; auto; discriminate.
  - destruct (is_locked s) eqn:Es; [destruct (k <? LOCK_SPINS)|];
      (eexists; split; [reflexivity|]; eapply inv_pc; try eassumption; try reflexivity; cbn; auto; discriminate).
  - destruct (bits_eqb_spec (lock st l) LOCKED) as [E|N].
    + eexists. split; [reflexivity|]. now apply inv_mark.
    + eexists. split; [reflexivity|]. eapply inv_pc; try eassumption; try reflexivity; cbn; auto; discriminate.
  - specialize (I10 t). rewrite Ep in I10. cbn [try_ok] in I10. rewrite I10.
    destruct (bits_eqb_spec (lock st l) s) as [E|N].
    + eexists. split; [reflexivity|]. apply (inv_acquire st t (LTry l s) l); auto. now rewrite E.
    + eexists. split; [reflexivity|]. eapply inv_pc; try eassumption; try reflexivity; cbn; auto; discriminate.
  - cbv zeta. destruct (is_locked (lock st l)) eqn:Es;
      (eexists; split; [reflexivity|]; eapply inv_pc; try eassumption; try reflexivity; cbn; auto; discriminate).
  - cbv zeta. destruct (mutex (bays st (bay_of l))) eqn:Em; [eauto|]. eexists. split; [reflexivity|].
    eapply inv_take; try eassumption; reflexivity.
  - cbv zeta. destruct (bits_eqb_spec (lock st l) BOTH) as [E|N].
    + eexists. split; [reflexivity|]. eapply inv_release; try eassumption; try reflexivity.
      * right. auto.
      * intros k [= <-]. exact E.
    + eexists. split; [reflexivity|]. eapply inv_pc; try eassumption; try reflexivity; cbn; auto; discriminate.
  - cbv zeta. eexists. split; [reflexivity|]. eapply inv_release; try eassumption; try reflexivity; [left; auto|discriminate].
  - eauto.
  - cbv zeta. destruct (mutex (bays st (bay_of l))) eqn:Em; [eauto|]. eexists. split; [reflexivity|].
    eapply inv_take; try eassumption; reflexivity.
  - cbv zeta. destruct (parked (bays st (bay_of l))) as [|n] eqn:En.
    + exfalso. destruct (I8 (bay_of l)) as (P & N & L & F). assert (H : In t P) by (apply F; exists l; rewrite Ep; auto).
      rewrite En in L. destruct P; [destruct H|discriminate].
    + eexists. split; [reflexivity|]. now apply inv_dec.
  - destruct (bits_eqb_spec (lock st l) LOCKED) as [E|N].
    + eexists. split; [reflexivity|]. eapply inv_free; try eassumption; try reflexivity. intros H. rewrite E in H. discriminate.
    + eexists. split; [reflexivity|]. eapply inv_pc; try eassumption; try reflexivity; cbn; auto. intros k [= <-].
      assert (is_locked (lock st l) = true) as Lk by (apply (I2 t); right; now rewrite Ep).
      destruct (lock st l) as [[] []]; try discriminate; [reflexivity|]. exfalso. now apply N.
  - assert (lock st l = BOTH) as E by (apply (I5 t); now rewrite Ep). rewrite E. cbn [bits_eqb].
    eexists. split; [reflexivity|]. eapply inv_pc; try eassumption; try reflexivity; cbn; auto. intros k [= <-]. exact E.
  - cbv zeta. destruct (mutex (bays st (bay_of l))) eqn:Em; [eauto|]. eexists. split; [reflexivity|].
    eapply inv_take; try eassumption; reflexivity.
  - assert (lock st l = BOTH) as E by (apply (I5 t); now rewrite Ep). destruct (bits_eqb_spec (lock st l) BOTH); [|congruence].
    eexists. split; [reflexivity|]. eapply inv_free; try eassumption; try reflexivity. intros H. congruence.
  - cbv zeta. eexists. split; [reflexivity|]. eapply inv_release; try eassumption; try reflexivity; [left; auto|discriminate].
  - eexists. split; [reflexivity|]. now apply inv_bcast.
Qed.

Lemma event_inv st e : inv st -> exists st', do_event bay_of LOCK_SPINS st e = Ok st' /\ inv st'.
Proof.
  intros I0. destruct e as [t l|t l|t|t]; cbn [do_event].
  - destruct (pcs st t) eqn:Ep; eauto. eexists. split; [reflexivity|].
    eapply inv_pc; try eassumption; try reflexivity; cbn; auto; discriminate.
  - destruct (pcs st t) eqn:Ep; eauto. destruct (in_dec Nat.eq_dec l (held st t)) as [Hin|_]; eauto.
    eexists. split; [reflexivity|]. now apply inv_call_unlock.
  - now apply step_inv.
  - destruct (pcs st t) eqn:Ep; eauto. eexists. split; [reflexivity|].
    eapply inv_pc; try eassumption; try reflexivity; cbn; auto; discriminate.
Qed.

Lemma run_inv : forall es st, inv st -> exists st', run bay_of LOCK_SPINS st es = Ok st' /\ inv st'.
Proof.
  induction es as [|e es IH]; intros st I0; cbn [run]; [eauto|].
  destruct (event_inv st e I0) as (st1 & E & I1). rewrite E. cbn [bind]. now apply IH.
Qed.
End Inv.
