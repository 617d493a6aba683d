(* Automata fragments: the structural and language invariants kept while an
   automaton is built (used by PslProofs.v). *)
From Coq Require Import List Arith Bool Lia.
From Verif Require Import Base PslSpec PslModel.
Import ListNotations.

Definition graph := nat -> list edge.

(* One step of the automaton on a trace: an epsilon edge stays in the same
   cycle, a NEXT edge goes on to the next one; both test their guard in the
   current cycle. *)
Definition adv (k : ekind) (i : nat) : nat := match k with EPS => i | NEXT => S i end.

Inductive path (G : graph) (w : trace) : nat -> nat -> nat -> nat -> Prop :=
| p_refl q i : path G w q i q i
| p_snoc q i q1 i1 e :
    path G w q i q1 i1 -> In e (G q1) -> holds (w i1) (eg e) = true ->
    path G w q i (dst e) (adv (ek e) i1).

Lemma path_trans G w q1 i1 q2 i2 q3 i3 :
  path G w q1 i1 q2 i2 -> path G w q2 i2 q3 i3 -> path G w q1 i1 q3 i3.
Proof. intros H1 H2. induction H2; [exact H1|]. econstructor; eauto. Qed.

Lemma path_one G w q i e :
  In e (G q) -> holds (w i) (eg e) = true -> path G w q i (dst e) (adv (ek e) i).
Proof. intros. econstructor; eauto. constructor. Qed.

(* A set closed under the edges of [G] contains what is reachable from it. *)
Definition closed (G : graph) (D : nat -> Prop) : Prop :=
  forall q e, D q -> In e (G q) -> D (dst e).

Lemma path_closed G w D q i q' i' :
  closed G D -> D q -> path G w q i q' i' -> D q'.
Proof. intros HC HD H. induction H; eauto. Qed.

Lemma path_mono G H w (D : nat -> Prop) q i q' i' :
  closed G D -> (forall x, D x -> incl (G x) (H x)) -> D q ->
  path G w q i q' i' -> path H w q i q' i'.
Proof.
  intros HC HI HD P. induction P as [|q i q1 i1 e P IH He Hg]; [constructor|].
  econstructor; eauto. apply HI; auto. eapply path_closed; eauto.
Qed.

(* The states of a fragment: its start and those created for it. *)
Definition dom (s n n' q : nat) : Prop := q = s \/ n <= q < n'.

Definition eps_rel (G : graph) (y x : nat) : Prop :=
  exists e, In e (G x) /\ ek e = EPS /\ dst e = y.

(* Epsilon steps, whatever their guards. *)
Inductive ewalk (G : graph) : nat -> nat -> Prop :=
| ew_refl q : ewalk G q q
| ew_snoc q q1 e : ewalk G q q1 -> In e (G q1) -> ek e = EPS -> ewalk G q (dst e).

Lemma ewalk_inv G (Z : nat -> Prop) a c :
  ewalk G a c -> Z a ->
  (forall q e, Z q -> In e (G q) -> ek e = EPS -> Z (dst e)) -> Z c.
Proof. intros H Ha HZ. induction H; eauto. Qed.

(* Epsilon steps whose guards hold. *)
Inductive ereach (G : graph) (v : nat -> bool) : nat -> nat -> Prop :=
| er_refl q : ereach G v q q
| er_cons q e q2 :
    In e (G q) -> ek e = EPS -> holds v (eg e) = true -> ereach G v (dst e) q2 ->
    ereach G v q q2.

(* If a NEXT edge of [q] to some state comes after an epsilon edge, then the
   states behind the epsilon edge that have a NEXT edge to the same state are
   reached whatever the expressions are. *)
Definition ordered (G : graph) (q : nat) : Prop :=
  forall A e B, G q = A ++ e :: B -> ek e = EPS ->
  forall b c x, In b B -> ewalk G (dst e) c -> In x (G c) -> ek x = NEXT ->
    dst x = dst b -> forall v, ereach G v q c.

(* At most one epsilon edge; NEXT edges are unguarded. *)
Definition shape (l : list edge) : Prop :=
  (forall e, In e l -> ek e = NEXT -> eg e = None) /\
  (forall e, In e l -> ek e = EPS -> eg e = None \/ exists p, eg e = Some (GExpr p)) /\
  (forall A e B, l = A ++ e :: B -> ek e = EPS ->
     forall x, In x (A ++ B) -> ek x = NEXT).

(* [G''] is a later state of the automaton, seen from a fragment of [G']: the
   rest of the automaton only adds edges to the fragment's last state, and
   only enters the fragment at its start and its last state. *)
Definition ext (G' G'' : graph) (s n n' t lb : nat) : Prop :=
  (forall q, dom s n n' q -> q <> t -> G'' q = G' q) /\
  (exists X, G'' t = G' t ++ X /\
     forall e, In e X ->
       (ek e = EPS -> ~ dom s n n' (dst e)) /\
       (ek e = NEXT -> dst e = lb \/ ~ (n <= dst e < n'))) /\
  (forall q e, ~ dom s n n' q -> In e (G'' q) ->
     (dst e = t /\ ek e = EPS) \/ ~ (n <= dst e < n')).

(* The structure of a fragment.  If [u], some states of the fragment have an
   epsilon edge to the state [sk] outside it. *)
Record frag (u : Prop) (sk : nat) (G G' : graph) (s n n' t lb : nat) : Prop := {
  f_rng : s < n /\ n <= t < n';
  f_lb : dom s n n' lb;
  f_frame : forall q, ~ dom s n n' q -> G' q = G q;
  f_closed : forall q e, dom s n n' q -> In e (G' q) ->
    dom s n n' (dst e) \/ (u /\ q <> t /\ e = Edge EPS None sk);
  f_t : forall e, In e (G' t) -> ek e = NEXT;
  f_shape : forall q, dom s n n' q -> shape (G' q);
  f_acc : forall G'', ext G' G'' s n n' t lb ->
    (u -> G'' sk = [Edge EPS None t] /\ ~ dom s n n' sk) ->
    Acc (eps_rel G'') t -> forall q, dom s n n' q -> Acc (eps_rel G'') q;
  f_ord : forall G'', ext G' G'' s n n' t lb ->
    (u -> G'' sk = [Edge EPS None t] /\ ~ dom s n n' sk) ->
    forall q, dom s n n' q -> q <> t -> ordered G'' q }.

Lemma shape_nil : shape [].
Proof.
  split; [intros e []|]. split; [intros e []|].
  intros A e B H. destruct A; discriminate H.
Qed.

Lemma app_one_inv {A} (l1 l2 : list A) x y :
  [y] = l1 ++ x :: l2 -> l1 = [] /\ l2 = [] /\ x = y.
Proof.
  destruct l1 as [|a l1]; cbn [app]; intros H.
  - injection H as -> <-. auto.
  - injection H as _ H. destruct l1; discriminate H.
Qed.

Lemma shape_one e : (ek e = NEXT -> eg e = None) ->
  (ek e = EPS -> eg e = None \/ exists p, eg e = Some (GExpr p)) -> shape [e].
Proof.
  intros H1 H2. split; [|split].
  - intros x [<-|[]]. exact H1.
  - intros x [<-|[]]. exact H2.
  - intros A x B HA Hx y Hy. apply app_one_inv in HA as (-> & -> & ->).
    destruct Hy.
Qed.

Lemma shape_next_snoc l e : shape l -> ek e = NEXT -> eg e = None -> shape (l ++ [e]).
Proof.
  intros (H1 & H2 & H3) Hk Hg. split; [|split].
  - intros x Hx Hn. apply in_app_or in Hx as [Hx|[<-|[]]]; auto.
  - intros x Hx Hn. apply in_app_or in Hx as [Hx|[<-|[]]]; auto; congruence.
  - intros A x B HA Hx y Hy.
    destruct (exists_last (l := x :: B) ltac:(discriminate)) as (B' & z & HB).
    rewrite HB, app_assoc in HA. apply app_inj_tail in HA as (HA & <-).
    destruct B' as [|x' B'].
    + cbn [app] in HB. injection HB as -> ->. congruence.
    + cbn [app] in HB. injection HB as <- ->.
      rewrite app_assoc in Hy. apply in_app_or in Hy as [Hy|[<-|[]]]; auto.
      eapply H3; eauto.
Qed.

Lemma shape_eps_snoc l e : (forall x, In x l -> ek x = NEXT) -> shape l ->
  ek e = EPS -> eg e = None -> shape (l ++ [e]).
Proof.
  intros Hl (H1 & H2 & H3) Hk Hg. split; [|split].
  - intros x Hx Hn. apply in_app_or in Hx as [Hx|[<-|[]]]; auto.
  - intros x Hx Hn. apply in_app_or in Hx as [Hx|[<-|[]]]; auto.
  - intros A x B HA Hx y Hy.
    destruct B as [|b B].
    + apply app_inj_tail in HA as (-> & <-). rewrite app_nil_r in Hy. auto.
    + destruct (exists_last (l := b :: B) ltac:(discriminate)) as (B' & z & HB).
      rewrite HB in HA. rewrite app_comm_cons, app_assoc in HA.
      apply app_inj_tail in HA as (HA & <-).
      assert (In x l) by (rewrite HA; apply in_or_app; right; left; reflexivity).
      specialize (Hl x H). congruence.
Qed.

(* The whole fragment of a Boolean expression. *)
Lemma frag_hdl G s n p :
  s < n -> G s = [] -> G n = [] ->
  frag False 0 G (upd G s [Edge EPS (Some (GExpr p)) n]) s n (S n) n s.
Proof.
  intros Hs HGs HGn. unfold dom.
  assert (Hn : upd G s [Edge EPS (Some (GExpr p)) n] n = [])
    by (rewrite upd_other by lia; exact HGn).
  split; unfold dom.
  - lia.
  - left. reflexivity.
  - intros q Hq. apply upd_other. lia.
  - intros q e [->|Hq] He.
    + rewrite upd_same in He. destruct He as [<-|[]]. left. right. cbn. lia.
    + replace q with n in He by lia. rewrite Hn in He. destruct He.
  - intros e He. rewrite Hn in He. destruct He.
  - intros q [->|Hq].
    + rewrite upd_same. apply shape_one; cbn; [discriminate|]. right. eauto.
    + replace q with n by lia. rewrite Hn. apply shape_nil.
  - intros G'' (HE1 & HE2 & HE3) _ Ht q [->|Hq].
    + constructor. intros y (e & He & _ & <-).
      rewrite HE1 in He by (unfold dom; lia). rewrite upd_same in He.
      destruct He as [<-|[]]. exact Ht.
    + replace q with n by lia. exact Ht.
  - intros G'' (HE1 & HE2 & HE3) _ q Hq Hqt.
    assert (q = s) as -> by lia.
    intros A e B HA He b c x Hb.
    rewrite HE1 in HA by (unfold dom; lia). rewrite upd_same in HA.
    apply app_one_inv in HA as (_ & -> & _). destruct Hb.
Qed.

(* Weakening the flags, and changing the graph before. *)
Lemma frag_weaken (u : Prop) sk sk' G H G' s n n' t lb :
  (forall q, ~ dom s n n' q -> G q = H q) ->
  frag False sk G G' s n n' t lb -> frag u sk' H G' s n n' t s.
Proof.
  intros HGH F. destruct F as [F1 F2 F3 F4 F5 F6 F7 F8].
  assert (HX : forall G'', ext G' G'' s n n' t s -> ext G' G'' s n n' t lb).
  { intros G'' (E1 & (X & E2 & EX) & E3). split; [exact E1|]. split; [|exact E3].
    exists X. split; [exact E2|]. intros e He. destruct (EX e He) as (A & B).
    split; [exact A|]. intros HN. destruct (B HN) as [->|B']; right; lia. }
  split; auto.
  - left. reflexivity.
  - intros q Hq. rewrite <- HGH by exact Hq. auto.
  - intros q e Hq He. destruct (F4 q e Hq He) as [?|([] & _)]. left. assumption.
  - intros G'' HE _. apply F7; [auto|intros []].
  - intros G'' HE _. apply F8; [auto|intros []].
Qed.

Lemma frag_false (u : Prop) sk G G' s n n' t lb :
  ~ u -> frag u sk G G' s n n' t lb -> frag False sk G G' s n n' t lb.
Proof.
  intros Hu F. destruct F as [F1 F2 F3 F4 F5 F6 F7 F8]. split; auto.
  intros q e Hq He. destruct (F4 q e Hq He) as [?|(U & _)]; [left; assumption|contradiction].
Qed.

Lemma frag_base u sk G H G' s n n' t lb :
  (forall q, ~ dom s n n' q -> G q = H q) ->
  frag u sk G G' s n n' t lb -> frag u sk H G' s n n' t lb.
Proof.
  intros HGH F. destruct F as [F1 F2 F3 F4 F5 F6 F7 F8]. split; auto.
  intros q Hq. rewrite <- HGH by exact Hq. auto.
Qed.

(* Two fragments linked by an edge from the end of the first to the start of
   the second, with an optional epsilon edge to [sk] before it. *)
Definition exits (x : bool) (sk : nat) : list edge :=
  if x then [Edge EPS None sk] else [].

Lemma frag_link (u u2 : Prop) (x : bool) sk G G1 G3 s n n1 n3 t1 t3 lb1 lb k :
  frag False sk G G1 s n n1 t1 lb1 ->
  frag u2 sk (upd G1 t1 (G1 t1 ++ exits x sk ++ [Edge k None n1])) G3
       n1 (S n1) n3 t3 lb ->
  (u2 -> u) -> (x = true -> u /\ k = NEXT) ->
  (u -> sk < n /\ sk <> s) ->
  frag u sk G G3 s n n3 t3 lb.
Proof.
  intros F1 F2 Hu Hx Hsk. apply (frag_weaken False _ sk _ G) in F1; [|reflexivity].
  destruct F1 as [A1 A2 A3 A4 A5 A6 A7 A8]. destruct F2 as [B1 B2 B3 B4 B5 B6 B7 B8].
  unfold dom in *.
  (* the first fragment's states are the same in [G3], but the last *)
  assert (H1 : forall q, q = s \/ n <= q < n1 -> q <> t1 -> G3 q = G1 q).
  { intros q Hq Hqt. rewrite B3 by lia. apply upd_other. exact Hqt. }
  assert (Ht1 : G3 t1 = G1 t1 ++ exits x sk ++ [Edge k None n1]).
  { rewrite B3 by lia. apply upd_same. }
  assert (Hdst : forall e, In e (G1 t1) -> dst e = s \/ n <= dst e < n1).
  { intros e He. destruct (A4 t1 e ltac:(lia) He) as [?|([] & _)]. assumption. }
  assert (HXE : forall G'', ext G3 G'' s n n3 t3 lb ->
            (u -> G'' sk = [Edge EPS None t3] /\ ~ (sk = s \/ n <= sk < n3)) ->
            ext G1 G'' s n n1 t1 s /\ ext G3 G'' n1 (S n1) n3 t3 lb).
  { intros G'' (E1 & (X & E2 & EX) & E3) HU. unfold ext, dom in *. split; (split; [|split]).
    - intros q Hq Hqt. rewrite E1 by lia. apply H1; assumption.
    - exists (exits x sk ++ [Edge k None n1]). split.
      + rewrite E1 by lia. exact Ht1.
      + intros e He. apply in_app_or in He as [He|[<-|[]]].
        * unfold exits in He. destruct x; [|destruct He]. destruct He as [<-|[]].
          destruct (Hx eq_refl) as (HHu & _). specialize (Hsk HHu). cbn.
          split; [lia|discriminate].
        * cbn. split; intros; try right; lia.
    - intros q e Hq He. right.
      destruct (Nat.eq_dec q t3) as [->|Hqt].
      + rewrite E2 in He. apply in_app_or in He as [He|He].
        * destruct (B4 t3 e ltac:(lia) He) as [?|(_ & ? & _)]; [lia|congruence].
        * destruct (EX e He) as (EX1 & EX2). destruct (ek e).
          -- destruct (EX2 eq_refl) as [->|?]; lia.
          -- specialize (EX1 eq_refl). lia.
      + assert (q = n1 \/ S n1 <= q < n3 \/ ~ (q = s \/ n <= q < n3)) as [Hd|[Hd|Hd]] by lia.
        * subst q. rewrite E1 in He by lia.
          destruct (B4 n1 e ltac:(lia) He) as [?|(U & _ & ->)]; [lia|].
          specialize (Hsk (Hu U)). cbn. lia.
        * rewrite E1 in He by lia.
          destruct (B4 q e ltac:(lia) He) as [?|(U & _ & ->)]; [lia|].
          specialize (Hsk (Hu U)). cbn. lia.
        * destruct (E3 q e Hd He) as [(-> & _)|?]; lia.
    - intros q Hq Hqt. apply E1; lia.
    - exists X. split; [exact E2|]. intros e He. destruct (EX e He) as (EX1 & EX2).
      split; [intros HK; specialize (EX1 HK); lia|].
      intros HK. destruct (EX2 HK) as [->|?]; [left; reflexivity|right; lia].
    - intros q e Hq He.
      destruct (Nat.eq_dec q t1) as [->|Hqt].
      + rewrite E1, Ht1 in He by lia. right. apply in_app_or in He as [He|He].
        * specialize (Hdst e He). lia.
        * apply in_app_or in He as [He|[<-|[]]]; [|cbn; lia].
          unfold exits in He. destruct x; [|destruct He]. destruct He as [<-|[]].
          destruct (Hx eq_refl) as (HHu & _). specialize (Hsk HHu). cbn. lia.
      + assert ((q = s \/ n <= q < n1) \/ ~ (q = s \/ n <= q < n3)) as [Hd|Hd] by lia.
        * rewrite E1, H1 in He by lia.
          destruct (A4 q e Hd He) as [?|([] & _)]. right. lia.
        * destruct (E3 q e Hd He) as [?|?]; [left; assumption|right; lia]. }
  split; unfold dom.
  - lia.
  - lia.
  - intros q Hq. rewrite B3 by lia. rewrite upd_other by lia. apply A3. lia.
  - intros q e Hq He.
    destruct (Nat.eq_dec q t1) as [->|Hqt].
    + rewrite Ht1 in He. apply in_app_or in He as [He|He].
      * left. specialize (Hdst e He). lia.
      * apply in_app_or in He as [He|[<-|[]]]; [|cbn; left; lia].
        unfold exits in He. destruct x; [|destruct He]. destruct He as [<-|[]].
        destruct (Hx eq_refl) as (HHu & _). right. split; [exact HHu|].
        split; [lia|reflexivity].
    + assert ((q = s \/ n <= q < n1) \/ (q = n1 \/ S n1 <= q < n3)) as [Hd|Hd] by lia.
      * rewrite H1 in He by assumption.
        destruct (A4 q e Hd He) as [?|([] & _)]. left. lia.
      * destruct (B4 q e Hd He) as [?|(U & Ht & ->)]; [left; lia|].
        right. split; [auto|]. split; [exact Ht|reflexivity].
  - exact B5.
  - intros q Hq.
    destruct (Nat.eq_dec q t1) as [->|Hqt].
    + rewrite Ht1. specialize (A6 t1 ltac:(lia)). unfold exits. destruct x.
      * destruct (Hx eq_refl) as (_ & ->). rewrite app_assoc.
        apply shape_next_snoc; try reflexivity.
        apply shape_eps_snoc; auto.
      * cbn [app]. destruct k; [apply shape_next_snoc|apply shape_eps_snoc]; auto.
    + assert ((q = s \/ n <= q < n1) \/ (q = n1 \/ S n1 <= q < n3)) as [Hd|Hd] by lia.
      * rewrite H1 by assumption. apply A6. exact Hd.
      * apply B6. exact Hd.
  - intros G'' HE HU Ht q Hq. destruct (HXE G'' HE HU) as (E1 & E2).
    assert (HB : forall q, q = n1 \/ S n1 <= q < n3 -> Acc (eps_rel G'') q).
    { intros q' Hq'. apply (B7 G'' E2); auto. intros U. destruct (HU (Hu U)). split; [auto|lia]. }
    assert (HA : Acc (eps_rel G'') t1).
    { constructor. intros y (e & He & Hk & <-).
      destruct HE as (E & _). rewrite E, Ht1 in He by (unfold dom; lia).
      apply in_app_or in He as [He|He]; [rewrite (A5 e He) in Hk; discriminate|].
      apply in_app_or in He as [He|[<-|[]]].
      - unfold exits in He. destruct x; [|destruct He]. destruct He as [<-|[]]. cbn.
        destruct (Hx eq_refl) as (U & _). destruct (HU U) as (HS & _).
        constructor. intros y (e & He & _ & <-). rewrite HS in He.
        destruct He as [<-|[]]. exact Ht.
      - cbn. apply HB. left. reflexivity. }
    assert ((q = s \/ n <= q < n1) \/ (q = n1 \/ S n1 <= q < n3)) as [Hd|Hd] by lia.
    + apply (A7 G'' E1); auto. intros [].
    + apply HB. exact Hd.
  - intros G'' HE HU q Hq Hqt. destruct (HXE G'' HE HU) as (E1 & E2).
    assert ((q = n1 \/ S n1 <= q < n3) \/ (q = s \/ n <= q < n1)) as [Hd|Hd] by lia.
    { apply (B8 G'' E2); auto. intros U. destruct (HU (Hu U)). split; [auto|lia]. }
    destruct (Nat.eq_dec q t1) as [->|Hq1]; [|apply (A8 G'' E1); auto; intros []].
    clear Hq Hd Hqt.
    destruct HE as (X1 & (X & X2 & XX) & X3). unfold dom in *.
    assert (Hg1 : G'' t1 = G1 t1 ++ exits x sk ++ [Edge k None n1])
      by (rewrite X1 by lia; exact Ht1).
    intros A e B HA He b c y Hb HW Hy Hky Hdy v.
    rewrite Hg1 in HA.
    assert (Hnot : ~ In e (G1 t1)) by (intros Hin; rewrite (A5 e Hin) in He; discriminate).
    unfold exits in *. destruct x.
    + destruct (Hx eq_refl) as (U & ->). destruct (HU U) as (HS & HSd).
      assert (He' : e = Edge EPS None sk /\ B = [Edge NEXT None n1]).
      { clear - HA Hnot He. revert A HA. induction (G1 t1) as [|h l IH]; intros A HA.
        - destruct A as [|a0 A]; cbn [app] in HA.
          + injection HA as <- <-. auto.
          + injection HA as _ HA. apply app_one_inv in HA as (_ & _ & ->). discriminate.
        - destruct A as [|a0 A]; cbn [app] in HA.
          + injection HA as <- _. exfalso. apply Hnot. left. reflexivity.
          + injection HA as _ HA. apply (IH (fun h => Hnot (or_intror h)) A HA). }
      destruct He' as (-> & ->). destruct Hb as [<-|[]]. cbn [dst] in *.
      (* epsilon walks from [sk] meet the second fragment only at its end *)
      assert (HZ : c = t3 \/ ~ (c = n1 \/ S n1 <= c < n3)).
      { apply (ewalk_inv G'' (fun c => c = t3 \/ ~ (c = n1 \/ S n1 <= c < n3)) sk c HW).
        - right. lia.
        - intros q1 e IH HI HK. destruct IH as [->|IH].
          + rewrite X2 in HI. apply in_app_or in HI as [HI|HI].
            * rewrite (B5 e HI) in HK. discriminate.
            * destruct (XX e HI) as (XX1 & _). specialize (XX1 HK). right. lia.
          + destruct (Nat.eq_dec q1 t1) as [->|Hqt].
            * rewrite Hg1 in HI. apply in_app_or in HI as [HI|HI].
              -- rewrite (A5 e HI) in HK. discriminate.
              -- apply in_app_or in HI as [HI|[<-|[]]]; [|discriminate].
                 destruct HI as [<-|[]]. cbn. right. lia.
            * assert ((q1 = s \/ n <= q1 < n1) \/ ~ (q1 = s \/ n <= q1 < n3)) as [Hd|Hd] by lia.
              -- rewrite X1, H1 in HI by lia.
                 destruct (A4 q1 e Hd HI) as [?|([] & _)]. right. lia.
              -- destruct (X3 q1 e Hd HI) as [(-> & _)|?]; [left; reflexivity|right; lia]. }
      destruct HZ as [->|HZ].
      * apply er_cons with (e := Edge EPS None sk); try reflexivity.
        { rewrite Hg1. apply in_or_app. right. left. reflexivity. }
        cbn [dst]. apply er_cons with (e := Edge EPS None t3); try reflexivity.
        { rewrite HS. left. reflexivity. }
        constructor.
      * destruct (Nat.eq_dec c t1) as [->|Hc]; [constructor|]. exfalso.
        assert ((c = s \/ n <= c < n1) \/ ~ (c = s \/ n <= c < n3)) as [Hd|Hd] by lia.
        -- rewrite X1, H1 in Hy by lia.
           destruct (A4 c y Hd Hy) as [?|([] & _)]. lia.
        -- destruct (X3 c y Hd Hy) as [(? & HE)|?]; [congruence|lia].
    + cbn [app] in HA. exfalso. destruct B as [|b0 B]; [destruct Hb|].
      clear - HA Hnot. revert A HA. induction (G1 t1) as [|h l IH]; intros A HA.
      * destruct A as [|a0 A]; cbn [app] in HA; [discriminate|].
        injection HA as _ HA. destruct A; discriminate HA.
      * destruct A as [|a0 A]; cbn [app] in HA.
        -- injection HA as <- _. apply Hnot. left. reflexivity.
        -- injection HA as _ HA. apply (IH (fun h => Hnot (or_intror h)) A HA).
Qed.

(* An unguarded NEXT edge from the last state back to [lb]. *)
Lemma frag_inf sk G G1 s n n' t lb :
  frag False sk G G1 s n n' t lb ->
  frag False 0 G (upd G1 t (insert_edge (G1 t) (Edge NEXT None lb))) s n n' t s.
Proof.
  intros [A1 A2 A3 A4 A5 A6 A7 A8]. unfold dom in *.
  set (G2 := upd G1 t _).
  assert (HG : forall q, q <> t -> G2 q = G1 q) by (intros; now apply upd_other).
  assert (Ht : exists Y, G2 t = G1 t ++ Y /\ (Y = [] \/ Y = [Edge NEXT None lb])).
  { unfold G2. rewrite upd_same. unfold insert_edge.
    destruct (existsb _ _).
    - exists []. rewrite app_nil_r. auto.
    - exists [Edge NEXT None lb]. auto. }
  destruct Ht as (Y & Ht & HY).
  assert (HX : forall G'', ext G2 G'' s n n' t s -> ext G1 G'' s n n' t lb).
  { intros G'' (E1 & (X & E2 & EX) & E3). unfold ext, dom in *. split; [|split].
    - intros q Hq Hqt. rewrite E1 by assumption. apply HG. exact Hqt.
    - exists (Y ++ X). rewrite E2, Ht, app_assoc. split; [reflexivity|].
      intros e He. apply in_app_or in He as [He|He].
      + destruct HY as [->| ->]; [destruct He|]. destruct He as [<-|[]]. cbn.
        split; [discriminate|]. left. reflexivity.
      + destruct (EX e He) as (EX1 & EX2). split; [exact EX1|].
        intros HK. destruct (EX2 HK); right; lia.
    - exact E3. }
  split; unfold dom.
  - exact A1.
  - left. reflexivity.
  - intros q Hq. rewrite HG by lia. apply A3. exact Hq.
  - intros q e Hq He. left. destruct (Nat.eq_dec q t) as [->|Hqt].
    + rewrite Ht in He. apply in_app_or in He as [He|He].
      * destruct (A4 t e Hq He) as [?|([] & _)]. assumption.
      * destruct HY as [->| ->]; [destruct He|]. destruct He as [<-|[]]. cbn. exact A2.
    + rewrite HG in He by assumption. destruct (A4 q e Hq He) as [?|([] & _)]. assumption.
  - intros e He. rewrite Ht in He. apply in_app_or in He as [He|He]; [auto|].
    destruct HY as [->| ->]; [destruct He|]. destruct He as [<-|[]]. reflexivity.
  - intros q Hq. destruct (Nat.eq_dec q t) as [->|Hqt].
    + rewrite Ht. destruct HY as [->| ->].
      * rewrite app_nil_r. apply A6. exact Hq.
      * apply shape_next_snoc; auto.
    + rewrite HG by assumption. apply A6. exact Hq.
  - intros G'' HE _. apply A7; [auto|intros []].
  - intros G'' HE _. apply A8; [auto|intros []].
Qed.

(* The state [sk = n] gets its edge to the last state and becomes part of the
   fragment. *)
Lemma frag_range (u : Prop) G G1 s n n' t lb :
  u -> s < n -> G n = [] ->
  frag u n G G1 s (S n) n' t lb ->
  frag False 0 G (upd G1 n [Edge EPS None t]) s n n' t s.
Proof.
  intros U Hs HGn [A1 A2 A3 A4 A5 A6 A7 A8]. unfold dom in *.
  set (G2 := upd G1 n _).
  assert (HG : forall q, q <> n -> G2 q = G1 q) by (intros; now apply upd_other).
  assert (Hn : G2 n = [Edge EPS None t]) by apply upd_same.
  assert (HX : forall G'', ext G2 G'' s n n' t s ->
                 ext G1 G'' s (S n) n' t lb /\ G'' n = [Edge EPS None t]).
  { intros G'' (E1 & (X & E2 & EX) & E3). unfold ext, dom in *.
    assert (HG'' : G'' n = [Edge EPS None t]) by (rewrite E1 by lia; exact Hn).
    split; [|exact HG'']. split; [|split].
    - intros q Hq Hqt. rewrite E1 by lia. apply HG. lia.
    - exists X. rewrite E2, HG by lia. split; [reflexivity|].
      intros e He. destruct (EX e He) as (EX1 & EX2). split.
      + intros HK. specialize (EX1 HK). lia.
      + intros HK. destruct (EX2 HK); right; lia.
    - intros q e Hq He. destruct (Nat.eq_dec q n) as [->|Hqn].
      + rewrite HG'' in He. destruct He as [<-|[]]. left. auto.
      + destruct (E3 q e ltac:(lia) He); [left; assumption|right; lia]. }
  split; unfold dom.
  - lia.
  - left. reflexivity.
  - intros q Hq. rewrite HG by lia. apply A3. lia.
  - intros q e Hq He. left. destruct (Nat.eq_dec q n) as [->|Hqn].
    + rewrite Hn in He. destruct He as [<-|[]]. cbn. lia.
    + rewrite HG in He by assumption.
      destruct (A4 q e ltac:(lia) He) as [?|(_ & _ & ->)]; [lia|cbn; lia].
  - intros e He. rewrite HG in He by lia. auto.
  - intros q Hq. destruct (Nat.eq_dec q n) as [->|Hqn].
    + rewrite Hn. apply shape_one; cbn; [discriminate|]. left. reflexivity.
    + rewrite HG by assumption. apply A6. lia.
  - intros G'' HE _ Ht q Hq. destruct (HX G'' HE) as (E & HS).
    destruct (Nat.eq_dec q n) as [->|Hqn].
    + constructor. intros y (e & He & _ & <-). rewrite HS in He.
      destruct He as [<-|[]]. exact Ht.
    + apply (A7 G'' E); auto; [|lia]. intros _. split; [exact HS|lia].
  - intros G'' HE _ q Hq Hqt. destruct (HX G'' HE) as (E & HS).
    destruct (Nat.eq_dec q n) as [->|Hqn].
    + intros A e B HA He b c x Hb. rewrite HS in HA.
      apply app_one_inv in HA as (_ & -> & _). destruct Hb.
    + apply (A8 G'' E); auto; [|lia]. intros _. split; [exact HS|lia].
Qed.

(* ---- languages ---- *)
Definition rel := trace -> nat -> nat -> Prop.

(* What a fragment matches, and how it goes on once it has matched. *)
Record lang (G : graph) (s t : nat) (M C : rel) : Prop := {
  l_m : forall w i j, path G w s i t j <-> M w i (S j);
  l_c : forall w i j, path G w t i t j <-> C w i j }.

Lemma frag_dom_closed sk G G' s n n' t lb :
  frag False sk G G' s n n' t lb -> closed G' (dom s n n').
Proof.
  intros F q e Hq He. destruct (f_closed _ _ _ _ _ _ _ _ _ F q e Hq He) as [?|([] & _)].
  assumption.
Qed.

Lemma link_path (u2 : Prop) (x : bool) sk G G1 G3 s n n1 n3 t1 t3 lb1 lb k :
  frag False sk G G1 s n n1 t1 lb1 ->
  frag u2 sk (upd G1 t1 (G1 t1 ++ exits x sk ++ [Edge k None n1])) G3
       n1 (S n1) n3 t3 lb ->
  (x = true \/ u2 -> sk < n /\ sk <> s /\ G sk = []) ->
  (forall w i j, path G1 w s i t1 j -> path G3 w s i t1 j) /\
  (forall w j, path G3 w t1 j n1 (adv k j)) /\
  (x = true -> forall w j, path G3 w t1 j sk j) /\
  (forall w i q j, path G3 w s i q j ->
     (dom s n n1 q /\ path G1 w s i q j) \/
     (exists j1, path G1 w s i t1 j1 /\ path G3 w n1 (adv k j1) q j /\
                 (dom n1 (S n1) n3 q \/ (u2 /\ q = sk))) \/
     (x = true /\ q = sk /\ path G1 w s i t1 j)).
Proof.
  intros F1 F2 Hsk. pose proof (frag_dom_closed _ _ _ _ _ _ _ _ F1) as HC.
  destruct F1 as [A1 A2 A3 A4 A5 _ _ _]. destruct F2 as [B1 B2 B3 B4 B5 _ _ _].
  unfold dom in *.
  assert (H1 : forall q, q = s \/ n <= q < n1 -> q <> t1 -> G3 q = G1 q).
  { intros q Hq Hqt. rewrite B3 by lia. apply upd_other. exact Hqt. }
  assert (Ht1 : G3 t1 = G1 t1 ++ exits x sk ++ [Edge k None n1]).
  { rewrite B3 by lia. apply upd_same. }
  split; [|split; [|split]].
  - intros w i j. apply (path_mono G1 G3 w (fun q => q = s \/ n <= q < n1)); [exact HC| |auto].
    intros q Hq. destruct (Nat.eq_dec q t1) as [->|Hqt].
    + rewrite Ht1. apply incl_appl. apply incl_refl.
    + rewrite H1 by assumption. apply incl_refl.
  - intros w j. apply (path_one G3 w t1 j (Edge k None n1)); [|reflexivity].
    rewrite Ht1. apply in_or_app. right. apply in_or_app. right. left. reflexivity.
  - intros -> w j. apply (path_one G3 w t1 j (Edge EPS None sk)); [|reflexivity].
    rewrite Ht1. apply in_or_app. right. left. reflexivity.
  - intros w i q j P. remember s as s0 eqn:Es in P.
    induction P as [q i|q i q1 i1 e P IH He Hg].
    + left. split; [auto|]. subst. constructor.
    + specialize (IH Es). subst q.
      destruct IH as [(Hd & IH)|[(j1 & IH1 & IH2 & IH3)|(Hx & -> & IH)]].
      * destruct (Nat.eq_dec q1 t1) as [->|Hqt].
        -- rewrite Ht1 in He. apply in_app_or in He as [He|He].
           ++ left. split; [eapply HC; eauto|]. econstructor; eauto.
           ++ apply in_app_or in He as [He|[<-|[]]].
              ** unfold exits in He. destruct x; [|destruct He].
                 destruct He as [<-|[]]. cbn. right. right. auto.
              ** cbn. right. left. exists i1. split; [exact IH|].
                 split; [constructor|]. left. left. reflexivity.
        -- rewrite H1 in He by assumption. left.
           split; [eapply HC; eauto|]. econstructor; eauto.
      * right. left. exists j1. split; [exact IH1|]. split; [econstructor; eauto|].
        destruct IH3 as [IH3|(U & ->)].
        -- destruct (B4 q1 e IH3 He) as [?|(U & _ & ->)]; [left; assumption|right; auto].
        -- exfalso. destruct (Hsk (or_intror U)) as (K1 & K2 & K3).
           rewrite B3 in He by lia. rewrite upd_other in He by lia.
           rewrite A3 in He by lia. rewrite K3 in He. destruct He.
      * exfalso. destruct (Hsk (or_introl Hx)) as (K1 & K2 & K3).
        rewrite B3 in He by lia. rewrite upd_other in He by lia.
        rewrite A3 in He by lia. rewrite K3 in He. destruct He.
Qed.

(* Concatenation and fusion. *)
Definition compose (k : ekind) (M1 M2 : rel) : rel := fun w i j =>
  exists k1, M1 w i (S k1) /\ M2 w (adv k k1) j.

Lemma lang_link sk G G1 G3 s n n1 n3 t1 t3 lb1 lb k M1 C1 M2 C2 :
  frag False sk G G1 s n n1 t1 lb1 ->
  frag False sk (upd G1 t1 (G1 t1 ++ [Edge k None n1])) G3 n1 (S n1) n3 t3 lb ->
  lang G1 s t1 M1 C1 -> lang G3 n1 t3 M2 C2 ->
  lang G3 s t3 (compose k M1 M2) C2.
Proof.
  intros F1 F2 L1 L2.
  destruct (link_path False false sk G G1 G3 s n n1 n3 t1 t3 lb1 lb k F1 F2
              ltac:(intros [H|[]]; discriminate)) as (K1 & K2 & _ & K4).
  split; [|exact (l_c _ _ _ _ _ L2)].
  intros w i j. unfold compose. split.
  - intros P. destruct (K4 w i t3 j P) as [(Hd & _)|[(j1 & P1 & P2 & _)|(? & _)]].
    + exfalso. destruct (f_rng _ _ _ _ _ _ _ _ _ F2). destruct (f_rng _ _ _ _ _ _ _ _ _ F1).
      unfold dom in Hd. lia.
    + exists j1. split; [now apply (l_m _ _ _ _ _ L1)|now apply (l_m _ _ _ _ _ L2)].
    + discriminate.
  - intros (k1 & H1 & H2).
    apply (l_m _ _ _ _ _ L1) in H1. apply (l_m _ _ _ _ _ L2) in H2.
    eapply path_trans; [apply K1; exact H1|].
    eapply path_trans; [apply K2|exact H2].
Qed.

Lemma lang_hdl G s n p :
  s < n -> G s = [] -> G n = [] ->
  lang (upd G s [Edge EPS (Some (GExpr p)) n]) s n
       (fun w i j => w i p = true /\ j = S i) (fun w i j => i = j).
Proof.
  intros Hs HGs HGn.
  set (G' := upd G s _).
  assert (Hn : G' n = []) by (unfold G'; rewrite upd_other by lia; exact HGn).
  assert (HN : forall w q i q' i', path G' w q i q' i' -> q = n -> q' = n /\ i' = i).
  { intros w q i q' i' P. induction P as [|q i q1 i1 e P IH He _]; [auto|].
    intros E. destruct (IH E) as (-> & ->). rewrite Hn in He. destruct He. }
  split.
  - intros w i j. split.
    + intros P.
      assert (HH : forall q' i', path G' w s i q' i' ->
                (q' = s /\ i' = i) \/ (q' = n /\ i' = i /\ w i p = true)).
      { intros q' i' Q. remember s as s0 eqn:Es in Q.
        induction Q as [|q i q1 i1 e Q IH He Hg]; [auto|].
        destruct (IH P Es) as [(-> & ->)|(-> & -> & _)].
        - unfold G' in He. rewrite upd_same in He. destruct He as [<-|[]].
          right. cbn in *. auto.
        - rewrite Hn in He. destruct He. }
      destruct (HH n j P) as [(E & _)|(_ & -> & Hp)]; [lia|auto].
    + intros (Hp & [= ->]).
      apply (path_one G' w s i (Edge EPS (Some (GExpr p)) n)); [|exact Hp].
      unfold G'. rewrite upd_same. left. reflexivity.
  - intros w i j. split.
    + intros P. destruct (HN w n i n j P eq_refl). congruence.
    + intros ->. constructor.
Qed.

(* ---- repetition ---- *)
Lemma times_snoc (m : nat -> nat -> Prop) n i k j :
  times m n i k -> m k j -> times m (S n) i j.
Proof.
  revert i. induction n as [|n IH]; cbn [times]; intros i H1 H2.
  - subst. exists j. auto.
  - destruct H1 as (k1 & H1 & H3). exists k1. split; [exact H1|].
    apply (IH k1 H3 H2).
Qed.

Lemma times_snoc_inv (m : nat -> nat -> Prop) n i j :
  times m (S n) i j -> exists k, times m n i k /\ m k j.
Proof.
  revert i. induction n as [|n IH]; intros i (k1 & H1 & H2).
  - cbn [times] in H2. subst k1. exists i. split; [reflexivity|exact H1].
  - destruct (IH k1 H2) as (k & H3 & H4). exists k. split; [|exact H4].
    exists k1. auto.
Qed.

Lemma times_app (m : nat -> nat -> Prop) a b i k j :
  times m a i k -> times m b k j -> times m (a + b) i j.
Proof.
  revert i. induction a as [|a IH]; cbn [times Nat.add]; intros i H1 H2.
  - subst. exact H2.
  - destruct H1 as (k1 & H1 & H3). exists k1. split; [exact H1|]. eauto.
Qed.

(* The loop of a repetition: [k] copies of a fragment, linked by NEXT edges;
   the copies after which [lo] or more have been made (counting [i0] earlier
   ones) also have an epsilon edge to [sk]. *)
Record chain (lo i0 k sk : nat) (G : graph) (s n n' t lb nl : nat) (M C : rel) : Prop := {
  c_rng : lb < nl /\ nl <= t < n' /\ forall q, dom lb nl n' q -> dom s n n' q;
  c_closed : closed G (dom lb nl n');
  c_lang : lang G lb t M C;
  c_up : forall w i i1, times (M w) (k - 1) i i1 -> path G w s i lb i1;
  c_sk : forall w i j c, 1 <= c < k -> lo <= i0 + c -> times (M w) c i (S j) ->
    path G w s i sk j;
  c_down : forall w i q j, path G w s i q j -> dom lb nl n' q ->
    exists i1, times (M w) (k - 1) i i1 /\ path G w lb i1 q j;
  c_dsk : forall w i j, path G w s i sk j -> ~ dom s n n' sk ->
    exists c, 1 <= c < k /\ lo <= i0 + c /\ times (M w) c i (S j) }.

Lemma chain_one lo i0 sk G G1 s n n1 t lb1 M C :
  frag False sk G G1 s n n1 t lb1 -> lang G1 s t M C ->
  chain lo i0 1 sk G1 s n n1 t s n M C.
Proof.
  intros F L. pose proof (frag_dom_closed _ _ _ _ _ _ _ _ F) as HC.
  destruct (f_rng _ _ _ _ _ _ _ _ _ F).
  split; auto.
  - intros w i i1 H1. cbn in H1. subst. constructor.
  - intros. lia.
  - intros w i q j P _. exists i. split; [reflexivity|exact P].
  - intros w i j P HD. exfalso. apply HD.
    eapply path_closed; eauto. left. reflexivity.
Qed.

Lemma chain_cons (u2 : Prop) lo i0 k sk G G1 G3 s n n1 n3 t1 t3 lb1 lb nl (M C : rel) :
  1 <= k -> (forall w i j, M w i j -> i < j) ->
  frag False sk G G1 s n n1 t1 lb1 ->
  frag u2 sk (upd G1 t1 (G1 t1 ++ exits (lo - 1 <=? i0) sk ++ [Edge NEXT None n1])) G3
       n1 (S n1) n3 t3 lb ->
  ((lo - 1 <=? i0) = true \/ u2 -> sk < n /\ sk <> s /\ G sk = []) ->
  lang G1 s t1 M C ->
  chain lo (S i0) k sk G3 n1 (S n1) n3 t3 lb nl M C ->
  chain lo i0 (S k) sk G3 s n n3 t3 lb nl M C.
Proof.
  intros Hk Hpos F1 F2 Hsk L1 HC.
  destruct (link_path u2 _ sk G G1 G3 s n n1 n3 t1 t3 lb1 lb NEXT F1 F2 Hsk)
    as (K1 & K2 & K3 & K4).
  destruct HC as [R D L U K DN DS].
  pose proof (f_rng _ _ _ _ _ _ _ _ _ F1) as R1.
  pose proof (f_rng _ _ _ _ _ _ _ _ _ F2) as R2.
  destruct R as (R3 & R4 & R5).
  split; auto.
  - split; [exact R3|]. split; [exact R4|]. intros q Hq. specialize (R5 q Hq).
    unfold dom in *. lia.
  - intros w i i1 H1. cbn [Nat.sub] in H1. rewrite Nat.sub_0_r in H1.
    destruct k as [|k]; [lia|]. destruct H1 as (k1 & H1 & H2).
    pose proof (Hpos _ _ _ H1). destruct k1 as [|k1]; [lia|].
    apply (l_m _ _ _ _ _ L1) in H1.
    eapply path_trans; [apply K1; exact H1|].
    eapply path_trans; [apply K2|]. cbn [adv].
    apply U. cbn [Nat.sub]. rewrite Nat.sub_0_r. exact H2.
  - intros w i j c Hc Hlo H1. destruct c as [|c]; [lia|].
    destruct H1 as (k1 & H1 & H2).
    pose proof (Hpos _ _ _ H1). destruct k1 as [|k1]; [lia|].
    apply (l_m _ _ _ _ _ L1) in H1.
    eapply path_trans; [apply K1; exact H1|].
    destruct c as [|c].
    + cbn [times] in H2. injection H2 as ->. apply K3. apply Nat.leb_le. lia.
    + eapply path_trans; [apply K2|]. cbn [adv].
      apply K with (c := S c); [lia|lia|exact H2].
  - intros w i q j P Hq.
    destruct (K4 w i q j P) as [(Hd & _)|[(j1 & P1 & P2 & _)|(HX & -> & _)]].
    + exfalso. specialize (R5 q Hq). unfold dom in *. lia.
    + destruct (DN w (S j1) q j P2 Hq) as (i1 & T1 & T2). exists i1.
      split; [|exact T2]. cbn [Nat.sub]. rewrite Nat.sub_0_r.
      destruct k as [|k]; [lia|]. cbn [Nat.sub] in T1. rewrite Nat.sub_0_r in T1.
      exists (S j1). split; [now apply (l_m _ _ _ _ _ L1)|exact T1].
    + exfalso. specialize (R5 sk Hq). destruct (Hsk (or_introl HX)).
      unfold dom in *. lia.
  - intros w i j P HD.
    destruct (K4 w i sk j P) as [(Hd & _)|[(j1 & P1 & P2 & _)|(HX & _ & P1)]].
    + exfalso. apply HD. unfold dom in *. lia.
    + destruct (DS w (S j1) j P2) as (c & Hc & Hlo & T).
      { unfold dom in *. lia. }
      exists (S c). split; [lia|]. split; [lia|].
      exists (S j1). split; [now apply (l_m _ _ _ _ _ L1)|exact T].
    + exists 1. apply Nat.leb_le in HX. split; [lia|]. split; [lia|].
      exists (S j). split; [now apply (l_m _ _ _ _ _ L1)|reflexivity].
Qed.

(* A fixed number of copies. *)
Lemma lang_fixed lo i0 k sk G s n n' t lb nl (M C : rel) :
  1 <= k -> (forall w i j, M w i j -> i < j) ->
  chain lo i0 k sk G s n n' t lb nl M C ->
  lang G s t (fun w => times (M w) k) C.
Proof.
  intros Hk Hpos [R D L U K DN DS]. destruct R as (R1 & R2 & R3).
  split; [|exact (l_c _ _ _ _ _ L)].
  intros w i j. destruct k as [|k]; [lia|]. cbn [Nat.sub] in *. rewrite Nat.sub_0_r in *.
  split.
  - intros P. destruct (DN w i t j P) as (i1 & T & Q); [right; lia|].
    eapply times_snoc; [exact T|]. now apply (l_m _ _ _ _ _ L).
  - intros T. apply times_snoc_inv in T as (k1 & T & HM).
    eapply path_trans; [apply U; exact T|]. now apply (l_m _ _ _ _ _ L).
Qed.

(* [k] copies or more. *)
Lemma lang_inf lo i0 k sk G s n n' t lb nl (M C : rel) :
  1 <= k -> (forall w i j, M w i j -> i < j) ->
  chain lo i0 k sk G s n n' t lb nl M C ->
  lang (upd G t (insert_edge (G t) (Edge NEXT None lb))) s t
       (fun w i j => exists m, k <= m /\ times (M w) m i j)
       (fun w i j => C w i j \/
          exists k1 m, C w i k1 /\ times (M w) (S m) (S k1) (S j)).
Proof.
  intros Hk Hpos [R D L U K DN DS]. destruct R as (R1 & R2 & R3).
  set (G2 := upd G t _).
  assert (HG : forall q, q <> t -> G2 q = G q) by (intros; now apply upd_other).
  assert (Hin : forall e, In e (G2 t) <-> In e (G t) \/ e = Edge NEXT None lb).
  { intros e. unfold G2. rewrite upd_same. unfold insert_edge.
    destruct (existsb _ (G t)) eqn:E.
    - split; [auto|]. intros [H| ->]; [exact H|].
      apply existsb_exists in E as (x & Hx & E).
      apply andb_true_iff in E as (E & E3). apply andb_true_iff in E as (E1 & E2).
      apply Nat.eqb_eq in E2. destruct x as [kx gx dx]. cbn in *.
      destruct kx; [|discriminate]. destruct gx as [[]|]; try discriminate. subst. exact Hx.
    - rewrite in_app_iff. cbn [In]. intuition. }
  assert (Hincl : forall q, incl (G q) (G2 q)).
  { intros q e He. destruct (Nat.eq_dec q t) as [->|Hq].
    - apply Hin. left. exact He.
    - rewrite HG by assumption. exact He. }
  assert (Hup : forall w q i q' i', path G w q i q' i' -> path G2 w q i q' i').
  { intros w q i q' i'. apply (path_mono G G2 w (fun _ => True)).
    - intros ? ? _ _. exact Logic.I.
    - intros; apply Hincl.
    - exact Logic.I. }
  assert (Hback : forall w j, path G2 w t j lb (S j)).
  { intros w j. apply (path_one G2 w t j (Edge NEXT None lb)); [|reflexivity].
    apply Hin. right. reflexivity. }
  assert (Hloop : forall w m i j, times (M w) m i j -> forall q q', path G2 w q q' lb i ->
            path G2 w q q' lb j \/ (m = 0 /\ i = j)).
  { intros w m i j H q q' P. left. revert i H P. induction m as [|m IH]; intros i H P.
    - cbn in H. subst. exact P.
    - destruct H as (k1 & H1 & H2). pose proof (Hpos _ _ _ H1).
      destruct k1 as [|k1]; [lia|]. apply (IH (S k1) H2).
      apply (l_m _ _ _ _ _ L) in H1. apply Hup in H1.
      eapply path_trans; [exact P|]. eapply path_trans; [exact H1|]. apply Hback. }
  assert (Htd : dom lb nl n' t) by (right; lia).
  assert (Hlbd : dom lb nl n' lb) by (left; reflexivity).
  assert (Hdec : forall q, {dom lb nl n' q} + {~ dom lb nl n' q}).
  { intros q. unfold dom. destruct (Nat.eq_dec q lb); [left; auto|].
    destruct (le_dec nl q); [|right; lia]. destruct (lt_dec q n'); [left; auto|right; lia]. }
  split.
  - intros w i j. split.
    + intros P.
      assert (HH : forall q j, path G2 w s i q j ->
                (~ dom lb nl n' q /\ path G w s i q j) \/
                (dom lb nl n' q /\ exists m i1, k - 1 <= m /\ times (M w) m i i1 /\
                                   path G w lb i1 q j)).
      { clear P j. intros q j P. remember s as s0 eqn:Es in P.
        assert (Hone : forall q j, path G w s i q j ->
                  (~ dom lb nl n' q /\ path G w s i q j) \/
                  (dom lb nl n' q /\ exists m i1, k - 1 <= m /\ times (M w) m i i1 /\
                                   path G w lb i1 q j)).
        { intros q' j' P'. destruct (Hdec q') as [Hd|Hd]; [right|left; auto].
          split; [exact Hd|]. destruct (DN w i q' j' P' Hd) as (i1 & T & Q).
          exists (k - 1), i1. auto. }
        induction P as [|q i q1 i1 e P IH He Hg].
        - subst. apply Hone. constructor.
        - subst q. specialize (IH eq_refl Hone).
          destruct IH as [(Hd & Q)|(Hd & m & i2 & Hm & T & Q)].
          + apply Hone. rewrite HG in He by (intros ->; auto). econstructor; eauto.
          + right. destruct (Nat.eq_dec q1 t) as [->|Hqt].
            * apply Hin in He as [He| ->].
              -- split; [eapply D; eauto|]. exists m, i2. split; [exact Hm|].
                 split; [exact T|]. econstructor; eauto.
              -- cbn. split; [exact Hlbd|]. exists (S m), (S i1). split; [lia|].
                 split; [|constructor]. eapply times_snoc; [exact T|].
                 now apply (l_m _ _ _ _ _ L).
            * rewrite HG in He by assumption.
              split; [eapply D; eauto|]. exists m, i2. split; [exact Hm|].
              split; [exact T|]. econstructor; eauto. }
      destruct (HH t j P) as [(Hd & _)|(_ & m & i1 & Hm & T & Q)]; [contradiction|].
      exists (S m). split; [lia|]. eapply times_snoc; [exact T|].
      now apply (l_m _ _ _ _ _ L).
    + intros (m & Hm & T).
      replace m with ((k - 1) + (S (m - k))) in T by lia.
      assert (T' : exists i1, times (M w) (k - 1) i i1 /\ times (M w) (S (m - k)) i1 (S j)).
      { revert T. generalize (k - 1) (S (m - k)). clear. intros a b. revert i.
        induction a as [|a IH]; cbn [times Nat.add]; intros i T; [eauto|].
        destruct T as (k1 & H1 & H2). destruct (IH _ H2) as (i1 & H3 & H4).
        exists i1. split; [|exact H4]. eauto. }
      destruct T' as (i1 & T1 & T2). apply times_snoc_inv in T2 as (k1 & T2 & T3).
      apply U in T1. apply Hup in T1.
      destruct (Hloop w _ _ _ T2 _ _ T1) as [P|(_ & ->)].
      * eapply path_trans; [exact P|]. apply Hup. now apply (l_m _ _ _ _ _ L).
      * eapply path_trans; [exact T1|]. apply Hup. now apply (l_m _ _ _ _ _ L).
  - intros w i j. split.
    + intros P.
      assert (HH : forall q j, path G2 w t i q j ->
                dom lb nl n' q /\
                (path G w t i q j \/
                 exists k1 m i1, C w i k1 /\ times (M w) m (S k1) i1 /\
                                 path G w lb i1 q j)).
      { clear P j. intros q j P. remember t as t0 eqn:Es in P.
        induction P as [|q i q1 i1 e P IH He Hg].
        - subst. split; [exact Htd|]. left. constructor.
        - specialize (IH Es). subst q. destruct IH as (Hd & IH).
          destruct (Nat.eq_dec q1 t) as [->|Hqt].
          + apply Hin in He as [He| ->].
            * split; [eapply D; eauto|].
              destruct IH as [IH|(k1 & m & i2 & HC & T & Q)]; [left|right].
              -- econstructor; eauto.
              -- exists k1, m, i2. split; [exact HC|]. split; [exact T|]. econstructor; eauto.
            * cbn. split; [exact Hlbd|]. right.
              destruct IH as [IH|(k1 & m & i2 & HC & T & Q)].
              -- exists i1, 0, (S i1). split; [now apply (l_c _ _ _ _ _ L)|].
                 split; [reflexivity|constructor].
              -- exists k1, (S m), (S i1). split; [exact HC|]. split; [|constructor].
                 eapply times_snoc; [exact T|]. now apply (l_m _ _ _ _ _ L).
          + rewrite HG in He by assumption. split; [eapply D; eauto|].
            destruct IH as [IH|(k1 & m & i2 & HC & T & Q)]; [left|right].
            * econstructor; eauto.
            * exists k1, m, i2. split; [exact HC|]. split; [exact T|]. econstructor; eauto. }
      destruct (HH t j P) as (_ & [Q|(k1 & m & i1 & HC & T & Q)]).
      * left. now apply (l_c _ _ _ _ _ L).
      * right. exists k1, m. split; [exact HC|]. eapply times_snoc; [exact T|].
        now apply (l_m _ _ _ _ _ L).
    + intros [HC|(k1 & m & HC & T)].
      * apply Hup. now apply (l_c _ _ _ _ _ L).
      * apply (l_c _ _ _ _ _ L) in HC. apply Hup in HC.
        apply times_snoc_inv in T as (k2 & T & HM).
        assert (P0 : path G2 w t i lb (S k1)) by (eapply path_trans; [exact HC|apply Hback]).
        destruct (Hloop w _ _ _ T _ _ P0) as [P|(_ & <-)].
        -- eapply path_trans; [exact P|]. apply Hup. now apply (l_m _ _ _ _ _ L).
        -- eapply path_trans; [exact P0|]. apply Hup. now apply (l_m _ _ _ _ _ L).
Qed.

(* Between [lo] and [k] copies. *)
Lemma lang_range lo k sk G s n n' t lb nl (M C : rel) :
  1 <= lo -> lo <= k -> (forall w i j, M w i j -> i < j) ->
  G sk = [] -> ~ dom s n n' sk ->
  chain lo 0 k sk G s n n' t lb nl M C ->
  lang (upd G sk [Edge EPS None t]) s t
       (fun w i j => exists m, lo <= m <= k /\ times (M w) m i j) C.
Proof.
  intros Hlo Hk Hpos HGs Hsk [R D L U K DN DS]. destruct R as (R1 & R2 & R3).
  set (G2 := upd G sk _).
  assert (HG : forall q, q <> sk -> G2 q = G q) by (intros; now apply upd_other).
  assert (Hs2 : G2 sk = [Edge EPS None t]) by apply upd_same.
  assert (Hup : forall w q i q' i', path G w q i q' i' -> path G2 w q i q' i').
  { intros w q i q' i'. apply (path_mono G G2 w (fun _ => True)).
    - intros ? ? _ _. exact Logic.I.
    - intros q0 _ e He. destruct (Nat.eq_dec q0 sk) as [->|Hq].
      + rewrite HGs in He. destruct He.
      + rewrite HG by assumption. exact He.
    - exact Logic.I. }
  assert (Htd : dom lb nl n' t) by (right; lia).
  assert (Hskd : ~ dom lb nl n' sk) by (intros H; apply Hsk; auto).
  split.
  - intros w i j. split.
    + intros P.
      assert (HH : forall q j, path G2 w s i q j ->
                path G w s i q j \/
                (dom lb nl n' q /\
                 exists c j0, lo <= c <= k /\ times (M w) c i (S j0) /\
                              path G w t j0 q j)).
      { clear P j. intros q j P. remember s as s0 eqn:Es in P.
        induction P as [|q i q1 i1 e P IH He Hg].
        - left. subst. constructor.
        - specialize (IH Es). subst q. destruct IH as [Q|(Hd & c & j0 & Hc & T & Q)].
          + destruct (Nat.eq_dec q1 sk) as [->|Hq].
            * rewrite Hs2 in He. destruct He as [<-|[]]. cbn. right.
              split; [exact Htd|].
              destruct (DS w i i1 Q Hsk) as (c & Hc & Hlc & T).
              exists c, i1. split; [lia|]. split; [exact T|constructor].
            * left. rewrite HG in He by assumption. econstructor; eauto.
          + right. rewrite HG in He by (intros ->; auto).
            split; [eapply D; eauto|]. exists c, j0. split; [exact Hc|].
            split; [exact T|]. econstructor; eauto. }
      destruct (HH t j P) as [Q|(_ & c & j0 & Hc & T & Q)].
      * destruct (DN w i t j Q Htd) as (i1 & T & Q'). exists k. split; [lia|].
        replace k with (S (k - 1)) by lia. eapply times_snoc; [exact T|].
        now apply (l_m _ _ _ _ _ L).
      * exists c. split; [exact Hc|]. destruct c as [|c]; [lia|].
        apply times_snoc_inv in T as (k1 & T & HM).
        eapply times_snoc; [exact T|]. apply (l_m _ _ _ _ _ L).
        apply (l_m _ _ _ _ _ L) in HM. eapply path_trans; eauto.
    + intros (m & Hm & T). destruct (Nat.eq_dec m k) as [->|Hmk].
      * replace k with (S (k - 1)) in T by lia.
        apply times_snoc_inv in T as (k1 & T & HM).
        apply Hup. eapply path_trans; [apply U; exact T|].
        now apply (l_m _ _ _ _ _ L).
      * assert (P : path G w s i sk j) by (apply (K w i j m); [lia|lia|exact T]).
        eapply path_trans; [apply Hup; exact P|].
        apply (path_one G2 w sk j (Edge EPS None t)); [|reflexivity].
        rewrite Hs2. left. reflexivity.
  - intros w i j. split.
    + intros P. apply (l_c _ _ _ _ _ L).
      assert (HH : forall q j, path G2 w t i q j -> dom lb nl n' q /\ path G w t i q j).
      { clear P j. intros q j P. remember t as t0 eqn:Es in P.
        induction P as [|q i q1 i1 e P IH He Hg].
        - subst. split; [exact Htd|constructor].
        - destruct (IH Es) as (Hd & Q). rewrite HG in He by (intros ->; auto).
          split; [eapply D; eauto|econstructor; eauto]. }
      apply (HH t j P).
    + intros HC. apply Hup. now apply (l_c _ _ _ _ _ L).
Qed.
