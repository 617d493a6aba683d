(* Removing the epsilon edges keeps what the automaton matches, and what the
   emitted code reports at run time. *)
From Coq Require Import List Arith Bool Lia Relations Wellfounded.
From Verif Require Import Base PslSpec PslModel PslGraph PslProofs.
Import ListNotations.

Lemma holds_and v a b : holds v (and_guard a b) = holds v a && holds v b.
Proof.
  unfold and_guard, make_binop.
  destruct a as [[p|p| |k l r]|], b as [[q|q| |k2 l2 r2]|]; cbn [holds eval_guard];
    rewrite ?andb_true_r; try reflexivity;
    (destruct (Nat.eqb_spec p q) as [->|_]; cbn [holds eval_guard]; [|reflexivity];
     rewrite andb_diag; reflexivity).
Qed.

Lemma ereach_trans G v a b c : ereach G v a b -> ereach G v b c -> ereach G v a c.
Proof. intros H1 H2. induction H1; [exact H2|]. econstructor; eauto. Qed.

Lemma ewalk_trans G a b c : ewalk G a b -> ewalk G b c -> ewalk G a c.
Proof.
  intros H1 H2. induction H2 as [|b c1 e H2 IH He Hk]; [exact H1|].
  exact (ew_snoc _ _ _ _ (IH H1) He Hk).
Qed.

Lemma ewalk_step G q e c : In e (G q) -> ek e = EPS -> ewalk G (dst e) c -> ewalk G q c.
Proof.
  intros H1 H2 H3. eapply ewalk_trans; [|exact H3].
  exact (ew_snoc _ _ _ _ (ew_refl _ q) H1 H2).
Qed.

Lemma ereach_walk G v a b : ereach G v a b -> ewalk G a b.
Proof. intros H. induction H; [constructor|]. eapply ewalk_step; eauto. Qed.

(* No epsilon cycle through a state that is accessible. *)
Lemma acc_irrefl {A} (R : A -> A -> Prop) x : Acc R x -> ~ R x x.
Proof. intros H. induction H as [x _ IH]. intros HR. exact (IH x HR HR). Qed.

Lemma acc_no_cycle G q : Acc (eps_rel G) q ->
  forall e, In e (G q) -> ek e = EPS -> ~ ewalk G (dst e) q.
Proof.
  intros HA e He Hk HW. apply Acc_clos_trans in HA.
  apply (acc_irrefl _ _ HA).
  assert (HP : forall a b, ewalk G a b -> forall z, eps_rel G a z ->
                 clos_trans nat (eps_rel G) b z).
  { intros a b H. induction H as [a|a b1 x H IH Hx Hkx]; intros z Hz.
    - apply t_step. exact Hz.
    - eapply t_trans; [|exact (IH z Hz)]. apply t_step. exists x. auto. }
  apply (HP _ _ HW). exists e. auto.
Qed.

(* ---- the automaton before, and one processed state ---- *)
Record good (G : graph) (N T : nat) : Prop := {
  g_shape : forall q, shape (G q);
  g_dst : forall q e, In e (G q) -> dst e < N;
  g_acc : forall q, Acc (eps_rel G) q;
  g_T : T < N /\ forall e, In e (G T) -> ek e = NEXT;
  g_ord : forall q, ordered G q }.

Section Simp.
Variables (G : graph) (N T : nat).
Hypothesis HG : good G N T.

(* [q]'s list consists of NEXT edges that stand for the NEXT edges of the
   states reached by epsilon edges; the first one to each state is enabled
   whenever some is. *)
Record ready (f : fsm) (q : nat) : Prop := {
  r_next : forall e, In e (edges f q) -> ek e = NEXT;
  r_from : forall e, In e (edges f q) ->
    exists c x, ewalk G q c /\ In x (G c) /\ ek x = NEXT /\ dst x = dst e /\
                forall v, holds v (eg e) = true <-> ereach G v q c;
  r_first : forall v c x, ereach G v q c -> In x (G c) -> ek x = NEXT ->
    exists A e B, edges f q = A ++ e :: B /\ (forall a, In a A -> dst a <> dst x) /\
                  dst e = dst x /\ holds v (eg e) = true;
  r_acc : forall v, acc f q && holds v (ag f q) = true <-> ereach G v q T }.

Definition fresh (f : fsm) (q : nat) : Prop :=
  edges f q = G q /\ acc f q = (q =? T) /\ ag f q = None.

Definition same (f f' : fsm) (q : nat) : Prop :=
  edges f' q = edges f q /\ acc f' q = acc f q /\ ag f' q = ag f q.

Lemma same_trans f1 f2 f3 q : same f1 f2 q -> same f2 f3 q -> same f1 f3 q.
Proof. intros (A & B & C) (D & E & F). split; [|split]; congruence. Qed.

Lemma ready_same f f' q : same f f' q -> ready f q -> ready f' q.
Proof.
  intros (A & B & C) [R1 R2 R3 R4]. split.
  - rewrite A. exact R1.
  - rewrite A. exact R2.
  - rewrite A. exact R3.
  - rewrite B, C. exact R4.
Qed.

(* The loop over NEXT edges only. *)
Lemma loop_next rec q todo : (forall e, In e todo -> ek e = NEXT) ->
  forall steps f vis done, length todo < steps ->
  simplify_loop rec q steps f vis done todo = Ok (set_edges f q (done ++ todo), vis).
Proof.
  induction todo as [|e todo IH]; intros HN steps f vis done Hs;
    (destruct steps as [|steps]; [cbn in Hs; lia|]).
  - cbn. rewrite app_nil_r. reflexivity.
  - cbn [simplify_loop]. rewrite (HN e (or_introl eq_refl)).
    cbn [length] in Hs.
    change ((fix loop (steps : nat) (f : fsm) (visited : nat -> bool)
               (done todo : list edge) {struct steps} : res (fsm * (nat -> bool)) := _)
            steps f vis (done ++ [e]) todo)
      with (simplify_loop rec q steps f vis (done ++ [e]) todo).
    rewrite IH; [|intros x Hx; apply HN; right; exact Hx|lia].
    rewrite <- app_assoc. reflexivity.
Qed.

Lemma loop_skip rec q A rest : (forall e, In e A -> ek e = NEXT) ->
  forall steps f vis done, 
  simplify_loop rec q (length A + steps) f vis done (A ++ rest) =
  simplify_loop rec q steps f vis (done ++ A) rest.
Proof.
  induction A as [|e A IH]; intros HN steps f vis done.
  - cbn [length app Nat.add]. rewrite app_nil_r. reflexivity.
  - cbn [length Nat.add app simplify_loop]. rewrite (HN e (or_introl eq_refl)).
    change ((fix loop (steps : nat) (f : fsm) (visited : nat -> bool)
               (done todo : list edge) {struct steps} : res (fsm * (nat -> bool)) := _)
            (length A + steps) f vis (done ++ [e]) (A ++ rest))
      with (simplify_loop rec q (length A + steps) f vis (done ++ [e]) (A ++ rest)).
    rewrite IH; [|intros x Hx; apply HN; right; exact Hx].
    rewrite <- app_assoc. reflexivity.
Qed.

(* Adding a list of NEXT edges: what is appended, and what is not left out. *)
Definition guarded (g : option guard) (e : edge) : edge :=
  Edge (ek e) (and_guard g (eg e)) (dst e).

Lemma inserts g more : forall l,
  exists K, fold_left (fun l e2 => insert_edge l (guarded g e2)) more l = l ++ K /\
    (forall k, In k K -> exists e, In e more /\ k = guarded g e) /\
    (forall A e B, more = A ++ e :: B -> (forall a, In a A -> dst a <> dst e) ->
       (forall x, In x l -> ek x = ek e -> dst x <> dst e) ->
       exists K1 K2, K = K1 ++ guarded g e :: K2 /\ forall a, In a K1 -> dst a <> dst e).
Proof.
  induction more as [|e more IH]; intros l.
  - exists []. cbn. rewrite app_nil_r. split; [reflexivity|]. split; [intros k []|].
    intros A e B H. destruct A; discriminate H.
  - cbn [fold_left].
    assert (Hins : exists K0, insert_edge l (guarded g e) = l ++ K0 /\
              (K0 = [] \/ K0 = [guarded g e]) /\
              ((forall x, In x l -> ek x = ek e -> dst x <> dst e) -> K0 = [guarded g e])).
    { unfold insert_edge. destruct (existsb _ l) eqn:E.
      - exists []. rewrite app_nil_r. split; [reflexivity|]. split; [auto|].
        intros H. exfalso. apply existsb_exists in E as (x & Hx & E).
        apply andb_true_iff in E as (E & _). apply andb_true_iff in E as (E1 & E2).
        apply kind_eqb_spec in E1. apply Nat.eqb_eq in E2. exact (H x Hx E1 E2).
      - eexists. split; [reflexivity|]. auto. }
    destruct Hins as (K0 & HK0 & HK1 & HK2). rewrite HK0.
    destruct (IH (l ++ K0)) as (K & H1 & H2 & H3).
    exists (K0 ++ K). split; [rewrite H1, app_assoc; reflexivity|]. split.
    + intros k Hk. apply in_app_or in Hk as [Hk|Hk].
      * destruct HK1 as [->| ->]; [destruct Hk|]. destruct Hk as [<-|[]].
        exists e. split; [left; reflexivity|reflexivity].
      * destruct (H2 k Hk) as (x & Hx & ->). exists x. split; [right; exact Hx|reflexivity].
    + intros A x B HA HnA Hnl. destruct A as [|a A]; cbn [app] in HA.
      * injection HA as -> ->. rewrite (HK2 Hnl). exists [], K. split; [reflexivity|].
        intros a [].
      * injection HA as -> ->.
        destruct (H3 A x B eq_refl) as (K1 & K2 & HK & HN).
        -- intros y Hy. apply HnA. right. exact Hy.
        -- intros y Hy Hk. apply in_app_or in Hy as [Hy|Hy]; [auto|].
           destruct HK1 as [->| ->]; [destruct Hy|]. destruct Hy as [<-|[]].
           cbn. apply (HnA a). left. reflexivity.
        -- exists (K0 ++ K1), K2. rewrite HK, <- app_assoc. split; [reflexivity|].
           intros y Hy. apply in_app_or in Hy as [Hy|Hy]; [|auto].
           destruct HK1 as [->| ->]; [destruct Hy|]. destruct Hy as [<-|[]].
           cbn. apply (HnA a). left. reflexivity.
Qed.

(* States without epsilon edges are ready as they are. *)
Lemma ready_plain f q : (forall e, In e (G q) -> ek e = NEXT) -> fresh f q -> ready f q.
Proof.
  intros HN (E1 & E2 & E3).
  assert (HR : forall v c, ereach G v q c -> c = q).
  { intros v c H. destruct H as [|q e c He Hk _ _]; [reflexivity|].
    rewrite (HN e He) in Hk. discriminate. }
  assert (Hnone : forall e, In e (G q) -> eg e = None).
  { intros e He. destruct (g_shape _ _ _ HG q) as (S1 & _). auto. }
  split.
  - rewrite E1. exact HN.
  - rewrite E1. intros e He. exists q, e. split; [constructor|]. split; [exact He|].
    split; [auto|]. split; [reflexivity|]. intros v. rewrite (Hnone e He).
    split; intros _; [constructor|reflexivity].
  - rewrite E1. intros v c x HC Hx Hk. apply HR in HC. subst c.
    assert (HF : forall l, In x l -> (forall e, In e l -> In e (G q)) ->
              exists A e B, l = A ++ e :: B /\ (forall a, In a A -> dst a <> dst x) /\
                 dst e = dst x /\ holds v (eg e) = true).
    { induction l as [|y l IH]; intros Hin Hsub; [destruct Hin|].
      destruct (Nat.eq_dec (dst y) (dst x)) as [Hd|Hd].
      - exists [], y, l. split; [reflexivity|]. split; [intros a []|]. split; [exact Hd|].
        rewrite Hnone; [reflexivity|]. apply Hsub. left. reflexivity.
      - destruct Hin as [->|Hin]; [congruence|].
        destruct (IH Hin) as (A & e & B & H1 & H2 & H3 & H4).
        { intros z Hz. apply Hsub. right. exact Hz. }
        exists (y :: A), e, B. rewrite H1. split; [reflexivity|]. split; [|auto].
        intros a [<-|Ha]; auto. }
    apply HF; auto.
  - intros v. rewrite E2, E3. cbn [holds]. rewrite andb_true_r. split.
    + intros H. apply Nat.eqb_eq in H. subst. constructor.
    + intros H. apply HR in H. apply Nat.eqb_eq. congruence.
Qed.

(* The one epsilon edge of [q] replaced by the edges of its target. *)
Lemma ready_eps f1 q A e B first more K :
  G q = A ++ e :: B -> ek e = EPS -> ready f1 (dst e) ->
  edges f1 (dst e) = first :: more ->
  (forall k, In k K -> exists x, In x more /\ k = guarded (eg e) x) ->
  (forall A' x B', more = A' ++ x :: B' -> (forall a, In a A' -> dst a <> dst x) ->
     (forall y, In y (A ++ e :: B) -> ek y = ek x -> dst y <> dst x) ->
     exists K1 K2, K = K1 ++ guarded (eg e) x :: K2 /\ forall a, In a K1 -> dst a <> dst x) ->
  forall f, edges f q = A ++ guarded (eg e) first :: B ++ K ->
  (forall v, acc f q && holds v (ag f q) = true <-> ereach G v q T) ->
  ready f q.
Proof.
  intros HQ Hk R HE HK1 HK2 f Hf Hacc.
  destruct (g_shape _ _ _ HG q) as (S1 & S2 & S3). rewrite HQ in S1, S2, S3.
  assert (Hin : In e (G q)) by (rewrite HQ; apply in_or_app; right; left; reflexivity).
  assert (HAB : forall x, In x (A ++ B) -> ek x = NEXT /\ eg x = None /\ In x (G q)).
  { intros x Hx. assert (ek x = NEXT) by (eapply S3; eauto). split; [assumption|].
    assert (Hx' : In x (A ++ e :: B)).
    { apply in_app_or in Hx as [Hx|Hx]; apply in_or_app; [left|right; right]; exact Hx. }
    split; [apply S1; assumption|]. rewrite HQ. exact Hx'. }
  (* the epsilon walks from [q] *)
  assert (HR : forall v c, ereach G v q c ->
            c = q \/ (holds v (eg e) = true /\ ereach G v (dst e) c)).
  { intros v c H. destruct H as [|q' e' c He' Hk' Hh HR]; [left; reflexivity|]. right.
    assert (e' = e).
    { rewrite HQ in He'. apply in_app_or in He' as [He'|[->|He']]; [|reflexivity|].
      - destruct (HAB e') as (N1 & _); [apply in_or_app; left; exact He'|congruence].
      - destruct (HAB e') as (N1 & _); [apply in_or_app; right; exact He'|congruence]. }
    subst e'. auto. }
  assert (HRR : forall v c, holds v (eg e) = true -> ereach G v (dst e) c -> ereach G v q c).
  { intros v c H1 H2. econstructor; eauto. }
  assert (Hno : ~ ewalk G (dst e) q) by (apply (acc_no_cycle G q (g_acc _ _ _ HG q) e Hin Hk)).
  (* the edges that come from the target *)
  assert (Hfrom : forall x, In x (first :: more) ->
            ek (guarded (eg e) x) = NEXT /\
            exists c y, ewalk G (dst e) c /\ In y (G c) /\ ek y = NEXT /\
                        dst y = dst x /\
                        forall v, holds v (eg (guarded (eg e) x)) = true <-> ereach G v q c).
  { intros x Hx. rewrite <- HE in Hx. split; [apply (r_next _ _ R x Hx)|].
    destruct (r_from _ _ R x Hx) as (c & y & W & Hy & Hky & Hd & HV).
    exists c, y. split; [exact W|]. split; [exact Hy|]. split; [exact Hky|].
    split; [exact Hd|]. intros v. cbn [guarded eg]. rewrite holds_and.
    rewrite andb_true_iff, HV. split.
    - intros (H1 & H2). auto.
    - intros H. destruct (HR v c H) as [->|H']; [contradiction|exact H']. }
  assert (Hall : forall x, In x (edges f q) ->
            In x (A ++ B) \/ exists y, In y (first :: more) /\ x = guarded (eg e) y).
  { intros x Hx. rewrite Hf in Hx. apply in_app_or in Hx as [Hx|[<-|Hx]].
    - left. apply in_or_app. auto.
    - right. exists first. split; [left; reflexivity|reflexivity].
    - apply in_app_or in Hx as [Hx|Hx]; [left; apply in_or_app; auto|].
      right. destruct (HK1 x Hx) as (y & Hy & ->). exists y. split; [right; exact Hy|reflexivity]. }
  split.
  - intros x Hx. destruct (Hall x Hx) as [H|(y & Hy & ->)]; [apply HAB; exact H|].
    apply Hfrom. exact Hy.
  - intros x Hx. destruct (Hall x Hx) as [H|(y & Hy & ->)].
    + destruct (HAB x H) as (N1 & N2 & N3). exists q, x.
      split; [constructor|]. split; [exact N3|]. split; [exact N1|].
      split; [reflexivity|]. intros v. rewrite N2. split; intros _; [constructor|reflexivity].
    + destruct (Hfrom y Hy) as (_ & c & z & W & Hz & Hkz & Hd & HV).
      exists c, z. split; [eapply ewalk_step; eauto|]. auto.
  - intros v c x HC Hx Hkx.
    (* is there an edge of [q] itself before the epsilon edge? *)
    assert (Hfind : forall l, (exists y, In y l /\ dst y = dst x) \/
                              (forall y, In y l -> dst y <> dst x)).
    { induction l as [|y l IH]; [right; intros y []|].
      destruct (Nat.eq_dec (dst y) (dst x)) as [Hd|Hd]; [left; exists y; split; [left|]; auto|].
      destruct IH as [(z & Hz & Hdz)|IH]; [left; exists z; split; [right|]; auto|].
      right. intros z [<-|Hz]; auto. }
    assert (Hpick : forall l, (exists y, In y l /\ dst y = dst x) ->
              exists L y R', l = L ++ y :: R' /\ (forall a, In a L -> dst a <> dst x) /\
                             dst y = dst x).
    { induction l as [|y l IH]; intros (z & Hz & Hdz); [destruct Hz|].
      destruct (Nat.eq_dec (dst y) (dst x)) as [Hd|Hd].
      - exists [], y, l. split; [reflexivity|]. split; [intros a []|exact Hd].
      - destruct Hz as [->|Hz]; [congruence|].
        destruct IH as (L & y' & R' & -> & H1 & H2); [eauto|].
        exists (y :: L), y', R'. split; [reflexivity|]. split; [|exact H2].
        intros a [<-|Ha]; auto. }
    destruct (Hfind A) as [HA|HA].
    { destruct (Hpick A HA) as (L & y & R' & EA & H1 & H2).
      exists L, y, (R' ++ guarded (eg e) first :: B ++ K).
      split; [rewrite Hf, EA, <- app_assoc; reflexivity|].
      split; [exact H1|]. split; [exact H2|].
      destruct (HAB y) as (_ & -> & _); [|reflexivity].
      apply in_or_app. left. rewrite EA. apply in_or_app. right. left. reflexivity. }
    destruct (Nat.eq_dec (dst first) (dst x)) as [Hd|Hd].
    { exists A, (guarded (eg e) first), (B ++ K). split; [exact Hf|]. split; [exact HA|].
      split; [exact Hd|].
      destruct (HR v c HC) as [->|(Hh & HC')].
      - (* the edge is one of [q]'s own, after the epsilon edge *)
        assert (HB : In x B).
        { rewrite HQ in Hx. apply in_app_or in Hx as [Hx|[->|Hx]]; [|congruence|exact Hx].
          destruct (HA x Hx eq_refl). }
        destruct (Hfrom first (or_introl eq_refl)) as (_ & c' & y & W & Hy & Hky & Hdy & HV).
        apply HV. eapply (g_ord _ _ _ HG q A e B HQ Hk x c' y HB W Hy Hky). congruence.
      - cbn [guarded eg]. rewrite holds_and, Hh. cbn [andb].
        destruct (r_first _ _ R v c x HC' Hx Hkx) as (A' & e' & B' & HE' & H1 & H2 & H3).
        rewrite HE in HE'. destruct A' as [|a A']; cbn [app] in HE'.
        + injection HE' as -> ->. exact H3.
        + injection HE' as <- _. exfalso. apply (H1 first); [left; reflexivity|exact Hd]. }
    destruct (Hfind B) as [HB|HB].
    { destruct (Hpick B HB) as (L & y & R' & EB & H1 & H2).
      exists (A ++ guarded (eg e) first :: L), y, (R' ++ K).
      split; [rewrite Hf, EB, <- !app_assoc; reflexivity|].
      split.
      { intros a Ha. apply in_app_or in Ha as [Ha|[<-|Ha]]; auto. }
      split; [exact H2|].
      destruct (HAB y) as (_ & -> & _); [|reflexivity].
      apply in_or_app. right. rewrite EB. apply in_or_app. right. left. reflexivity. }
    destruct (HR v c HC) as [->|(Hh & HC')].
    { exfalso. rewrite HQ in Hx. apply in_app_or in Hx as [Hx|[->|Hx]]; [|congruence|].
      - exact (HA x Hx eq_refl).
      - exact (HB x Hx eq_refl). }
    destruct (r_first _ _ R v c x HC' Hx Hkx) as (A' & e' & B' & HE' & H1 & H2 & H3).
    rewrite HE in HE'. destruct A' as [|a A']; cbn [app] in HE'.
    { injection HE' as -> ->. congruence. }
    injection HE' as <- HM.
    assert (Hke : ek e' = NEXT).
    { apply (r_next _ _ R). rewrite HE, HM. right. apply in_or_app. right. left. reflexivity. }
    destruct (HK2 A' e' B' HM) as (K1 & K2 & HKK & HKN).
    + intros a Ha. rewrite H2. apply H1. right. exact Ha.
    + intros y Hy Hky. rewrite H2.
      apply in_app_or in Hy as [Hy|[<-|Hy]]; [auto|congruence|auto].
    + exists (A ++ guarded (eg e) first :: B ++ K1), (guarded (eg e) e'), K2.
      split; [rewrite Hf, HKK, <- !app_assoc; cbn [app]; rewrite <- app_assoc; reflexivity|].
      split.
      { intros a Ha. apply in_app_or in Ha as [Ha|[<-|Ha]]; auto.
        apply in_app_or in Ha as [Ha|Ha]; auto. rewrite <- H2. auto. }
      split; [exact H2|]. cbn [guarded eg]. rewrite holds_and, Hh. exact H3.
  - exact Hacc.
Qed.

(* The same when the target has no edges. *)
Lemma ready_drop f1 q A e B :
  G q = A ++ e :: B -> ek e = EPS -> ready f1 (dst e) ->
  edges f1 (dst e) = [] ->
  forall f, edges f q = A ++ B ->
  (forall v, acc f q && holds v (ag f q) = true <-> ereach G v q T) ->
  ready f q.
Proof.
  intros HQ Hk R HE f Hf Hacc.
  destruct (g_shape _ _ _ HG q) as (S1 & S2 & S3). rewrite HQ in S1, S2, S3.
  assert (HAB : forall x, In x (A ++ B) -> ek x = NEXT /\ eg x = None /\ In x (G q)).
  { intros x Hx. assert (ek x = NEXT) by (eapply S3; eauto). split; [assumption|].
    assert (Hx' : In x (A ++ e :: B)).
    { apply in_app_or in Hx as [Hx|Hx]; apply in_or_app; [left|right; right]; exact Hx. }
    split; [apply S1; assumption|]. rewrite HQ. exact Hx'. }
  split.
  - intros x Hx. rewrite Hf in Hx. apply HAB. exact Hx.
  - intros x Hx. rewrite Hf in Hx. destruct (HAB x Hx) as (N1 & N2 & N3). exists q, x.
    split; [constructor|]. split; [exact N3|]. split; [exact N1|].
    split; [reflexivity|]. intros v. rewrite N2. split; intros _; [constructor|reflexivity].
  - intros v c x HC Hx Hkx.
    assert (Hc : c = q).
    { destruct HC as [|q' e' c He' Hk' Hh HR]; [reflexivity|]. exfalso.
      assert (e' = e).
      { rewrite HQ in He'. apply in_app_or in He' as [He'|[->|He']]; [|reflexivity|].
        - destruct (HAB e') as (N1 & _); [apply in_or_app; left; exact He'|congruence].
        - destruct (HAB e') as (N1 & _); [apply in_or_app; right; exact He'|congruence]. }
      subst e'. destruct (r_first _ _ R v c x HR Hx Hkx) as (A' & e' & B' & HE' & _).
      rewrite HE in HE'. destruct A'; discriminate HE'. }
    subst c. rewrite Hf.
    assert (Hx' : In x (A ++ B)).
    { rewrite HQ in Hx. apply in_app_or in Hx as [Hx|[->|Hx]]; [|congruence|];
        apply in_or_app; auto. }
    revert Hx' HAB. generalize (A ++ B). intros l. induction l as [|y l IH]; intros Hin HAB;
      [destruct Hin|].
    destruct (Nat.eq_dec (dst y) (dst x)) as [Hd|Hd].
    + exists [], y, l. split; [reflexivity|]. split; [intros a []|]. split; [exact Hd|].
      destruct (HAB y (or_introl eq_refl)) as (_ & -> & _). reflexivity.
    + destruct Hin as [->|Hin]; [congruence|].
      destruct (IH Hin) as (A' & e' & B' & H1 & H2 & H3 & H4).
      { intros z Hz. apply HAB. right. exact Hz. }
      exists (y :: A'), e', B'. rewrite H1. split; [reflexivity|]. split; [|auto].
      intros a [<-|Ha]; auto.
  - exact Hacc.
Qed.

Lemma skipn_past (A : list edge) e R : skipn (S (length A)) (A ++ e :: R) = R.
Proof. induction A as [|a A IH]; [reflexivity|]. exact IH. Qed.

Lemma split_eps (l : list edge) :
  (forall e, In e l -> ek e = NEXT) \/
  exists A e B, l = A ++ e :: B /\ ek e = EPS /\ forall a, In a A -> ek a = NEXT.
Proof.
  induction l as [|y l IH]; [left; intros e []|].
  destruct (ek y) eqn:Ey.
  - destruct IH as [IH|(A & e & B & -> & H1 & H2)].
    + left. intros e [<-|He]; auto.
    + right. exists (y :: A), e, B. split; [reflexivity|]. split; [exact H1|].
      intros a [<-|Ha]; auto.
  - right. exists [], y, l. split; [reflexivity|]. split; [exact Ey|]. intros a [].
Qed.

(* What a call of the search leaves behind. *)
Record result (f : fsm) (vis : nat -> bool) (f' : fsm) (vis' : nat -> bool) : Prop := {
  t_next : next f' = next f;
  t_old : forall x, vis x = true -> vis' x = true /\ same f f' x;
  t_new : forall x, vis' x = true -> vis x = true \/ ready f' x;
  t_rest : forall x, vis' x = false -> same f f' x }.

Lemma same_set f f' q l : same f f' q -> edges f q = l -> forall x, same f f' x ->
  same f (set_edges f' q l) x.
Proof.
  intros (E & _ & _) <- x (H1 & H2 & H3). unfold set_edges, same. cbn [edges acc ag].
  split; [|auto]. unfold upd. destruct (Nat.eqb_spec x q) as [->|_]; [reflexivity|exact H1].
Qed.

Lemma dfs_ok q : Acc (eps_rel G) q -> forall f vis, vis q = false ->
  (forall x, vis x = true -> ready f x \/ (x <> q /\ ewalk G x q)) ->
  (forall x, vis x = false -> fresh f x) ->
  exists n f' vis',
    (forall fuel, n <= fuel -> simplify_dfs fuel f vis q = Ok (f', vis')) /\
    vis' q = true /\ ready f' q /\ result f vis f' vis'.
Proof.
  induction 1 as [q HAq IH]. intros f vis Hv Hvis Hfresh.
  pose proof (Hfresh q Hv) as (F1 & F2 & F3).
  destruct (split_eps (G q)) as [HN|(A & e & B & HQ & Hk & HA)].
  - (* no epsilon edge *)
    exists (S (S (length (G q)))), (set_edges f q ([] ++ G q)), (upd vis q true).
    split; [|split; [|split]].
    + intros fuel Hf. destruct fuel as [|fuel]; [lia|]. cbn [simplify_dfs].
      rewrite F1. apply loop_next; [exact HN|lia].
    + apply upd_same.
    + apply ready_plain; [exact HN|]. unfold fresh, set_edges. cbn [edges acc ag].
      rewrite upd_same. auto.
    + assert (Hs : forall x, same f (set_edges f q ([] ++ G q)) x).
      { intros x. apply same_set; [repeat split|exact F1|repeat split]. }
      split; [reflexivity| | |].
      * intros x Hx. split; [|apply Hs]. unfold upd. destruct (x =? q); auto.
      * intros x Hx. unfold upd in Hx. destruct (Nat.eqb_spec x q) as [E|_]; [subst x|left; exact Hx].
        right. apply ready_plain; [exact HN|]. unfold fresh, set_edges. cbn [edges acc ag].
        rewrite upd_same. auto.
      * intros x _. apply Hs.
  - (* the epsilon edge [e] *)
    set (c := dst e).
    assert (Hin : In e (G q)) by (rewrite HQ; apply in_or_app; right; left; reflexivity).
    assert (Hno : ~ ewalk G c q) by (apply (acc_no_cycle G q (g_acc _ _ _ HG q) e Hin Hk)).
    assert (Hcq : c <> q) by (intros E; apply Hno; rewrite E; constructor).
    assert (HqT : q <> T).
    { intros E. destruct (g_T _ _ _ HG) as (_ & HT). rewrite E in Hin.
      rewrite (HT e Hin) in Hk. discriminate. }
    assert (HwB : forall b, In b B -> ek b = NEXT).
    { intros b Hb. destruct (g_shape _ _ _ HG q) as (_ & _ & S3). rewrite HQ in S3.
      apply (S3 A e B eq_refl Hk). apply in_or_app. right. exact Hb. }
    set (f0 := set_edges f q (A ++ e :: B)).
    assert (Hs0 : forall x, same f f0 x).
    { intros x. apply same_set; [repeat split|rewrite F1; exact HQ|repeat split]. }
    set (vis0 := upd vis q true).
    (* the recursive call, if there is one *)
    assert (Hrec : exists n f1 vis1,
      (forall fuel, n <= fuel ->
         (if vis0 c then Ok (f0, vis0) else simplify_dfs fuel f0 vis0 c) = Ok (f1, vis1)) /\
      ready f1 c /\ result f0 vis0 f1 vis1).
    { destruct (vis0 c) eqn:Ec.
      - exists 0, f0, vis0. split; [reflexivity|]. split.
        + unfold vis0 in Ec. rewrite upd_other in Ec by exact Hcq.
          destruct (Hvis c Ec) as [R|(_ & W)]; [|contradiction].
          exact (ready_same _ _ _ (Hs0 c) R).
        + split; [reflexivity| | |]; auto. all: intros; repeat split; auto.
      - destruct (IH c ltac:(exists e; auto) f0 vis0 Ec) as (n & f1 & vis1 & H1 & H2 & H3 & H4).
        + intros x Hx. unfold vis0, upd in Hx.
          destruct (Nat.eqb_spec x q) as [Exq|Hxq]; [subst x|].
          * right. split; [auto|].
            apply (ewalk_step _ _ e); [exact Hin|exact Hk|constructor].
          * destruct (Hvis x Hx) as [R|(_ & W)].
            -- left. exact (ready_same _ _ _ (Hs0 x) R).
            -- right. split.
               ++ intros ->. contradiction.
               ++ apply (ewalk_trans _ _ q); [exact W|].
                  apply (ewalk_step _ _ e); [exact Hin|exact Hk|constructor].
        + intros x Hx. unfold vis0, upd in Hx.
          destruct (Nat.eqb_spec x q) as [Exq|Hxq]; [discriminate|].
          destruct (Hfresh x Hx) as (X1 & X2 & X3). destruct (Hs0 x) as (Y1 & Y2 & Y3).
          split; [congruence|]. split; congruence.
        + exists n, f1, vis1. auto. }
    destruct Hrec as (n & f1 & vis1 & HR1 & HR2 & [T1 T2 T3 T4]).
    assert (Hvq : vis0 q = true) by apply upd_same.
    destruct (T2 q Hvq) as (Hv1q & E1 & E2 & E3).
    set (f2 := if acc f1 c then
              Fsm (next f1) (edges f1) (upd (acc f1) q true)
                  (upd (ag f1) q (or_guard (ag f1 q) (and_guard (eg e) (ag f1 c))))
            else f1).
    assert (H2e : edges f2 = edges f1) by (unfold f2; destruct (acc f1 c); reflexivity).
    assert (H2n : next f2 = next f1) by (unfold f2; destruct (acc f1 c); reflexivity).
    assert (H2o : forall x, x <> q -> acc f2 x = acc f1 x /\ ag f2 x = ag f1 x).
    { intros x Hx. unfold f2. destruct (acc f1 c); [|auto]. cbn [acc ag].
      rewrite !upd_other by exact Hx. auto. }
    (* acceptance *)
    assert (Hacc : forall v, acc f2 q && holds v (ag f2 q) = true <-> ereach G v q T).
    { intros v. destruct (Hs0 q) as (_ & Y2 & Y3).
      assert (Hrq : ereach G v q T <-> holds v (eg e) = true /\ ereach G v c T).
      { split.
        - intros H. inversion H as [E|q' e' t He' Hk' Hh HR]; [congruence|]. subst.
          assert (e' = e).
          { rewrite HQ in He'. apply in_app_or in He' as [He'|[->|He']]; [|reflexivity|].
            - rewrite (HA e' He') in Hk'. discriminate.
            - rewrite (HwB e' He') in Hk'. discriminate. }
          subst e'. auto.
        - intros (Hh & HR). econstructor; eauto. }
      rewrite Hrq, <- (r_acc _ _ HR2 v). unfold f2.
      destruct (acc f1 c) eqn:Eac; cbn [acc ag].
      - rewrite !upd_same. rewrite E3, Y3, F3.
        change (or_guard None ?x) with x.
        cbn [andb]. rewrite holds_and, andb_true_iff. reflexivity.
      - rewrite E2, Y2, F2. apply Nat.eqb_neq in HqT. rewrite HqT. cbn [andb].
        split; [discriminate|intros (_ & H); discriminate H]. }
    (* the edges *)
    assert (Hout : exists m l,
      (forall fuel, n <= fuel -> forall k,
         simplify_loop (simplify_dfs fuel) q (length A + S (m + k)) f vis0 [] (A ++ e :: B)
         = Ok (set_edges f2 q l, vis1)) /\
      forall f', edges f' q = l -> acc f' q = acc f2 q -> ag f' q = ag f2 q -> ready f' q).
    { destruct (edges f2 c) as [|first more] eqn:Ec.
      - exists (S (length B)), ((([] ++ A)) ++ B). split.
        + intros fuel Hfu k. rewrite loop_skip by exact HA.
          cbn [simplify_loop]. rewrite Hk.
          fold f0 c. cbn [app]. change (set_edges f q (A ++ e :: B)) with f0.
          rewrite (HR1 fuel Hfu). cbn [bind]. fold f2. rewrite Ec.
          apply loop_next; [exact HwB|lia].
        + intros f' H1 H2 H3. eapply (ready_drop f1 q A e B HQ Hk HR2).
          * rewrite <- H2e. exact Ec.
          * exact H1.
          * intros v. rewrite H2, H3. apply Hacc.
      - destruct (inserts (eg e) more (A ++ e :: B)) as (K & K1 & K2 & K3).
        assert (Ec1 : edges f1 c = first :: more) by (rewrite <- H2e; exact Ec).
        assert (HKn : forall x, In x (B ++ K) -> ek x = NEXT).
        { intros x Hx. apply in_app_or in Hx as [Hx|Hx]; [auto|].
          destruct (K2 x Hx) as (y & Hy & ->). cbn [guarded ek].
          apply (r_next _ _ HR2). fold c. rewrite Ec1. right. exact Hy. }
        exists (S (length (B ++ K))), ((([] ++ A) ++ [guarded (eg e) first]) ++ B ++ K). split.
        + intros fuel Hfu k. rewrite loop_skip by exact HA.
          cbn [simplify_loop]. rewrite Hk.
          cbn [app]. change (set_edges f q (A ++ e :: B)) with f0.
          fold c. rewrite (HR1 fuel Hfu). cbn [bind]. fold f2. rewrite Ec.
          replace (forallb _ (first :: more)) with true.
          2:{ symmetry. apply forallb_forall. intros x Hx. apply kind_eqb_spec.
              apply (r_next _ _ HR2). fold c. rewrite Ec1. exact Hx. }
          unfold guarded in K1. rewrite K1.
          replace (skipn (S (length A)) ((A ++ e :: B) ++ K)) with (B ++ K).
          2:{ rewrite <- app_assoc. cbn [app]. symmetry. apply skipn_past. }
          apply loop_next; [exact HKn|lia].
        + intros f' H1 H2 H3.
          eapply (ready_eps f1 q A e B first more K HQ Hk HR2 Ec1 K2).
          * intros A' x B' HM Hn Hy. exact (K3 A' x B' HM Hn Hy).
          * rewrite H1. cbn [app]. rewrite <- app_assoc. reflexivity.
          * intros v. rewrite H2, H3. apply Hacc. }
    destruct Hout as (m & l & HO & HRdy).
    set (f' := set_edges f2 q l).
    assert (HRq : ready f' q).
    { apply HRdy; [apply upd_same|reflexivity|reflexivity]. }
    assert (Hso : forall x, x <> q -> same f1 f' x).
    { intros x Hx. destruct (H2o x Hx) as (O1 & O2). unfold f', set_edges, same.
      cbn [edges acc ag]. rewrite upd_other by exact Hx. rewrite H2e. auto. }
    exists (S (n + length A + S m)), f', vis1. split; [|split; [|split]].
    + intros fuel Hf. destruct fuel as [|fuel]; [lia|]. cbn [simplify_dfs].
      rewrite F1, HQ. fold vis0.
      replace (S fuel) with (length A + S (m + (fuel - length A - m))) by lia.
      apply HO. lia.
    + exact Hv1q.
    + exact HRq.
    + split.
      * unfold f', set_edges. cbn [next]. rewrite H2n, T1. reflexivity.
      * intros x Hx. assert (x <> q) by congruence.
        assert (Hx0 : vis0 x = true) by (unfold vis0; rewrite upd_other; assumption).
        destruct (T2 x Hx0) as (V & Sx). split; [exact V|].
        eapply same_trans; [exact (Hs0 x)|]. eapply same_trans; [exact Sx|]. apply Hso. assumption.
      * intros x Hx. destruct (Nat.eq_dec x q) as [->|Hxq]; [right; exact HRq|].
        destruct (T3 x Hx) as [V|R].
        -- left. unfold vis0 in V. rewrite upd_other in V; assumption.
        -- right. exact (ready_same _ _ _ (Hso x Hxq) R).
      * intros x Hx. assert (x <> q) by congruence.
        eapply same_trans; [exact (Hs0 x)|]. eapply same_trans; [exact (T4 x Hx)|].
        apply Hso. assumption.
Qed.

(* ---- the whole pass ---- *)
Lemma fold_ok l : forall f vis,
  (forall x, vis x = true -> ready f x) -> (forall x, vis x = false -> fresh f x) ->
  exists n f' vis',
    (forall fuel, n <= fuel ->
       fold_left (fun (st : res (fsm * (nat -> bool))) q =>
                 do! (f, vis) <- st;
                 if vis q then Ok (f, vis) else simplify_dfs fuel f vis q)
              l (Ok (f, vis)) = Ok (f', vis')) /\
    next f' = next f /\
    (forall x, vis' x = true -> ready f' x) /\ (forall x, vis' x = false -> fresh f' x) /\
    (forall x, vis x = true -> vis' x = true) /\ (forall x, In x l -> vis' x = true).
Proof.
  induction l as [|q l IH]; intros f vis HR HF.
  - exists 0, f, vis. cbn. split; [reflexivity|]. split; [reflexivity|]. split; [exact HR|].
    split; [exact HF|]. split; [auto|intros x []].
  - assert (Hone : exists n f1 vis1,
      (forall fuel, n <= fuel ->
         (if vis q then Ok (f, vis) else simplify_dfs fuel f vis q) = Ok (f1, vis1)) /\
      next f1 = next f /\ (forall x, vis1 x = true -> ready f1 x) /\
      (forall x, vis1 x = false -> fresh f1 x) /\
      (forall x, vis x = true -> vis1 x = true) /\ vis1 q = true).
    { destruct (vis q) eqn:E.
      - exists 0, f, vis. split; [reflexivity|]. split; [reflexivity|]. auto.
      - destruct (dfs_ok q (g_acc _ _ _ HG q) f vis E) as (n & f1 & vis1 & H1 & H2 & H3 & [T1 T2 T3 T4]).
        + intros x Hx. left. auto.
        + exact HF.
        + exists n, f1, vis1. split; [exact H1|]. split; [exact T1|]. split; [|split; [|split]].
          * intros x Hx. destruct (T3 x Hx) as [V|R]; [|exact R].
            destruct (T2 x V) as (_ & Sx). exact (ready_same _ _ _ Sx (HR x V)).
          * intros x Hx. destruct (T4 x Hx) as (X1 & X2 & X3).
            assert (Hv : vis x = false).
            { destruct (vis x) eqn:Ex; [|reflexivity]. destruct (T2 x Ex). congruence. }
            destruct (HF x Hv) as (Y1 & Y2 & Y3). split; [congruence|]. split; congruence.
          * intros x Hx. apply T2. exact Hx.
          * exact H2. }
    destruct Hone as (n1 & f1 & vis1 & H1 & N1 & R1 & X1 & V1 & Q1).
    destruct (IH f1 vis1 R1 X1) as (n2 & f2 & vis2 & H2 & N2 & R2 & X2 & V2 & Q2).
    exists (n1 + n2), f2, vis2. split; [|split; [congruence|split; [exact R2|split; [exact X2|split]]]].
    + intros fuel Hfu. cbn [fold_left bind]. rewrite (H1 fuel) by lia. apply H2. lia.
    + intros x Hx. auto.
    + intros x [<-|Hx]; auto.
Qed.

Lemma simplify_ok f : next f = N -> (forall x, fresh f x) ->
  exists n f', (forall fuel, n <= fuel -> simplify fuel f = Ok f') /\
    next f' = N /\ forall x, x < N -> ready f' x.
Proof.
  intros HN HF.
  destruct (fold_ok (seq 0 (next f)) f (fun _ => false)) as (n & f' & vis' & H & N' & R & _ & _ & Q).
  - discriminate.
  - auto.
  - exists n, f'. split; [|split].
    + intros fuel Hfu. unfold simplify. rewrite (H fuel Hfu). reflexivity.
    + congruence.
    + intros x Hx. apply R, Q, in_seq. lia.
Qed.
End Simp.
