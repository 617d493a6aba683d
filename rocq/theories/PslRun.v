(* The automaton of a directive, and what running it reports. *)
From Coq Require Import List Arith Bool Lia.
From Verif Require Import Base PslSpec PslModel PslGraph PslProofs PslSimp.
Import ListNotations.

(* [build] uses its fuel for "&&" only. *)
Lemma build_fuel n r : plain r -> forall f s, build n r f s = build 0 r f s.
Proof.
  induction r as [p|k ops IH|k lo hi r IH|a b IHa IHb] using sere_ind'; intros HP f s.
  - reflexivity.
  - apply plain_seq in HP as (_ & HP). cbn [build].
    generalize (match k with Concat => NEXT | Fusion => EPS end). intros lk.
    revert f s HP. induction IH as [|o ops Ho _ IH2]; intros f s HP; [reflexivity|].
    inversion_clear HP as [|? ? P1 P2].
    change (build_seq (build n) lk (o :: ops) f s) with
      (do! (f1, t) <- build n o f s;
       match ops with
       | [] => Ok (f1, t)
       | _ => if t =? s then build_seq (build n) lk ops f1 t
              else let '(f2, s2) := add_state f1 in
                   build_seq (build n) lk ops (add_edge f2 t s2 lk None) s2
       end).
    change (build_seq (build 0) lk (o :: ops) f s) with
      (do! (f1, t) <- build 0 o f s;
       match ops with
       | [] => Ok (f1, t)
       | _ => if t =? s then build_seq (build 0) lk ops f1 t
              else let '(f2, s2) := add_state f1 in
                   build_seq (build 0) lk ops (add_edge f2 t s2 lk None) s2
       end).
    rewrite (Ho P1 f s). destruct (build 0 o f s) as [[f1 t]|]; [|reflexivity]. cbn [bind].
    destruct ops as [|o2 ops]; [reflexivity|].
    destruct (t =? s); [apply IH2; exact P2|]. cbn [add_state]. apply IH2. exact P2.
  - destruct k; [|destruct HP|destruct HP]. destruct HP as (_ & _ & HP). cbn [build].
    unfold build_repeat. generalize (match hi with Some h => h | None => lo end). intros hg.
    destruct (if lo <? hg then add_state f else (f, 0)) as [f0 skip].
    assert (HC : forall k i f s lb,
              build_copies (build n r) Times r lo skip k i f s lb =
              build_copies (build 0 r) Times r lo skip k i f s lb).
    { induction k as [|k IHk]; intros i g q lb; [reflexivity|].
      cbn [build_copies]. rewrite (IH HP g q).
      destruct (build 0 r g q) as [[f1 t]|]; [|reflexivity]. cbn [bind].
      destruct k; [reflexivity|].
      destruct (add_state _) as [f4 s2]. apply IHk. }
    rewrite HC. reflexivity.
  - destruct HP.
Qed.

Lemma good_built f' t : frag False 0 (fun _ => []) (edges f') 0 1 (next f') t 0 ->
  good (edges f') (next f') t.
Proof.
  intros F. set (G := edges f') in *. set (N := next f') in *.
  pose proof (f_rng _ _ _ _ _ _ _ _ _ F) as (R1 & R2).
  assert (Hd : forall q, dom 0 1 N q \/ G q = []).
  { intros q. destruct (Nat.lt_ge_cases q N) as [H|H].
    - left. unfold dom. lia.
    - right. apply (f_frame _ _ _ _ _ _ _ _ _ F). unfold dom. lia. }
  assert (HE : ext G G 0 1 N t 0).
  { split; [reflexivity|]. split.
    - exists []. rewrite app_nil_r. split; [reflexivity|]. intros e [].
    - intros q e Hq He. destruct (Hd q) as [?|Hn]; [contradiction|]. rewrite Hn in He. destruct He. }
  assert (Hnil : forall q, (forall e, In e (G q) -> ek e = NEXT) -> Acc (eps_rel G) q).
  { intros q H. constructor. intros y (e & He & Hk & _). rewrite (H e He) in Hk. discriminate. }
  split.
  - intros q. destruct (Hd q) as [H|H]; [exact (f_shape _ _ _ _ _ _ _ _ _ F q H)|].
    rewrite H. apply shape_nil.
  - intros q e He. destruct (Hd q) as [H|H]; [|rewrite H in He; destruct He].
    pose proof (frag_dom_closed _ _ _ _ _ _ _ _ F q e H He) as HD. unfold dom in HD. lia.
  - intros q. destruct (Hd q) as [H|H].
    + apply (f_acc _ _ _ _ _ _ _ _ _ F G HE); [intros []| |exact H].
      apply Hnil. exact (f_t _ _ _ _ _ _ _ _ _ F).
    + apply Hnil. rewrite H. intros e [].
  - split; [lia|exact (f_t _ _ _ _ _ _ _ _ _ F)].
  - intros q. destruct (Hd q) as [H|H].
    + destruct (Nat.eq_dec q t) as [->|Hq].
      * intros A e B HQ Hk. exfalso.
        rewrite (f_t _ _ _ _ _ _ _ _ _ F e) in Hk; [discriminate|].
        fold G. rewrite HQ. apply in_or_app. right. left. reflexivity.
      * apply (f_ord _ _ _ _ _ _ _ _ _ F G HE); [intros []|exact H|exact Hq].
    + intros A e B HQ. rewrite H in HQ. destruct A; discriminate HQ.
Qed.

Lemma holds_none v : holds v None = true.
Proof. reflexivity. Qed.

Lemma ereach_path G w q i c : ereach G (w i) q c -> path G w q i c i.
Proof.
  intros H. remember (w i) as v eqn:Ev. induction H as [|q e c He Hk Hh _ IH]; [constructor|].
  eapply path_trans; [|apply IH; exact Ev].
  assert (Ha : adv (ek e) i = i) by (rewrite Hk; reflexivity).
  rewrite <- Ha at 2. apply path_one; [exact He|]. rewrite <- Ev. exact Hh.
Qed.

Section Run.
Variables (G : graph) (N T : nat) (f2 : fsm).
Hypothesis HG : good G N T.
Hypothesis HN : next f2 = N.
Hypothesis HR : forall x, x < N -> ready G T f2 x.
Let f := prune f2.

Lemma run_accepts v q : q < N -> accepts f v q = true <-> ereach G v q T.
Proof. intros Hq. apply (r_acc _ _ _ _ (HR q Hq)). Qed.

Lemma run_enters v q x : q < N ->
  In x (enters f v q) <->
  accepts f v q = false /\
  exists c y, ereach G v q c /\ In y (G c) /\ ek y = NEXT /\ dst y = x.
Proof.
  intros Hq. pose proof (HR q Hq) as R. unfold enters.
  destruct (accepts f v q) eqn:EA.
  { split; [intros []|intros (H & _); discriminate H]. }
  assert (HE : edges f q = edges f2 q).
  { unfold f, prune. cbn [edges]. unfold accepts, f, prune in EA. cbn [acc ag] in EA.
    destruct (acc f2 q); [|reflexivity]. destruct (ag f2 q); [reflexivity|discriminate EA]. }
  rewrite HE. split.
  - intros H. split; [reflexivity|]. apply in_map_iff in H as (e & <- & He).
    apply filter_In in He as (He & Hh).
    destruct (r_from _ _ _ _ R e He) as (c & y & W & Hy & Hk & Hd & HV).
    exists c, y. split; [apply HV; exact Hh|]. auto.
  - intros (_ & c & y & HC & Hy & Hk & <-).
    destruct (r_first _ _ _ _ R v c y HC Hy Hk) as (A & e & B & HL & _ & <- & Hh).
    apply in_map. apply filter_In. split; [|exact Hh].
    rewrite HL. apply in_or_app. right. left. reflexivity.
Qed.

Hypothesis H0 : 0 < N.

Lemma active_S w n q :
  In q (active f true w (S n)) <->
  q < N /\ exists p, In p (active f true w n) /\ (p = 0 /\ q = 0 \/ In q (enters f (w n) p)).
Proof.
  cbn [active]. rewrite filter_In, in_seq. change (next f) with (next f2). rewrite HN.
  rewrite existsb_exists. split.
  - intros (H1 & x & Hx & Ex). apply Nat.eqb_eq in Ex. subst x. split; [lia|].
    apply in_flat_map in Hx as (p & Hp & Hx). exists p. split; [exact Hp|].
    apply in_app_or in Hx as [Hx|Hx]; [|right; exact Hx].
    destruct (Nat.eqb_spec p 0) as [->|_]; cbn in Hx; [|destruct Hx].
    destruct Hx as [<-|[]]. auto.
  - intros (H1 & p & Hp & HX). split; [lia|]. exists q. split; [|apply Nat.eqb_refl].
    apply in_flat_map. exists p. split; [exact Hp|]. apply in_or_app.
    destruct HX as [(-> & ->)|HX]; [left; left; reflexivity|right; exact HX].
Qed.

Lemma active_0 w n : In 0 (active f true w n).
Proof.
  induction n as [|n IH]; [left; reflexivity|].
  apply active_S. split; [exact H0|]. exists 0. auto.
Qed.

Lemma active_lt w n q : In q (active f true w n) -> q < N.
Proof.
  destruct n as [|n]; [intros [<-|[]]; exact H0|]. intros H. apply active_S in H. apply H.
Qed.

Lemma next_step w n c y : In y (G c) -> ek y = NEXT -> path G w c n (dst y) (S n).
Proof.
  intros Hy Hk. destruct (g_shape _ _ _ HG c) as (S1 & _).
  assert (Ha : adv (ek y) n = S n) by (rewrite Hk; reflexivity).
  rewrite <- Ha. apply path_one; [exact Hy|]. rewrite (S1 y Hy Hk). reflexivity.
Qed.

Lemma active_path w n q : In q (active f true w n) -> exists i, i <= n /\ path G w 0 i q n.
Proof.
  revert q. induction n as [|n IH]; intros q.
  - intros [<-|[]]. exists 0. split; [lia|constructor].
  - intros H. apply active_S in H as (Hq & p & Hp & [(-> & ->)|HX]).
    + exists (S n). split; [lia|constructor].
    + apply run_enters in HX as (_ & c & y & HC & Hy & Hk & <-); [|exact (active_lt _ _ _ Hp)].
      destruct (IH p Hp) as (i & Hi & P). exists i. split; [lia|].
      eapply path_trans; [exact P|]. eapply path_trans; [apply ereach_path; exact HC|].
      apply next_step; assumption.
Qed.

(* Following a path of the automaton with epsilon edges at run time: either
   an earlier cycle of it accepted, or its state is reached from an active one. *)
Lemma active_follow w i q n : path G w 0 i q n ->
  (exists m p, i <= m < n /\ In p (active f true w m) /\ path G w 0 i p m /\
               ereach G (w m) p T) \/
  (i <= n /\ exists p, In p (active f true w n) /\ path G w 0 i p n /\ ereach G (w n) p q).
Proof.
  intros P. remember 0 as z eqn:Ez. induction P as [q i|q i q1 n1 e P IH He Hg]; subst q.
  - right. split; [lia|]. exists 0. split; [apply active_0|]. split; constructor.
  - destruct (IH eq_refl H0) as [(m & p & Hm & H)|(Hi & p & Hp & HP & HE)].
    + left. exists m, p. split; [|exact H]. destruct (ek e); cbn [adv]; lia.
    + destruct (ek e) eqn:Ek; cbn [adv].
      * destruct (accepts f (w n1) p) eqn:EA.
        -- left. exists n1, p. split; [lia|]. split; [exact Hp|]. split; [exact HP|].
           apply run_accepts in EA; [exact EA|exact (active_lt _ _ _ Hp)].
        -- right. split; [lia|]. exists (dst e). split; [|split; [|constructor]].
           ++ apply active_S. split; [exact (g_dst _ _ _ HG _ _ He)|].
              exists p. split; [exact Hp|]. right.
              apply run_enters; [exact (active_lt _ _ _ Hp)|]. split; [exact EA|].
              exists q1, e. auto.
           ++ eapply path_trans; [exact P|]. apply next_step; assumption.
      * right. split; [exact Hi|]. exists p. split; [exact Hp|]. split; [exact HP|].
        eapply ereach_trans; [exact HE|]. econstructor; eauto. constructor.
Qed.

Lemma reported_path w n : reported f w n = true -> exists i, i <= n /\ path G w 0 i T n.
Proof.
  intros H. unfold reported in H. apply existsb_exists in H as (q & Hq & EA).
  apply run_accepts in EA; [|exact (active_lt _ _ _ Hq)].
  destruct (active_path _ _ _ Hq) as (i & Hi & P). exists i. split; [exact Hi|].
  eapply path_trans; [exact P|]. apply ereach_path. exact EA.
Qed.

Lemma path_reported w i n : path G w 0 i T n ->
  (forall m, i <= m < n -> ~ path G w 0 i T m) -> reported f w n = true.
Proof.
  intros P Hmin. unfold reported.
  destruct (active_follow w i T n P) as [(m & p & Hm & _ & P2 & E)|(_ & p & Hp & _ & E)].
  - exfalso. apply (Hmin m Hm). eapply path_trans; [exact P2|]. apply ereach_path. exact E.
  - apply existsb_exists. exists p. split; [exact Hp|]. apply run_accepts; [|exact E].
    exact (active_lt _ _ _ Hp).
Qed.
End Run.

(* ---- the directive ---- *)
Lemma fsm_new_ok r : plain r ->
  exists n f, (forall fuel, n <= fuel -> fsm_new fuel r = Ok f) /\
  (forall w m, reported f w m = true -> exists i, i <= m /\ matches w r i (S m)) /\
  (forall w i m, matches w r i (S m) -> (forall k, k < m -> ~ matches w r i (S k)) ->
     reported f w m = true).
Proof.
  intros HP. destruct (build_ok 0 r HP) as (C & HB).
  set (f0 := fst (add_state empty_fsm)).
  destruct (HB f0 0) as (f1 & t & HO & F & L & A1 & A2).
  { split; [cbn; lia|]. split; reflexivity. }
  pose proof (good_built f1 t F) as HG.
  pose proof (f_rng _ _ _ _ _ _ _ _ _ F) as (R1 & R2). cbn [f0 fst add_state next empty_fsm] in R1, R2.
  destruct (simplify_ok (edges f1) (next f1) t HG (set_accept f1 t)) as (n & f2 & HS & HN & HRd).
  { reflexivity. }
  { intros x. unfold fresh, set_accept. cbn [edges acc ag]. split; [reflexivity|].
    rewrite A1, A2. split; [|reflexivity]. unfold upd. destruct (x =? t); reflexivity. }
  exists n, (prune f2). split; [|split].
  - intros fuel Hfu. unfold fsm_new. cbn [add_state empty_fsm next edges acc ag].
    change (Fsm 1 (fun _ : nat => []) (fun _ : nat => false) (fun _ : nat => None)) with f0.
    rewrite (build_fuel fuel r HP). rewrite HO. cbn [bind]. rewrite (HS fuel Hfu). reflexivity.
  - intros w m H. destruct (reported_path _ _ _ _ HG HN HRd ltac:(lia) w m H) as (i & Hi & P).
    exists i. split; [exact Hi|]. apply (l_m _ _ _ _ _ L). exact P.
  - intros w i m H Hmin. eapply (path_reported _ _ _ _ HG HN HRd ltac:(lia) w i m).
    + apply (l_m _ _ _ _ _ L). exact H.
    + intros k Hk P. apply (l_m _ _ _ _ _ L) in P. exact (Hmin k ltac:(lia) P).
Qed.
