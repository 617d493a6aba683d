From Coq Require Import List Arith Bool Lia.
From Verif Require Import Base ResolveModel ResolveSpec.
Import ListNotations.

(* ---- the tables ---- *)

Section Memo.
Variables (f : resfn) (nlits : nat).

Definition t2_ok (t : nat -> nat -> nat) (l : list (nat * nat)) : Prop :=
  forall i j r c, In (i, j) l -> f [i; j] = Returns r c -> t i j = r.

(* Entries already filled stay, because the function is pure. *)
Lemma memo2_spec : forall l ok t ok' t' done,
  foldr_res (memo_call2 f nlits) (ok, t) l = Ok (ok', t') ->
  t2_ok t done ->
  t2_ok t' (done ++ l) /\
  (ok' = true -> ok = true /\ forall i j, In (i, j) l ->
     (exists r, f [i; j] = Returns r true) \/ f [i; j] = Aborts true).
Proof.
  induction l as [|[i j] l IH]; intros ok t ok' t' done H T.
  - cbn in H. injection H as <- <-. rewrite app_nil_r. split; [exact T|]. intros ->. split; [reflexivity|easy].
  - cbn [foldr_res] in H. apply bind_ok in H. destruct H as ([ok1 t1] & H1 & H2).
    unfold memo_call2 in H1. destruct (f [i; j]) as [r c|s0] eqn:F.
    + destruct (r <? nlits); [|discriminate]. injection H1 as <- <-.
      destruct (IH _ _ _ _ (done ++ [(i, j)]) H2) as [A B].
      { intros a b r' c' I E. apply in_app_or in I.
        destruct (Nat.eqb_spec a i) as [E1|E1]; cbn.
        - destruct (Nat.eqb_spec b j) as [E2|E2]; cbn.
          + subst a b. congruence.
          + destruct I as [I|[I|[]]]; [eapply T; eassumption|congruence].
        - destruct I as [I|[I|[]]]; [eapply T; eassumption|congruence]. }
      rewrite <- app_assoc in A. split; [exact A|]. intros O. destruct (B O) as [B1 B2].
      apply andb_prop in B1. destruct B1 as [-> ->]. split; [reflexivity|].
      intros a b [E|I]; [injection E as -> ->; left; now exists r|now apply B2].
    + injection H1 as <- <-.
      destruct (IH _ _ _ _ (done ++ [(i, j)]) H2) as [A B].
      { intros a b r' c' I E. apply in_app_or in I.
        destruct I as [I|[I|[]]]; [eapply T; eassumption|]. injection I as <- <-. congruence. }
      rewrite <- app_assoc in A. split; [exact A|]. intros O. destruct (B O) as [B1 B2].
      apply andb_prop in B1. destruct B1 as [-> ->]. split; [reflexivity|].
      intros a b [E|I]; [injection E as -> ->; now right|now apply B2].
Qed.

Lemma memo2_total : (forall i j r c, f [i; j] = Returns r c -> r < nlits) ->
  forall l ok t, exists st, foldr_res (memo_call2 f nlits) (ok, t) l = Ok st.
Proof.
  intros R. induction l as [|[i j] l IH]; intros ok t; cbn [foldr_res]; [eauto|].
  unfold memo_call2 at 1. destruct (f [i; j]) as [r c|s0] eqn:F; cbn [bind].
  - replace (r <? nlits) with true; [cbn [bind]; apply IH|]. symmetry. apply Nat.ltb_lt. eapply R. exact F.
  - apply IH.
Qed.

Definition t1_ok (t : nat -> nat) (l : list nat) : Prop :=
  forall i r c, In i l -> f [i] = Returns r c -> t i = r.

Lemma memo1_spec : forall l ok ident t ok' ident' t' done,
  fold_left (memo_call1 f) l (ok, ident, t) = (ok', ident', t') ->
  t1_ok t done ->
  (ident = true -> forall i r c, In i done -> f [i] = Returns r c -> r = i) ->
  t1_ok t' (done ++ l) /\
  (ident' = true -> forall i r c, In i (done ++ l) -> f [i] = Returns r c -> r = i) /\
  (ok' = true -> ok = true /\ forall i, In i l ->
     (exists r, f [i] = Returns r true) \/ f [i] = Aborts true).
Proof.
  induction l as [|i l IH]; intros ok ident t ok' ident' t' done H T D; cbn [fold_left] in H.
  - injection H as <- <- <-. rewrite app_nil_r. split; [exact T|]. split; [exact D|].
    intros ->. split; [reflexivity|easy].
  - unfold memo_call1 at 2 in H. destruct (f [i]) as [r c|s0] eqn:F.
    + destruct (IH _ _ _ _ _ _ (done ++ [i]) H) as (A & B & C).
      { intros a r' c' I E. apply in_app_or in I. unfold upd. destruct (Nat.eqb_spec a i) as [E1|E1].
        - subst a. congruence.
        - destruct I as [I|[I|[]]]; [eapply T; eassumption|congruence]. }
      { intros Hi a r' c' I E. apply andb_prop in Hi. destruct Hi as [Hi Hr]. apply Nat.eqb_eq in Hr.
        apply in_app_or in I. destruct I as [I|[I|[]]]; [now apply (D Hi a r' c')|]. subst a. congruence. }
      rewrite <- app_assoc in A, B. split; [exact A|]. split; [exact B|].
      intros O. destruct (C O) as [C1 C2]. apply andb_prop in C1. destruct C1 as [-> ->].
      split; [reflexivity|]. intros a [E|I]; [subst a; left; now exists r|now apply C2].
    + destruct (IH _ _ _ _ _ _ (done ++ [i]) H) as (A & B & C).
      { intros a r' c' I E. apply in_app_or in I. destruct I as [I|[I|[]]]; [eapply T; eassumption|congruence]. }
      { intros Hi a r' c' I E. apply in_app_or in I. destruct I as [I|[I|[]]]; [now apply (D Hi a r' c')|congruence]. }
      rewrite <- app_assoc in A, B. split; [exact A|]. split; [exact B|].
      intros O. destruct (C O) as [C1 C2]. apply andb_prop in C1. destruct C1 as [-> ->].
      split; [reflexivity|]. intros a [E|I]; [subst a; now right|now apply C2].
Qed.

Record memo_ok (m : memo) : Prop := {
  mo_1 : r_memo m = true -> forall i r c, i < nlits -> f [i] = Returns r c -> tab1 m i = r;
  mo_2 : r_memo m = true -> forall i j r c, i < nlits -> j < nlits ->
           f [i; j] = Returns r c -> tab2 m i j = r;
  mo_i : r_ident m = true -> r_memo m = true /\ forall i r c, i < nlits -> f [i] = Returns r c -> r = i;
  mo_c1 : r_memo m = true -> forall i, i < nlits -> (exists r, f [i] = Returns r true) \/ f [i] = Aborts true;
  mo_c2 : r_memo m = true -> forall i j, i < nlits -> j < nlits ->
           (exists r, f [i; j] = Returns r true) \/ f [i; j] = Aborts true }.

Lemma memo_correct ok0 m : memo_resolution_fn f nlits ok0 = Ok m -> memo_ok m.
Proof.
  unfold memo_resolution_fn. destruct ((nlits =? 0) || (16 <? nlits)).
  - intros [= <-]. split; cbn; discriminate.
  - intros H. apply bind_ok in H. destruct H as ([ok t2] & H2 & H).
    destruct (fold_left (memo_call1 f) (seq 0 nlits) (ok, true, fun _ => 0)) as [[ok' ident] t1] eqn:H1.
    destruct (memo2_spec _ _ _ _ _ [] H2) as [A2 B2]; [easy|].
    destruct (memo1_spec _ _ _ _ _ _ _ [] H1) as (A1 & C1 & B1); [easy|easy|].
    cbn [app] in *. destruct ok'; injection H as <-; [|split; cbn; discriminate].
    destruct (B1 eq_refl) as [B3 B4]. destruct (B2 B3) as [_ B5].
    split; cbn [r_memo r_ident tab1 tab2].
    + intros _ i r c L E. eapply A1; [|exact E]. apply in_seq. lia.
    + intros _ i j r c L1 L2 E. eapply A2; [|exact E]. apply in_prod; apply in_seq; lia.
    + intros Hi. split; [reflexivity|]. intros i r c L E. eapply C1; [exact Hi| |exact E]. apply in_seq. lia.
    + intros _ i L. apply B4. apply in_seq. lia.
    + intros _ i j L1 L2. apply B5. apply in_prod; apply in_seq; lia.
Qed.

Lemma memo_total ok0 : (forall i j r c, f [i; j] = Returns r c -> r < nlits) ->
  exists m, memo_resolution_fn f nlits ok0 = Ok m.
Proof.
  intros R. unfold memo_resolution_fn. destruct ((nlits =? 0) || (16 <? nlits)); [eauto|].
  destruct (memo2_total R (list_prod (seq 0 nlits) (seq 0 nlits)) ok0 (fun _ _ => 0)) as [[ok t2] E].
  rewrite E. cbn [bind].
  destruct (fold_left (memo_call1 f) (seq 0 nlits) (ok, true, fun _ => 0)) as [[ok' ident] t1].
  destruct ok'; eauto.
Qed.
End Memo.

(* ---- resolving ---- *)

Lemma collect_put : forall l v, collect l = Put v <->
  length v = length l /\ forall j, j < length l -> exists c, nth j l (Aborts true) = Returns (nth j v 0) c.
Proof.
  induction l as [|[r c|s] l IH]; intros v; cbn [collect].
  - split.
    + intros [= <-]. split; [reflexivity|]. intros j L. cbn in L. lia.
    + intros [E _]. destruct v; [reflexivity|discriminate].
  - split.
    + destruct (collect l) as [v'|] eqn:E; [|discriminate]. intros [= <-].
      destruct (proj1 (IH v') eq_refl) as [L H]. split; [cbn; congruence|].
      intros [|j] J; cbn [nth]; [eauto|]. apply H. cbn in J. lia.
    + intros [L H]. destruct v as [|x v]; [discriminate|]. cbn in L. injection L as L.
      assert (E : collect l = Put v).
      { apply IH. split; [exact L|]. intros j J. apply (H (S j)). cbn. lia. }
      rewrite E. f_equal. f_equal. destruct (H 0) as [c' H0]; [cbn; lia|]. cbn in H0. congruence.
  - split; [discriminate|]. intros [L H]. destruct (H 0) as [c H0]; [cbn; lia|]. cbn in H0. discriminate.
Qed.

Lemma nth_call f vs w j : j < w ->
  nth j (map (call_elem f vs) (seq 0 w)) (Aborts true) = call_elem f vs j.
Proof.
  intros L. rewrite nth_indep with (d' := call_elem f vs 0) by (rewrite map_length, seq_length; exact L).
  rewrite map_nth, seq_nth by exact L. reflexivity.
Qed.

Lemma general_put f vs w v : call_general f vs w = Put v <-> resolves_to f w vs v.
Proof.
  unfold call_general. rewrite collect_put, map_length, seq_length. unfold resolves_to.
  split; intros [A B]; (split; [exact A|]); intros j L; specialize (B j L).
  - rewrite nth_call in B by exact L. exact B.
  - rewrite nth_call by exact L. exact B.
Qed.

Lemma general_stop f vs w : call_general f vs w = Stop <-> resolve_aborts f w vs.
Proof.
  unfold call_general, resolve_aborts.
  assert (G : forall l, collect l = Stop <-> exists j, j < length l /\ exists s, nth j l (Aborts true) = Aborts s).
  { induction l as [|[r c|s] l IH]; cbn [collect].
    - split; [discriminate|]. intros (j & L & _). cbn in L. lia.
    - destruct (collect l) as [v|].
      + split; [discriminate|]. intros (j & L & H). destruct j as [|j]; [destruct H; discriminate|].
        assert (X : Put v = Stop); [|discriminate X].
        apply IH. exists j. split; [cbn in L; lia|exact H].
      + split; [|reflexivity]. intros _. destruct IH as [IH _]. destruct (IH eq_refl) as (j & L & H).
        exists (S j). split; [cbn; lia|exact H].
    - split; [|reflexivity]. intros _. exists 0. split; [cbn; lia|]. exists s. reflexivity. }
  rewrite G, map_length, seq_length.
  split; intros (j & L & s & H); exists j; (split; [exact L|]); exists s.
  - rewrite nth_call in H by exact L. exact H.
  - rewrite nth_call by exact L. exact H.
Qed.

Lemma nth_map_seq (g : nat -> nat) w j : j < w -> nth j (map g (seq 0 w)) 0 = g j.
Proof.
  intros L. rewrite nth_indep with (d' := g 0) by (rewrite map_length, seq_length; exact L).
  rewrite map_nth, seq_nth by exact L. reflexivity.
Qed.

Lemma typed_nth w nlits v j : typed w nlits v -> j < w -> nth j v 0 < nlits.
Proof.
  intros [L F] J. rewrite Forall_forall in F. apply F. apply nth_In. lia.
Qed.

Lemma resolves_eq f w vs v v' : resolves_to f w vs v -> resolves_to f w vs v' -> v = v'.
Proof.
  intros [L1 H1] [L2 H2]. apply nth_ext with (d := 0) (d' := 0); [congruence|].
  intros j J. destruct (H1 j) as [c1 E1]; [lia|]. destruct (H2 j) as [c2 E2]; [lia|]. congruence.
Qed.

(* When every call returns, the memoised computation gives the result. *)
Lemma memo_resolves f nlits ok0 m w vs v :
  memo_resolution_fn f nlits ok0 = Ok m -> Forall (typed w nlits) vs ->
  resolves_to f w vs v -> call_resolution f m w vs = Put v.
Proof.
  intros M T R. apply memo_correct in M. destruct M as [M1 M2 MI _ _].
  assert (G : call_general f vs w = Put v) by now apply general_put.
  destruct R as [L R]. unfold call_resolution.
  destruct vs as [|v0 [|v1 [|v2 vs]]]; try exact G.
  - pose proof (Forall_inv T) as T0. destruct (r_ident m) eqn:EI.
    + destruct (MI eq_refl) as [_ Id]. f_equal.
      apply nth_ext with (d := 0) (d' := 0); [destruct T0; congruence|].
      intros j J. destruct T0 as [L0 F0]. destruct (R j) as [c E]; [lia|].
      unfold resolve_elem in E. cbn [map] in E. symmetry. eapply Id; [|exact E].
      apply (typed_nth w); [split; assumption|lia].
    + destruct (r_memo m) eqn:EM; [|exact G]. f_equal.
      apply nth_ext with (d := 0) (d' := 0); [rewrite map_length, seq_length; congruence|].
      intros j J. rewrite map_length, seq_length in J. rewrite nth_map_seq by exact J.
      destruct (R j J) as [c E]. unfold resolve_elem in E. cbn [map] in E.
      eapply (M1 eq_refl); [|exact E]. now apply (typed_nth w).
  - pose proof (Forall_inv T) as T0. pose proof (Forall_inv (Forall_inv_tail T)) as T1.
    destruct (r_memo m) eqn:EM; [|exact G]. f_equal.
    apply nth_ext with (d := 0) (d' := 0); [rewrite map_length, seq_length; congruence|].
    intros j J. rewrite map_length, seq_length in J. rewrite nth_map_seq by exact J.
    destruct (R j J) as [c E]. unfold resolve_elem in E. cbn [map] in E.
    eapply (M2 eq_refl); [| |exact E]; now apply (typed_nth w).
Qed.

Lemma resolve_dec f w vs : (exists v, resolves_to f w vs v) \/ resolve_aborts f w vs.
Proof.
  destruct (call_general f vs w) as [v|] eqn:E.
  - left. exists v. now apply general_put.
  - right. now apply general_stop.
Qed.

(* If no call ends the simulation with status zero, the memo is only used when
   no call on one or two values aborts, so both computations agree. *)
Lemma memo_equal f nlits ok0 m w vs :
  memo_resolution_fn f nlits ok0 = Ok m -> Forall (typed w nlits) vs ->
  (forall args, f args <> Aborts true) ->
  call_resolution f m w vs = call_general f vs w.
Proof.
  intros M T NA. destruct (resolve_dec f w vs) as [[v R]|A].
  - rewrite (memo_resolves f nlits ok0 m w vs v M T R). symmetry. now apply general_put.
  - apply memo_correct in M. destruct M as [_ _ MI C1 C2].
    destruct A as (j & J & s & E). unfold resolve_elem in E.
    unfold call_resolution. destruct vs as [|v0 [|v1 [|v2 vs]]]; try reflexivity.
    + pose proof (Forall_inv T) as T0. cbn [map] in E.
      assert (EM : r_memo m = false).
      { destruct (r_memo m) eqn:EM; [|reflexivity]. exfalso.
        destruct (C1 eq_refl (nth j v0 0)) as [[r H]|H]; [now apply (typed_nth w)|congruence|].
        now apply (NA [nth j v0 0]). }
      assert (EI : r_ident m = false).
      { destruct (r_ident m); [|reflexivity]. destruct (MI eq_refl). congruence. }
      now rewrite EI, EM.
    + pose proof (Forall_inv T) as T0. pose proof (Forall_inv (Forall_inv_tail T)) as T1. cbn [map] in E.
      assert (EM : r_memo m = false).
      { destruct (r_memo m) eqn:EM; [|reflexivity]. exfalso.
        destruct (C2 eq_refl (nth j v0 0) (nth j v1 0)) as [[r H]|H];
          [now apply (typed_nth w)|now apply (typed_nth w)|congruence|].
        now apply (NA [nth j v0 0; nth j v1 0]). }
      now rewrite EM.
Qed.

(* ---- force, release, deposit ---- *)

Definition drv (s : source) : option (list nat) := if sdisc s then None else Some (sval s).

(* The shape of the chain: the drivers, followed by at most one forcing and at
   most one deposit source in either order. *)
Definition drivers_of (ss : list source) : list source :=
  filter (fun s => negb (is_pseudo (skind s))) ss.
Fixpoint find_kind (k : kind) (ss : list source) : option source :=
  match ss with
  | [] => None
  | s :: ss' => if kind_eqb (skind s) k then Some s else find_kind k ss'
  end.

(* A pseudo-source in effect. *)
Definition active (k : kind) (ss : list source) : option (list nat) :=
  match find_kind k ss with
  | Some s => if sdisc s then None else Some (sval s)
  | None => None
  end.

Fixpoint once (k : kind) (ss : list source) : Prop :=
  match ss with
  | [] => True
  | s :: ss' => (if kind_eqb (skind s) k then find_kind k ss' = None else True) /\ once k ss'
  end.

Lemma kind_eqb_ok a b : kind_eqb a b = true <-> a = b.
Proof. destruct a, b; cbn; split; congruence. Qed.

Lemma kind_eqb_neq a b : kind_eqb a b = false <-> a <> b.
Proof. destruct a, b; cbn; split; congruence. Qed.

Lemma set_pseudo_find k g zero : (forall s, skind s = k -> skind (g s) = k) -> forall ss,
  find_kind k (set_pseudo k g zero ss) =
  Some (match find_kind k ss with Some s => g s | None => g (Src k false zero) end).
Proof.
  intros G. induction ss as [|s ss IH]; cbn [set_pseudo find_kind].
  - assert (E : kind_eqb (skind (g (Src k false zero))) k = true) by (apply kind_eqb_ok; now apply G).
    now rewrite E.
  - destruct (kind_eqb (skind s) k) eqn:E; cbn [find_kind].
    + assert (E' : kind_eqb (skind (g s)) k = true) by (apply kind_eqb_ok, G; now apply kind_eqb_ok).
      now rewrite E'.
    + rewrite E. exact IH.
Qed.

Lemma set_pseudo_other k k' g zero : k' <> k -> (forall s, skind s = k -> skind (g s) = k) -> forall ss,
  find_kind k' (set_pseudo k g zero ss) = find_kind k' ss.
Proof.
  intros N G. induction ss as [|s ss IH]; cbn [set_pseudo find_kind].
  - assert (E : kind_eqb (skind (g (Src k false zero))) k' = false)
      by (apply kind_eqb_neq; rewrite (G (Src k false zero) eq_refl); congruence).
    now rewrite E.
  - destruct (kind_eqb (skind s) k) eqn:E; cbn [find_kind].
    + apply kind_eqb_ok in E.
      assert (E1 : kind_eqb (skind (g s)) k' = false) by (apply kind_eqb_neq; rewrite (G s E); congruence).
      assert (E2 : kind_eqb (skind s) k' = false) by (apply kind_eqb_neq; congruence).
      now rewrite E1, E2.
    + destruct (kind_eqb (skind s) k'); [reflexivity|exact IH].
Qed.

Lemma set_pseudo_drivers k g zero : k <> Driver -> (forall s, skind s = k -> skind (g s) = k) -> forall ss,
  drivers_of (set_pseudo k g zero ss) = drivers_of ss.
Proof.
  intros N G. assert (P : forall s, skind s = k -> negb (is_pseudo (skind (g s))) = false).
  { intros s E. rewrite (G s E). destruct k; [congruence|reflexivity|reflexivity]. }
  induction ss as [|s ss IH]; cbn [set_pseudo drivers_of filter].
  - now rewrite (P (Src k false zero) eq_refl).
  - destruct (kind_eqb (skind s) k) eqn:E.
    + apply kind_eqb_ok in E. cbn [filter]. rewrite (P s E).
      replace (negb (is_pseudo (skind s))) with false by (rewrite E; destruct k; congruence || reflexivity).
      reflexivity.
    + cbn [filter]. fold (drivers_of ss). fold (drivers_of (set_pseudo k g zero ss)). now rewrite IH.
Qed.

Lemma set_pseudo_once k k' g zero : (forall s, skind s = k -> skind (g s) = k) -> forall ss,
  once k' ss -> once k' (set_pseudo k g zero ss).
Proof.
  intros G. induction ss as [|s ss IH]; intros O; cbn [set_pseudo once].
  - split; [destruct (kind_eqb _ _); reflexivity || exact I|exact I].
  - destruct O as [O1 O2]. destruct (kind_eqb (skind s) k) eqn:E; cbn [once].
    + apply kind_eqb_ok in E. rewrite (G s E). rewrite E in O1. split; assumption.
    + split; [|now apply IH]. destruct (kind_eqb (skind s) k') eqn:E'; [|exact I].
      apply kind_eqb_ok in E'. apply kind_eqb_neq in E. rewrite set_pseudo_other by (exact G || congruence). exact O1.
Qed.

Lemma set_driver_find x k : k <> Driver -> forall ss j,
  find_kind k (set_driver j x ss) = find_kind k ss.
Proof.
  intros N. induction ss as [|s ss IH]; intros j; cbn [set_driver find_kind]; [reflexivity|].
  destruct (skind s) eqn:K.
  - assert (D : kind_eqb Driver k = false) by (apply kind_eqb_neq; congruence).
    destruct j as [|j]; cbn [find_kind]; [cbn [skind]; now rewrite D|rewrite K, D; apply IH].
  - cbn [find_kind]. rewrite K. destruct (kind_eqb Forcing k); [reflexivity|apply IH].
  - cbn [find_kind]. rewrite K. destruct (kind_eqb Deposit k); [reflexivity|apply IH].
Qed.

Lemma set_driver_once x k : k <> Driver -> forall ss j, once k ss -> once k (set_driver j x ss).
Proof.
  intros N. assert (D : kind_eqb Driver k = false) by (apply kind_eqb_neq; congruence).
  induction ss as [|s ss IH]; intros j O; cbn [set_driver]; [exact I|]. destruct O as [O1 O2].
  destruct (skind s) eqn:K.
  - destruct j as [|j]; cbn [once skind]; rewrite ?K, ?D; (split; [exact I|]); [exact O2|now apply IH].
  - cbn [once]. rewrite K. split; [|now apply IH]. destruct (kind_eqb Forcing k); [|exact I].
    rewrite set_driver_find by exact N. exact O1.
  - cbn [once]. rewrite K. split; [|now apply IH]. destruct (kind_eqb Deposit k); [|exact I].
    rewrite set_driver_find by exact N. exact O1.
Qed.

Lemma set_driver_drv x : forall ss j,
  map drv (drivers_of (set_driver j x ss)) = set_nth j x (map drv (drivers_of ss)).
Proof.
  induction ss as [|s ss IH]; intros j; cbn [set_driver drivers_of filter].
  - now destruct j.
  - destruct (skind s) eqn:K; cbn [is_pseudo negb].
    + destruct j as [|j]; cbn [filter skind is_pseudo negb map set_nth].
      * f_equal. unfold drv. cbn. destruct x; reflexivity.
      * rewrite K. cbn [is_pseudo negb map]. f_equal. apply IH.
    + cbn [filter]. rewrite K. cbn [is_pseudo negb]. apply IH.
    + cbn [filter]. rewrite K. cbn [is_pseudo negb]. apply IH.
Qed.

Lemma values_connected : forall ss, values_of ss = connected (map drv (drivers_of ss)).
Proof.
  induction ss as [|s ss IH]; cbn [values_of drivers_of filter]; [reflexivity|].
  unfold source_value, drv. destruct (skind s) eqn:K; cbn [is_pseudo negb map connected].
  - destruct (sdisc s); [exact IH|]. f_equal. exact IH.
  - exact IH.
  - exact IH.
Qed.

(* The scan, when force and deposit are not both in effect. *)
Lemma scan_spec : forall ss, once Forcing ss -> once Deposit ss ->
  (active Forcing ss = None \/ active Deposit ss = None) ->
  fst (scan ss) = match active Forcing ss with
                  | Some v => Some v
                  | None => active Deposit ss
                  end /\
  active Forcing (snd (scan ss)) = active Forcing ss /\
  active Deposit (snd (scan ss)) = match active Forcing ss with
                                   | Some _ => active Deposit ss
                                   | None => None
                                   end /\
  map drv (drivers_of (snd (scan ss))) = map drv (drivers_of ss) /\
  once Forcing (snd (scan ss)) /\ once Deposit (snd (scan ss)) /\
  (forall k, find_kind k ss = None -> find_kind k (snd (scan ss)) = None) /\
  (match ss with [] => True | s :: _ => match snd (scan ss) with [] => False | s' :: _ => skind s' = skind s end end).
Proof.
  induction ss as [|s ss IH]; intros OF OD NB; cbn [scan fst snd].
  - cbn. repeat split; auto.
  - destruct OF as [OF1 OF2], OD as [OD1 OD2].
    assert (rec : forall k, kind_eqb (skind s) k = false ->
              active k (s :: ss) = active k ss /\ forall ss', active k (s :: ss') = active k ss').
    { intros k E. unfold active. cbn [find_kind]. rewrite E. split; reflexivity. }
    destruct (sdisc s) eqn:Ds.
    + (* disconnected: skipped *)
      assert (AF : active Forcing (s :: ss) = active Forcing ss).
      { unfold active. cbn [find_kind]. destruct (kind_eqb (skind s) Forcing); [|reflexivity].
        now rewrite Ds, OF1. }
      assert (AD : active Deposit (s :: ss) = active Deposit ss).
      { unfold active. cbn [find_kind]. destruct (kind_eqb (skind s) Deposit); [|reflexivity].
        now rewrite Ds, OD1. }
      rewrite AF, AD in *. destruct (IH OF2 OD2 NB) as (I1 & I2 & I3 & I4 & I5 & I6 & I7 & I8).
      destruct (scan ss) as [r ss'] eqn:Es. cbn [fst snd] in *.
      split; [exact I1|].
      split. { rewrite <- I2. unfold active. cbn [find_kind].
               destruct (kind_eqb (skind s) Forcing); [|reflexivity]. now rewrite Ds, (I7 _ OF1). }
      split. { rewrite <- I3. unfold active. cbn [find_kind].
               destruct (kind_eqb (skind s) Deposit); [|reflexivity]. now rewrite Ds, (I7 _ OD1). }
      split. { cbn [drivers_of filter]. destruct (negb _); cbn [map]; [f_equal|]; exact I4. }
      split. { cbn [once]. split; [|exact I5]. destruct (kind_eqb (skind s) Forcing); [now apply I7|exact I]. }
      split. { cbn [once]. split; [|exact I6]. destruct (kind_eqb (skind s) Deposit); [now apply I7|exact I]. }
      split. { intros k. cbn [find_kind]. destruct (kind_eqb (skind s) k); [discriminate|apply I7]. }
      reflexivity.
    + destruct (skind s) eqn:K.
      * (* driver *)
        destruct (rec Forcing) as [RF RF']; [reflexivity|].
        destruct (rec Deposit) as [RD RD']; [reflexivity|].
        rewrite RF, RD in *. destruct (IH OF2 OD2 NB) as (I1 & I2 & I3 & I4 & I5 & I6 & I7 & I8).
        destruct (scan ss) as [r ss'] eqn:Es. cbn [fst snd] in *.
        rewrite RF', RD'. split; [exact I1|]. split; [exact I2|]. split; [exact I3|].
        split. { cbn [drivers_of filter]. rewrite K. cbn [is_pseudo negb map]. f_equal. exact I4. }
        split. { cbn [once]. rewrite K. split; [exact I|exact I5]. }
        split. { cbn [once]. rewrite K. split; [exact I|exact I6]. }
        split. { intros k. cbn [find_kind]. destruct (kind_eqb (skind s) k); [discriminate|apply I7]. }
        exact K.
      * (* force in effect *)
        assert (AF : active Forcing (s :: ss) = Some (sval s)).
        { unfold active. cbn [find_kind]. rewrite K. cbn. now rewrite Ds. }
        rewrite AF in *. cbn [fst snd]. split; [reflexivity|]. split; [exact AF|].
        split; [reflexivity|]. split; [reflexivity|].
        split. { cbn [once]. rewrite K. cbn. split; [exact OF1|exact OF2]. }
        split. { cbn [once]. rewrite K. cbn. split; [exact I|exact OD2]. }
        split; [auto|]. exact K.
      * (* deposit outstanding *)
        assert (AD : active Deposit (s :: ss) = Some (sval s)).
        { unfold active. cbn [find_kind]. rewrite K. cbn. now rewrite Ds. }
        assert (AF : active Forcing (s :: ss) = None) by (destruct NB as [NB|NB]; [exact NB|congruence]).
        rewrite AF in *. cbn [fst snd]. split; [now rewrite AD|].
        split. { rewrite <- AF. unfold active. cbn [find_kind]. rewrite K. reflexivity. }
        split. { unfold active. cbn. reflexivity. }
        split. { cbn [drivers_of filter]. rewrite K. reflexivity. }
        split. { cbn [once skind kind_eqb]. split; [exact I|exact OF2]. }
        split. { cbn [once skind kind_eqb]. split; [cbn in OD1; exact OD1|exact OD2]. }
        split. { intros k. cbn [find_kind]. rewrite K. cbn [skind].
                 destruct (kind_eqb Deposit k); [discriminate|auto]. }
        reflexivity.
Qed.

Section Run.
Variables (width : nat) (res : option (resfn * memo)) (register : bool) (initial : list nat)
          (okv : list nat -> Prop).

Definition rfn : option resfn := match res with Some (f, _) => Some f | None => None end.

Hypothesis res_ok : match res with
                    | Some (f, m) => forall vs, Forall okv vs ->
                        call_resolution f m width vs = call_general f vs width
                    | None => True
                    end.

Record rel (n : nexus) (o : obs) : Prop := {
  rl_width : n_width n = width;
  rl_res : n_res n = res;
  rl_reg : n_register n = register;
  rl_init : n_initial n = initial;
  rl_val : n_value n = o_value o;
  rl_force : active Forcing (n_sources n) = o_force o;
  rl_dep : active Deposit (n_sources n) = o_deposit o;
  rl_drv : map drv (drivers_of (n_sources n)) = o_drivers o;
  rl_o1 : once Forcing (n_sources n);
  rl_o2 : once Deposit (n_sources n);
  rl_first : match n_sources n with [] => False | s :: _ => skind s = Driver end;
  rl_okv : Forall (fun x => match x with Some v => okv v | None => True end) (o_drivers o) }.

Lemma connected_ok ds : Forall (fun x => match x with Some v => okv v | None => True end) ds ->
  Forall okv (connected ds).
Proof.
  induction 1 as [|[v|] ds H _ IH]; cbn [connected]; [constructor| |exact IH]. now constructor.
Qed.

Lemma calculate_ok n o : rel n o -> (o_force o = None \/ o_deposit o = None) ->
  match settle width rfn register initial o, calculate n with
  | Some o', Some n' => rel n' o'
  | None, None => True
  | _, _ => False
  end.
Proof.
  intros R NB. destruct R. unfold calculate, settle.
  destruct (n_sources n) as [|s0 ss0] eqn:Es; [easy|].
  assert (NB' : active Forcing (s0 :: ss0) = None \/ active Deposit (s0 :: ss0) = None)
    by (rewrite rl_force0, rl_dep0; exact NB).
  destruct (scan_spec (s0 :: ss0) rl_o3 rl_o4 NB') as (S1 & S2 & S3 & S4 & S5 & S6 & S7 & S8).
  destruct (scan (s0 :: ss0)) as [r ss]. cbn [fst snd] in *.
  rewrite rl_force0, rl_dep0 in *.
  assert (FST : match ss with [] => False | s :: _ => skind s = Driver end).
  { destruct ss; [easy|]. congruence. }
  assert (mk : forall v f d,
    (active Forcing ss = f -> active Deposit ss = d ->
     rel (Nexus (n_width n) (n_res n) (n_register n) (n_initial n) v ss) (Obs f d (o_drivers o) v))).
  { intros v f d Hf Hd. split; cbn [n_width n_res n_register n_initial n_value n_sources o_value o_force o_deposit o_drivers]; auto. congruence. }
  destruct (o_force o) as [fv|] eqn:Ef.
  { rewrite S1. apply mk; assumption. }
  destruct (o_deposit o) as [dv|] eqn:Ed.
  { rewrite S1. apply mk; assumption. }
  rewrite S1. rewrite values_connected, S4, rl_drv0. unfold driven, rfn.
  rewrite rl_res0, rl_reg0, rl_init0, rl_first0, rl_val0, rl_width0.
  rewrite rl_res0, rl_reg0, rl_init0, rl_width0 in mk.
  pose proof (connected_ok _ rl_okv0) as CO.
  destruct res as [[f m]|].
  - rewrite (res_ok _ CO). cbn [is_pseudo].
    destruct (connected (o_drivers o)) as [|v0 vs]; [destruct register|].
    + apply mk; assumption.
    + destruct (call_general f [] width); [apply mk; assumption|exact I].
    + destruct (call_general f (v0 :: vs) width); [apply mk; assumption|exact I].
  - destruct (connected (o_drivers o)) as [|v0 vs].
    + destruct register; apply mk; assumption.
    + apply mk; assumption.
Qed.

Lemma set_nth_ok x : (match x with Some v => okv v | None => True end) -> forall ds k,
  Forall (fun x => match x with Some v => okv v | None => True end) ds ->
  Forall (fun x => match x with Some v => okv v | None => True end) (set_nth k x ds).
Proof.
  intros H. induction ds as [|d ds IH]; intros k F; destruct k; cbn [set_nth]; try constructor;
    try assumption; try (now apply Forall_inv in F); try (now apply Forall_inv_tail in F).
  apply IH. now apply Forall_inv_tail in F.
Qed.

Lemma first_pseudo k g zero ss : k <> Driver ->
  match ss with [] => False | s :: _ => skind s = Driver end ->
  match set_pseudo k g zero ss with [] => False | s :: _ => skind s = Driver end.
Proof.
  destruct ss as [|s ss]; [easy|]. intros N H. cbn [set_pseudo]. rewrite H.
  replace (kind_eqb Driver k) with false by (symmetry; apply kind_eqb_neq; congruence). exact H.
Qed.

Lemma step_ok n o op : rel n o -> op_vals okv op -> (o_force o = None \/ o_deposit o = None) ->
  match ostep width rfn register initial o op, nstep n op with
  | Some o', Some n' => rel n' o'
  | None, None => True
  | _, _ => False
  end.
Proof.
  intros R V NB. destruct op as [v| |v|k x|]; cbn [ostep nstep].
  - destruct R. unfold force, with_sources. split; cbn; auto.
    + unfold active. rewrite set_pseudo_find by reflexivity. now destruct (find_kind _ _).
    + unfold active. rewrite set_pseudo_other by (reflexivity || discriminate). exact rl_dep0.
    + rewrite set_pseudo_drivers by (reflexivity || discriminate). exact rl_drv0.
    + apply set_pseudo_once; [reflexivity|assumption].
    + apply set_pseudo_once; [reflexivity|assumption].
    + apply first_pseudo; [discriminate|assumption].
  - destruct R. unfold release, with_sources. split; cbn; auto.
    + unfold active. rewrite set_pseudo_find by reflexivity. now destruct (find_kind _ _).
    + unfold active. rewrite set_pseudo_other by (reflexivity || discriminate). exact rl_dep0.
    + rewrite set_pseudo_drivers by (reflexivity || discriminate). exact rl_drv0.
    + apply set_pseudo_once; [reflexivity|assumption].
    + apply set_pseudo_once; [reflexivity|assumption].
    + apply first_pseudo; [discriminate|assumption].
  - destruct R. unfold deposit, with_sources. split; cbn; auto.
    + unfold active. rewrite set_pseudo_other by (reflexivity || discriminate). exact rl_force0.
    + unfold active. rewrite set_pseudo_find by reflexivity. now destruct (find_kind _ _).
    + rewrite set_pseudo_drivers by (reflexivity || discriminate). exact rl_drv0.
    + apply set_pseudo_once; [reflexivity|assumption].
    + apply set_pseudo_once; [reflexivity|assumption].
    + apply first_pseudo; [discriminate|assumption].
  - apply calculate_ok; [|exact NB]. destruct R. unfold with_sources. split; cbn; auto.
    + unfold active. rewrite set_driver_find by discriminate. exact rl_force0.
    + unfold active. rewrite set_driver_find by discriminate. exact rl_dep0.
    + rewrite set_driver_drv. now rewrite rl_drv0.
    + apply set_driver_once; [discriminate|assumption].
    + apply set_driver_once; [discriminate|assumption].
    + destruct (n_sources n) as [|s ss]; [easy|]. cbn [set_driver]. rewrite rl_first0.
      destruct k; [reflexivity|exact rl_first0].
    + apply set_nth_ok; [|assumption]. destruct x; exact V || exact I.
  - now apply calculate_ok.
Qed.

Lemma run_ok : forall ops n o, rel n o -> Forall (op_vals okv) ops ->
  never_both width rfn register initial o ops ->
  match orun width rfn register initial o ops, nrun n ops with
  | Some o', Some n' => rel n' o'
  | None, None => True
  | _, _ => False
  end.
Proof.
  induction ops as [|op ops IH]; intros n o R V NB; cbn [orun nrun]; [exact R|].
  cbn [never_both] in NB. destruct NB as [NB1 NB2].
  pose proof (step_ok n o op R (Forall_inv V) NB1) as S.
  destruct (ostep width rfn register initial o op) as [o'|], (nstep n op) as [n'|];
    try contradiction; [|exact I].
  apply IH; [exact S|now apply Forall_inv_tail in V|exact NB2].
Qed.
End Run.
