(* Proofs about the hash tables of HashModel.v. *)
From Coq Require Import List Arith Lia Bool.
From Verif Require Import Base HashModel HashSpec.
Import ListNotations.

Section P.
Context {K V : Type} (eqb : K -> K -> bool) (hash : K -> nat).
Hypothesis eqb_ok : forall a b, eqb a b = true <-> a = b.

Lemma eqb_refl k : eqb k k = true.
Proof. apply eqb_ok; reflexivity. Qed.

Lemma eqb_neq a b : eqb a b = false <-> a <> b.
Proof.
  split; intros H.
  - intros ->. rewrite eqb_refl in H. discriminate.
  - destruct (eqb a b) eqn:E; [|reflexivity]. apply eqb_ok in E. contradiction.
Qed.

Fixpoint count (keys : nat -> option K) (n : nat) : nat :=
  match n with
  | 0 => 0
  | S m => count keys m + match keys m with Some _ => 1 | None => 0 end
  end.

Lemma count_le keys n : count keys n <= n.
Proof. induction n; cbn [count]; [lia|]. destruct (keys n); lia. Qed.

Lemma count_mono keys a b : a <= b -> count keys a <= count keys b.
Proof. induction 1; [lia|]. cbn [count]. destruct (keys m); lia. Qed.

Lemma count_full keys n : (forall i, i < n -> keys i <> None) -> count keys n = n.
Proof.
  induction n; intros H; cbn [count]; [reflexivity|].
  rewrite IHn by (intros; apply H; lia).
  specialize (H n ltac:(lia)). destruct (keys n); [lia|congruence].
Qed.

Lemma count_upd_other keys n s k : n <= s -> count (upd keys s k) n = count keys n.
Proof.
  induction n; intros H; cbn [count]; [reflexivity|].
  rewrite IHn by lia. rewrite upd_other by lia. reflexivity.
Qed.

Lemma count_store keys n s k : s < n -> keys s = None ->
  count (upd keys s (Some k)) n = count keys n + 1.
Proof.
  induction n; intros H E; [lia|]. cbn [count].
  destruct (Nat.eq_dec s n) as [->|].
  - rewrite count_upd_other by lia. rewrite upd_same, E. lia.
  - rewrite IHn by (assumption || lia). rewrite upd_other by lia. lia.
Qed.

Lemma empty_slot keys n : count keys n < n -> exists i, i < n /\ keys i = None.
Proof.
  induction n; intros H; [lia|]. cbn [count] in H.
  destruct (keys n) eqn:E.
  - destruct IHn as (i & Hi & Hn); [lia|]. exists i. split; [lia|assumption].
  - exists n. split; [lia|assumption].
Qed.

Definition pow2 (n : nat) : Prop := exists p, n = 2 ^ p.

Lemma pow2_pos n : pow2 n -> 0 < n.
Proof. intros [p ->]. pose proof (Nat.pow_nonzero 2 p). lia. Qed.

Lemma land_pow2 n x : pow2 n -> Nat.land x (n - 1) = x mod n.
Proof.
  intros [p ->]. rewrite <- Nat.land_ones. f_equal.
  rewrite Nat.ones_equiv. lia.
Qed.

Lemma pow2_double n : pow2 n -> pow2 (n * 2).
Proof. intros [p ->]. exists (S p). cbn [Nat.pow]. lia. Qed.

Definition at_ (size : nat) (k : K) (d : nat) : nat := (hash k + d) mod size.

Lemma at_lt size k d : 0 < size -> at_ size k d < size.
Proof. intros. apply Nat.mod_upper_bound. lia. Qed.

Lemma slot_at size k : pow2 size -> hash_slot hash size k = at_ size k 0.
Proof. intros H. unfold hash_slot, at_. rewrite land_pow2 by assumption. f_equal; lia. Qed.

Lemma next_at size k d : pow2 size -> next_slot size (at_ size k d) = at_ size k (S d).
Proof.
  intros H. pose proof (pow2_pos _ H). unfold next_slot, at_.
  rewrite land_pow2 by assumption.
  rewrite Nat.add_mod_idemp_l by lia. f_equal. lia.
Qed.

Lemma at_cover size k s : 0 < size -> s < size -> exists d, d < size /\ at_ size k d = s.
Proof.
  intros Hp Hs. unfold at_.
  exists ((s + size - hash k mod size) mod size).
  split; [apply Nat.mod_upper_bound; lia|].
  rewrite Nat.add_mod_idemp_r by lia.
  pose proof (Nat.mod_upper_bound (hash k) size ltac:(lia)).
  rewrite <- Nat.add_mod_idemp_l by lia.
  replace (hash k mod size + (s + size - hash k mod size)) with (s + 1 * size) by lia.
  rewrite Nat.mod_add by lia. apply Nat.mod_small; lia.
Qed.

(* Every key can be reached from its home slot. *)
Record kinv (size : nat) (keys : nat -> option K) (n : nat) : Prop := {
  k_pow : pow2 size;
  k_range : forall i k, keys i = Some k -> i < size;
  k_uniq : forall i j k, keys i = Some k -> keys j = Some k -> i = j;
  k_reach : forall i k, keys i = Some k ->
     exists d, d < size /\ i = at_ size k d /\ forall e, e < d -> keys (at_ size k e) <> None;
  k_count : count keys size = n
}.

Definition probe_post (size : nat) (keys : nat -> option K) (k : K) (r : probe_result) : Prop :=
  match r with
  | Found s => keys s = Some k
  | Empty s => keys s = None /\ (forall i, keys i <> Some k) /\
     exists d, d < size /\ s = at_ size k d /\ forall e, e < d -> keys (at_ size k e) <> None
  end.

Lemma probe_ok_gen size keys n k : kinv size keys n -> n < size ->
  forall f d, f + d = size ->
  (forall e, e < d -> keys (at_ size k e) <> None /\ keys (at_ size k e) <> Some k) ->
  exists r, probe eqb f size keys (at_ size k d) k = Ok r /\ probe_post size keys k r.
Proof.
  intros I Hn. pose proof (pow2_pos _ (k_pow _ _ _ I)) as Hp.
  induction f; intros d Hf Hd.
  - exfalso. destruct (empty_slot keys size) as (i & Hi & E).
    + rewrite (k_count _ _ _ I). assumption.
    + destruct (at_cover size k i Hp Hi) as (e & He & Ea).
      destruct (Hd e ltac:(lia)) as [C _]. rewrite Ea in C. contradiction.
  - cbn [probe]. destruct (keys (at_ size k d)) as [k'|] eqn:E.
    + destruct (eqb k' k) eqn:Q.
      * apply eqb_ok in Q. subst k'. eexists; split; [reflexivity|]. exact E.
      * rewrite next_at by (apply (k_pow _ _ _ I)). apply IHf; [lia|].
        intros e He. destruct (Nat.eq_dec e d) as [->|].
        -- rewrite E. split; [discriminate|]. apply eqb_neq in Q. congruence.
        -- apply Hd. lia.
    + eexists; split; [reflexivity|]. split; [exact E|]. split.
      * intros i Hi. destruct (k_reach _ _ _ I _ _ Hi) as (e & He & -> & Hocc).
        destruct (Nat.lt_trichotomy e d) as [L|[->|L]].
        -- apply (Hd e L). assumption.
        -- congruence.
        -- exact (Hocc d L E).
      * exists d. split; [lia|]. split; [reflexivity|]. intros e He. apply Hd; assumption.
Qed.

Lemma probe_ok size keys n k : kinv size keys n -> n < size ->
  exists r, probe eqb size size keys (hash_slot hash size k) k = Ok r /\
            probe_post size keys k r.
Proof.
  intros I Hn. rewrite slot_at by apply (k_pow _ _ _ I).
  apply (probe_ok_gen _ _ n); auto; intros; lia.
Qed.

Lemma rebuild_probe_ok size keys n k : kinv size keys n -> n < size ->
  (forall i, keys i <> Some k) ->
  exists s, rebuild_probe eqb size size keys (hash_slot hash size k) k = Ok s /\
            probe_post size keys k (Empty s).
Proof.
  intros I Hn Hk. destruct (probe_ok _ _ _ k I Hn) as (r & E & P).
  assert (G : forall f s, probe eqb f size keys s k =
      match rebuild_probe eqb f size keys s k with Ok a => Ok (Empty a) | Fault => Fault end).
  { induction f; intros s; cbn [probe rebuild_probe]; [reflexivity|].
    destruct (keys s) as [k'|] eqn:Q; [|reflexivity].
    destruct (eqb k' k) eqn:Q2; [|apply IHf].
    apply eqb_ok in Q2. subst. exfalso. eapply Hk; eassumption. }
  rewrite G in E. destruct (rebuild_probe eqb size size keys _ k) as [a|]; [|discriminate].
  injection E as <-. exists a. split; [reflexivity|assumption].
Qed.

Lemma kinv_empty size : pow2 size -> kinv size (fun _ => None) 0.
Proof.
  intros H. constructor; auto; try discriminate.
  clear. induction size; cbn [count]; lia.
Qed.

Lemma kinv_store size keys n k s : kinv size keys n ->
  probe_post size keys k (Empty s) ->
  kinv size (upd keys s (Some k)) (n + 1).
Proof.
  intros I (E & Hk & d & Hd & Es & Hocc).
  pose proof (pow2_pos _ (k_pow _ _ _ I)) as Hp.
  assert (Hs : s < size) by (subst s; apply at_lt; assumption).
  constructor.
  - apply (k_pow _ _ _ I).
  - intros i k'. unfold upd. destruct (Nat.eqb_spec i s); [subst; auto|]. apply (k_range _ _ _ I).
  - intros i j k'. unfold upd.
    destruct (Nat.eqb_spec i s), (Nat.eqb_spec j s); subst; auto; intros A B.
    + injection A as <-. exfalso. eapply Hk; eassumption.
    + injection B as <-. exfalso. eapply Hk; eassumption.
    + eapply (k_uniq _ _ _ I); eassumption.
  - intros i k'. unfold upd at 1. destruct (Nat.eqb_spec i s) as [->|Hi]; intros A.
    + injection A as <-. exists d. split; [assumption|]. split; [assumption|].
      intros e He. unfold upd. destruct (Nat.eqb_spec (at_ size k e) s); [discriminate|auto].
    + destruct (k_reach _ _ _ I _ _ A) as (d' & Hd' & Ei & Ho). exists d'.
      split; [assumption|]. split; [assumption|].
      intros e He. unfold upd. destruct (Nat.eqb_spec (at_ size k' e) s); [discriminate|auto].
  - rewrite count_store by assumption. rewrite (k_count _ _ _ I). reflexivity.
Qed.

(* A table represents a map. *)
Definition live (h : tab K V) (k : K) (v : V) : Prop :=
  exists s, tkeys h s = Some k /\ tvals h s = Some v.
Definition haskey (h : tab K V) (k : K) : Prop := exists s, tkeys h s = Some k.

Definition core (h : tab K V) : Prop := kinv (tsize h) (tkeys h) (tmembers h).
Definition tinv (h : tab K V) : Prop :=
  core h /\ 4 <= tsize h /\ tmembers h <= tsize h / 2 + 1.
Definition rep (h : tab K V) (m : K -> option V) : Prop :=
  forall k v, live h k v <-> m k = Some v.

Lemma live_val h k v s : core h -> tkeys h s = Some k -> (live h k v <-> tvals h s = Some v).
Proof.
  intros I E. split.
  - intros (s' & A & B). rewrite (k_uniq _ _ _ I _ _ _ E A). assumption.
  - intros B. exists s. auto.
Qed.

Lemma tinv_room h : tinv h -> tmembers h < tsize h.
Proof. intros (I & H4 & Hm). revert Hm. dlia. Qed.

Lemma core_new size : pow2 size -> core (hash_new size).
Proof. intros H. apply kinv_empty. assumption. Qed.

Lemma rep_new size : rep (hash_new size) (fun _ => None).
Proof. intros k v. split; [intros (s & A & _)|]; discriminate. Qed.

(* Storing a new key. *)
Lemma store_core h s k v : core h -> probe_post (tsize h) (tkeys h) k (Empty s) ->
  core (store h s k v).
Proof. intros. apply kinv_store; assumption. Qed.

Lemma store_rep h s k v m : core h -> rep h m ->
  probe_post (tsize h) (tkeys h) k (Empty s) -> rep (store h s k v) (fm_set eqb m k v).
Proof.
  intros I R (E & Hk & _) k' v'. unfold fm_set. split.
  - intros (s' & A & B). cbn in A, B. unfold upd in A, B.
    destruct (Nat.eqb_spec s' s) as [Ess|Nss]; [subst s'|].
    + injection A as <-. rewrite eqb_refl. assumption.
    + destruct (eqb k k') eqn:Q; [apply eqb_ok in Q; subst; exfalso; eapply Hk; eassumption|].
      apply R. exists s'. auto.
  - destruct (eqb k k') eqn:Q.
    + apply eqb_ok in Q. subst k'. intros ->. exists s. cbn. rewrite !upd_same. auto.
    + intros Hm. apply R in Hm. destruct Hm as (s' & A & B). exists s'. cbn.
      assert (s' <> s) by congruence. rewrite !upd_other by auto. auto.
Qed.

Lemma store_has h s k v k' : tkeys h s = None ->
  (haskey (store h s k v) k' <-> k' = k \/ haskey h k').
Proof.
  intros E. unfold haskey. cbn. split.
  - intros (s' & A). unfold upd in A. destruct (Nat.eqb_spec s' s); [left; congruence|right; eauto].
  - intros [->|(s' & A)]; [exists s; apply upd_same|]. exists s'. rewrite upd_other; congruence.
Qed.

(* Overwriting a value. *)
Definition setval (h : tab K V) (s : nat) (v : option V) : tab K V :=
  Tab (tsize h) (tmembers h) (tkeys h) (upd (tvals h) s v).

Lemma setval_rep h s k v m : core h -> rep h m -> tkeys h s = Some k ->
  rep (setval h s v) (fm_set eqb m k v).
Proof.
  intros I R E k' v'. unfold fm_set. split.
  - intros (s' & A & B). cbn in A, B. unfold upd in B.
    destruct (Nat.eqb_spec s' s) as [Ess|N]; [subst s'|].
    + assert (k' = k) by congruence. subst k'. rewrite eqb_refl. assumption.
    + destruct (eqb k k') eqn:Q.
      * apply eqb_ok in Q. subst. exfalso. apply N. eapply (k_uniq _ _ _ I); eassumption.
      * apply R. exists s'. auto.
  - destruct (eqb k k') eqn:Q.
    + apply eqb_ok in Q. subst k'. intros ->. exists s. cbn. rewrite upd_same. auto.
    + intros Hm. apply R in Hm. destruct Hm as (s' & A & B). exists s'. cbn.
      apply eqb_neq in Q. rewrite upd_other by congruence. auto.
Qed.

(* Rebuilding. *)
Definition part (old : tab K V) (i : nat) (k : K) (v : V) : Prop :=
  exists j, j < i /\ tkeys old j = Some k /\ tvals old j = Some v.

Lemma hash_rebuild_ok old size : core old -> count (tkeys old) (tsize old) < size ->
  forall todo i h,
  todo + i = tsize old -> core h -> tsize h = size ->
  tmembers h <= count (tkeys old) i ->
  (forall k v, live h k v <-> part old i k v) ->
  (forall k, haskey h k -> exists v, part old i k v) ->
  exists h', hash_rebuild eqb hash todo old i h = Ok h' /\ core h' /\ tsize h' = size /\
     tmembers h' <= count (tkeys old) (tsize old) /\
     (forall k v, live h' k v <-> part old (tsize old) k v) /\
     (forall k, haskey h' k -> exists v, part old (tsize old) k v).
Proof.
  intros Io Hsz. induction todo; intros i h Ht Ih Hs Hm HL HK.
  - exists h. cbn in Ht. subst i. cbn [hash_rebuild]. auto 10.
  - assert (PS : forall k v, part old (S i) k v <->
        part old i k v \/ (tkeys old i = Some k /\ tvals old i = Some v)).
    { intros k v. split.
      - intros (j & Hj & A). destruct (Nat.eq_dec j i) as [->|]; [right; exact A|].
        left. exists j. split; [lia|exact A].
      - intros [(j & Hj & A)|A]; [exists j; split; [lia|exact A]|exists i; split; [lia|exact A]]. }
    assert (CS : count (tkeys old) i <= count (tkeys old) (S i)) by (apply count_mono; lia).
    cbn [hash_rebuild].
    assert (SKIP : (tkeys old i = None \/ tvals old i = None) ->
       exists h', hash_rebuild eqb hash todo old (S i) h = Ok h' /\ core h' /\ tsize h' = size /\
     tmembers h' <= count (tkeys old) (tsize old) /\
     (forall k v, live h' k v <-> part old (tsize old) k v) /\
     (forall k, haskey h' k -> exists v, part old (tsize old) k v)).
    { intros N. apply IHtodo; auto; [lia|lia| |].
      - intros k v. rewrite HL, PS. intuition congruence.
      - intros k Hk. destruct (HK k Hk) as (v & Hv). exists v. apply PS. auto. }
    destruct (tkeys old i) as [k|] eqn:Ek; [|apply SKIP; auto].
    destruct (tvals old i) as [v|] eqn:Ev; [|apply SKIP; auto].
    clear SKIP.
    assert (NK : forall s, tkeys h s <> Some k).
    { intros s C. destruct (HK k (ex_intro _ s C)) as (v' & j & Hj & A & _).
      pose proof (k_uniq _ _ _ Io _ _ _ A Ek). lia. }
    assert (CI : count (tkeys old) (S i) <= count (tkeys old) (tsize old))
      by (apply count_mono; lia).
    cbn [count] in CI. rewrite Ek in CI.
    destruct (rebuild_probe_ok (tsize h) (tkeys h) (tmembers h) k) as (s & Es & Ps);
      [assumption|lia|assumption|].
    rewrite Es. cbn [bind]. apply IHtodo; [lia|apply store_core; assumption|assumption| | |].
    + cbn [store tmembers count]. rewrite Ek. lia.
    + intros k' v'. rewrite PS. destruct Ps as (En & _ & _). split.
      * intros (s' & A & B). cbn in A, B. unfold upd in A, B.
        destruct (Nat.eqb_spec s' s) as [Ess|Nss]; [right; auto|].
        left. apply HL. exists s'. auto.
      * intros [A|[A B]].
        -- apply HL in A. destruct A as (s' & A & B). exists s'. cbn.
           rewrite !upd_other by congruence. auto.
        -- exists s. cbn. rewrite !upd_same. split; congruence.
    + intros k' Hk'. apply store_has in Hk'; [|apply Ps].
      destruct Hk' as [->|Hk'].
      * exists v. apply PS. right. auto.
      * destruct (HK _ Hk') as (v' & Hv'). exists v'. apply PS. auto.
Qed.

Lemma part_all h k v : core h -> (part h (tsize h) k v <-> live h k v).
Proof.
  intros I. split; intros A.
  - destruct A as (j & _ & A). exists j. exact A.
  - destruct A as (j & A & B). exists j. split; [eapply (k_range _ _ _ I); eassumption|auto].
Qed.

Lemma grow_ok h : tinv h ->
  exists h', (if tsize h / 2 <? tmembers h
            then hash_rebuild eqb hash (tsize h) h 0 (hash_new (tsize h * 2))
            else Ok h) = Ok h' /\ core h' /\ 4 <= tsize h' /\ tmembers h' <= tsize h' / 2 /\
     (forall k v, live h' k v <-> live h k v) /\
     (forall k, haskey h' k -> haskey h k).
Proof.
  intros (I & H4 & Hm). destruct (tsize h / 2 <? tmembers h) eqn:G.
  - pose proof (k_count _ _ _ I) as HC.
    destruct (hash_rebuild_ok h (tsize h * 2) I) with (todo := tsize h) (i := 0)
      (h := @hash_new K V (tsize h * 2)) as (h' & E & Ic & Hs & Hm' & HL & HK).
    + rewrite HC. revert Hm. dlia.
    + lia.
    + apply core_new, pow2_double, (k_pow _ _ _ I).
    + reflexivity.
    + cbn. lia.
    + intros k v. split; [intros (s & A & _); discriminate|intros (j & Hj & _); lia].
    + intros k (s & A). discriminate.
    + exists h'. split; [assumption|]. split; [assumption|]. split; [lia|]. split.
      * rewrite Hs. rewrite HC in Hm'. revert Hm. dlia.
      * split; [intros; rewrite HL; apply part_all; assumption|].
        intros k Hk. destruct (HK _ Hk) as (v & j & _ & A & _). exists j. assumption.
  - apply Nat.ltb_ge in G. exists h. split; [reflexivity|]. split; [assumption|]. split; [assumption|]. split; [assumption|]. try split; intros; tauto.
Qed.

Lemma hash_put_ok h k v m : tinv h -> rep h m ->
  exists b h', hash_put eqb hash h k v = Ok (b, h') /\ tinv h' /\
    rep h' (fm_set eqb m k v) /\
    (m k <> None -> b = true) /\ (b = true -> haskey h k) /\
    (forall k', haskey h' k' -> k' = k \/ haskey h k').
Proof.
  intros I R. destruct (grow_ok h I) as (h1 & E1 & C1 & H41 & Hm1 & HL & HK).
  assert (R1 : rep h1 m) by (intros k' v'; rewrite HL; apply R).
  unfold hash_put. rewrite E1. cbn [bind].
  destruct (probe_ok _ _ _ k C1) as (r & Er & Pr); [revert Hm1; dlia|].
  rewrite Er. cbn [bind]. destruct r as [s|s].
  - exists true, (setval h1 s v). split; [reflexivity|]. split; [|split; [|split; [|split]]].
    + split; [exact C1|]. cbn. split; [assumption|lia].
    + apply setval_rep; assumption.
    + auto.
    + intros _. apply HK. exists s. exact Pr.
    + intros k' Hk'. right. apply HK. exact Hk'.
  - exists false, (store h1 s k v). split; [reflexivity|]. split; [|split; [|split; [|split]]].
    + split; [apply store_core; assumption|]. cbn. split; [assumption|lia].
    + apply store_rep; assumption.
    + intros A. exfalso. destruct (m k) as [v'|] eqn:Em; [|contradiction].
      apply R1 in Em. destruct Em as (s' & B & _). apply Pr in B. assumption.
    + discriminate.
    + intros k' Hk'. apply store_has in Hk'; [|apply Pr]. destruct Hk'; auto.
Qed.

Lemma hash_delete_ok h k m : tinv h -> rep h m ->
  exists h', hash_delete eqb hash h k = Ok h' /\ tinv h' /\ rep h' (fm_set eqb m k None) /\
    (forall k', haskey h' k' -> haskey h k').
Proof.
  intros I R. pose proof (tinv_room _ I) as Hr. destruct I as (C & I).
  unfold hash_delete. destruct (probe_ok _ _ _ k C Hr) as (r & Er & Pr).
  rewrite Er. cbn [bind]. destruct r as [s|s].
  - exists (setval h s None). split; [reflexivity|]. split; [split; [exact C|exact I]|].
    split; [apply setval_rep; assumption|auto].
  - exists h. split; [reflexivity|]. split; [split; assumption|]. split; [|auto].
    intros k' v'. unfold fm_set. destruct (eqb k k') eqn:Q; [|apply R].
    apply eqb_ok in Q. subst. split; [intros (s' & A & _)|discriminate].
    apply Pr in A. contradiction.
Qed.

Lemma hash_get_ok h k m : tinv h -> rep h m -> hash_get eqb hash h k = Ok (m k).
Proof.
  intros I R. pose proof (tinv_room _ I) as Hr. destruct I as (C & I).
  unfold hash_get. destruct (probe_ok _ _ _ k C Hr) as (r & Er & Pr).
  rewrite Er. cbn [bind]. destruct r as [s|s]; f_equal.
  - destruct (tvals h s) as [v|] eqn:Ev.
    + symmetry. apply R. exists s. auto.
    + destruct (m k) as [v|] eqn:Em; [|reflexivity].
      apply R in Em. apply (live_val h k v s C) in Em; [congruence|assumption].
  - destruct (m k) as [v|] eqn:Em; [|reflexivity].
    apply R in Em. destruct Em as (s' & B & _). apply Pr in B. contradiction.
Qed.

(* Iteration. *)
Lemma hash_iter_spec (h : tab K V) : forall todo now,
  match hash_iter todo h now with
  | Some (now', k, v) => now < now' <= now + todo /\ tkeys h (now' - 1) = Some k /\
       tvals h (now' - 1) = Some v /\
       forall i, now <= i < now' - 1 -> tkeys h i = None \/ tvals h i = None
  | None => forall i, now <= i < now + todo -> tkeys h i = None \/ tvals h i = None
  end.
Proof.
  induction todo; intros now; cbn [hash_iter]; [intros; lia|].
  assert (SKIP : tkeys h now = None \/ tvals h now = None ->
   match hash_iter todo h (S now) with
  | Some (now', k, v) => now < now' <= now + S todo /\ tkeys h (now' - 1) = Some k /\
       tvals h (now' - 1) = Some v /\
       forall i, now <= i < now' - 1 -> tkeys h i = None \/ tvals h i = None
  | None => forall i, now <= i < now + S todo -> tkeys h i = None \/ tvals h i = None
  end).
  { intros N. specialize (IHtodo (S now)). destruct (hash_iter todo h (S now)) as [[[n' k] v]|].
    - destruct IHtodo as (A & B & C & D). split; [lia|]. split; [auto|]. split; [auto|].
      intros i Hi. destruct (Nat.eq_dec i now) as [->|]; [assumption|apply D; lia].
    - intros i Hi. destruct (Nat.eq_dec i now) as [->|]; [assumption|apply IHtodo; lia]. }
  destruct (tkeys h now) as [k|] eqn:Ek; [|apply SKIP; auto].
  destruct (tvals h now) as [v|] eqn:Ev; [|apply SKIP; auto].
  replace (S now - 1) with now by lia. split; [lia|]. split; [assumption|]. split; [assumption|].
  intros; lia.
Qed.

Lemma hash_iter_all_spec h : core h -> forall fuel now, now + fuel > tsize h ->
  NoDup (map fst (hash_iter_all fuel h now)) /\
  forall k v, In (k, v) (hash_iter_all fuel h now) <->
     exists i, now <= i < tsize h /\ tkeys h i = Some k /\ tvals h i = Some v.
Proof.
  intros C. induction fuel; intros now Hf; cbn [hash_iter_all].
  - split; [constructor|]. intros k v. split; [contradiction|]. intros (i & Hi & _). lia.
  - pose proof (hash_iter_spec h (tsize h - now) now) as HS.
    destruct (hash_iter (tsize h - now) h now) as [[[n' k] v]|].
    + destruct HS as (A & B & D & E). destruct (IHfuel n' ltac:(lia)) as (ND & HI). split.
      * cbn [map fst]. constructor; [|assumption].
        rewrite in_map_iff. intros ([k' v'] & Q & Hin). cbn in Q. subst k'.
        apply HI in Hin. destruct Hin as (i & Hi & Ki & _).
        pose proof (k_uniq _ _ _ C _ _ _ Ki B). lia.
      * intros k' v'. cbn [In]. rewrite HI. split.
        -- intros [Q|(i & Hi & Q)]; [injection Q as <- <-; exists (n' - 1); split; [lia|auto]|].
           exists i. split; [lia|assumption].
        -- intros (i & Hi & Ki & Vi). destruct (Nat.lt_trichotomy i (n' - 1)) as [L|[->|L]].
           ++ destruct (E i ltac:(lia)); congruence.
           ++ left. congruence.
           ++ right. exists i. split; [lia|auto].
    + split; [constructor|]. intros k v. split; [contradiction|].
      intros (i & Hi & Ki & Vi). destruct (HS i ltac:(lia)); congruence.
Qed.

Lemma hash_iter_ok h m : tinv h -> rep h m ->
  lists_map m (hash_iter_all (S (tsize h)) h 0).
Proof.
  intros (C & I) R. destruct (hash_iter_all_spec h C (S (tsize h)) 0 ltac:(lia)) as (ND & HI).
  split; [assumption|]. intros k v. rewrite HI. rewrite <- (R k v). split.
  - intros (i & _ & A). exists i. exact A.
  - intros (i & A & B). exists i. split; [|auto]. split; [lia|]. eapply (k_range _ _ _ C); eassumption.
Qed.

(* String tables. *)
Lemma put_copy_ok h k v m : core h -> tmembers h < tsize h -> rep h m ->
  exists h', shash_put_copy eqb hash h k v = Ok h' /\ core h' /\ tsize h' = tsize h /\
    tmembers h <= tmembers h' <= tmembers h + 1 /\
    rep h' (fm_set eqb m k v) /\
    (forall k', haskey h' k' <-> k' = k \/ haskey h k') /\
    ((forall s, tkeys h s <> Some k) -> tmembers h' = tmembers h + 1).
Proof.
  intros C Hr R. unfold shash_put_copy. destruct (probe_ok _ _ _ k C Hr) as (r & Er & Pr).
  rewrite Er. cbn [bind]. destruct r as [s|s].
  - exists (setval h s v). split; [reflexivity|]. split; [exact C|]. split; [reflexivity|].
    split; [cbn; lia|]. split; [apply setval_rep; assumption|]. split.
    + intros k'. split; [auto|]. intros [->|A]; [exists s; exact Pr|exact A].
    + intros N. exfalso. apply (N s). exact Pr.
  - exists (store h s k v). split; [reflexivity|]. split; [apply store_core; assumption|].
    split; [reflexivity|]. split; [cbn; lia|]. split; [apply store_rep; assumption|].
    split; [intros k'; apply store_has; apply Pr|reflexivity].
Qed.

Definition pmap (old : tab K V) (m : K -> option V) (i : nat) (m' : K -> option V) : Prop :=
  forall k v, m' k = Some v <-> part old i k v.

Lemma shash_rebuild_ok old size : core old -> count (tkeys old) (tsize old) < size ->
  forall todo i h,
  todo + i = tsize old -> core h -> tsize h = size ->
  tmembers h = count (tkeys old) i ->
  (forall k v, live h k v <-> part old i k v) ->
  (forall k, haskey h k <-> exists j, j < i /\ tkeys old j = Some k) ->
  exists h', shash_rebuild eqb hash todo old i h = Ok h' /\ core h' /\ tsize h' = size /\
     tmembers h' = count (tkeys old) (tsize old) /\
     (forall k v, live h' k v <-> part old (tsize old) k v) /\
     (forall k, haskey h' k <-> exists j, j < tsize old /\ tkeys old j = Some k).
Proof.
  intros Io Hsz. induction todo; intros i h Ht Ih Hs Hm HL HK.
  - exists h. cbn in Ht. subst i. cbn [shash_rebuild]. auto 10.
  - cbn [shash_rebuild]. destruct (tkeys old i) as [k|] eqn:Ek.
    + assert (CI : count (tkeys old) (S i) <= count (tkeys old) (tsize old))
        by (apply count_mono; lia).
      cbn [count] in CI. rewrite Ek in CI.
      assert (NK : forall s, tkeys h s <> Some k).
      { intros s C. destruct (proj1 (HK k) (ex_intro _ s C)) as (j & Hj & A).
        pose proof (k_uniq _ _ _ Io _ _ _ A Ek). lia. }
      destruct (probe_ok _ _ _ k Ih) as (r & Er & Pr); [lia|].
      unfold shash_put_copy. rewrite Er. cbn [bind].
      destruct r as [s|s]; [exfalso; eapply NK; exact Pr|]. cbn [bind].
      assert (En : tkeys h s = None) by apply Pr.
      apply IHtodo; [lia|apply store_core; assumption|assumption| | |].
      * cbn [store tmembers count]. rewrite Ek. lia.
      * intros k' v'. split.
        -- intros (s' & A & B). cbn in A, B. unfold upd in A, B.
           destruct (Nat.eqb_spec s' s) as [Ess|Nss]; [subst s'|].
           ++ exists i. split; [lia|]. split; congruence.
           ++ assert (P : part old i k' v') by (apply HL; exists s'; auto).
              destruct P as (j & Hj & P). exists j. split; [lia|exact P].
        -- intros (j & Hj & A & B). destruct (Nat.eq_dec j i) as [->|].
           ++ exists s. cbn. rewrite !upd_same. split; congruence.
           ++ assert (P : live h k' v') by (apply HL; exists j; split; [lia|auto]).
              destruct P as (s' & P & Q). exists s'. cbn.
              rewrite !upd_other by congruence. auto.
      * intros k'. rewrite store_has by assumption. rewrite HK. split.
        -- intros [->|(j & Hj & A)]; [exists i; split; [lia|auto]|exists j; split; [lia|auto]].
        -- intros (j & Hj & A). destruct (Nat.eq_dec j i) as [->|]; [left; congruence|].
           right. exists j. split; [lia|auto].
    + apply IHtodo; auto; [lia| | |].
      * cbn [count]. rewrite Ek. lia.
      * intros k v. rewrite HL. split; intros (j & Hj & A).
        -- exists j. split; [lia|exact A].
        -- exists j. split; [|exact A]. destruct (Nat.eq_dec j i) as [->|]; [|lia].
           destruct A; congruence.
      * intros k. rewrite HK. split; intros (j & Hj & A).
        -- exists j. split; [lia|exact A].
        -- exists j. split; [|exact A]. destruct (Nat.eq_dec j i) as [->|]; [congruence|lia].
Qed.

Lemma sgrow_ok h : tinv h ->
  exists h', (if tsize h / 2 <? tmembers h
            then shash_rebuild eqb hash (tsize h) h 0 (hash_new (tsize h * 2))
            else Ok h) = Ok h' /\ core h' /\ 4 <= tsize h' /\ tmembers h' <= tsize h' / 2 /\
     (forall k v, live h' k v <-> live h k v).
Proof.
  intros (I & H4 & Hm). destruct (tsize h / 2 <? tmembers h) eqn:G.
  - pose proof (k_count _ _ _ I) as HC.
    destruct (shash_rebuild_ok h (tsize h * 2) I) with (todo := tsize h) (i := 0)
      (h := @hash_new K V (tsize h * 2)) as (h' & E & Ic & Hs & Hm' & HL & HK).
    + rewrite HC. revert Hm. dlia.
    + lia.
    + apply core_new, pow2_double, (k_pow _ _ _ I).
    + reflexivity.
    + reflexivity.
    + intros k v. split; [intros (s & A & _); discriminate|intros (j & Hj & _); lia].
    + intros k. split; [intros (s & A); discriminate|intros (j & Hj & _); lia].
    + exists h'. split; [assumption|]. split; [assumption|]. split; [lia|]. split.
      * rewrite Hs. rewrite HC in Hm'. revert Hm. dlia.
      * intros; rewrite HL; apply part_all; assumption.
  - apply Nat.ltb_ge in G. exists h. split; [reflexivity|]. split; [assumption|]. split; [assumption|]. split; [assumption|]. try split; intros; tauto.
Qed.

Lemma shash_put_ok h k v m : tinv h -> rep h m ->
  exists h', shash_put eqb hash h k v = Ok h' /\ tinv h' /\ rep h' (fm_set eqb m k v).
Proof.
  intros I R. destruct (sgrow_ok h I) as (h1 & E1 & C1 & H41 & Hm1 & HL).
  assert (R1 : rep h1 m) by (intros k' v'; rewrite HL; apply R).
  unfold shash_put. rewrite E1. cbn [bind].
  destruct (put_copy_ok h1 k v m C1) as (h2 & E2 & C2 & S2 & M2 & R2 & _);
    [revert Hm1; dlia|assumption|].
  exists h2. split; [assumption|]. split; [|assumption].
  split; [assumption|]. rewrite S2. split; [assumption|lia].
Qed.

(* Integer tables: the rebuild re-inserts through ihash_put itself. *)
Definition ibody (h : itab K V) (k : K) (v : option V) : res (itab K V) :=
  let t := it h in
  do! p <- probe eqb (tsize t) (tsize t) (tkeys t) (hash_slot hash (tsize t) k) k;
  match p with
  | Empty slot => Ok (ITab (store t slot k v) k v)
  | Found slot =>
    Ok (ITab (Tab (tsize t) (tmembers t) (tkeys t) (upd (tvals t) slot v)) k v)
  end.

Lemma ibody_copy h k v : ibody h k v =
  do! t <- shash_put_copy eqb hash (it h) k v; Ok (ITab t k v).
Proof.
  unfold ibody, shash_put_copy. destruct (probe eqb _ _ _ _ k) as [[s|s]|]; reflexivity.
Qed.

Lemma ihash_put_nogrow d h k v : tmembers (it h) <= tsize (it h) / 2 ->
  ihash_put eqb hash (S d) h k v = ibody h k v.
Proof.
  intros H. cbn [ihash_put].
  replace (tsize (it h) / 2 <? tmembers (it h)) with false
    by (symmetry; apply Nat.ltb_ge; assumption).
  reflexivity.
Qed.

Definition irebuild d (old : itab K V) :=
  (fix rebuild (todo : nat) (i : nat) (h' : itab K V) : res (itab K V) :=
            match todo with
            | 0 => Ok h'
            | S t =>
              match tkeys (it old) i with
              | Some k' =>
                do! h'' <- ihash_put eqb hash d h' k' (tvals (it old) i);
                rebuild t (S i) h''
              | None => rebuild t (S i) h'
              end
            end).

Lemma irebuild_copy d old : forall todo i h t',
  core (it h) ->
  count (tkeys (it old)) (i + todo) + tmembers (it h) <= tsize (it h) / 2 + count (tkeys (it old)) i ->
  shash_rebuild eqb hash todo (it old) i (it h) = Ok t' ->
  exists h', irebuild (S d) old todo i h = Ok h' /\ it h' = t'.
Proof.
  induction todo; intros i h t' C Hc E; cbn [shash_rebuild irebuild] in *.
  - injection E as <-. eauto.
  - destruct (tkeys (it old) i) as [k|] eqn:Ek.
    + assert (M : count (tkeys (it old)) (S i) <= count (tkeys (it old)) (i + S todo))
        by (apply count_mono; lia).
      cbn [count] in M. rewrite Ek in M.
      fold (irebuild (S d) old).
      rewrite ihash_put_nogrow by lia. rewrite ibody_copy.
      destruct (shash_put_copy eqb hash (it h) k (tvals (it old) i)) as [t1|] eqn:E1;
        [|discriminate].
      cbn [bind] in E |- *.
      assert (HH : core t1 /\ tsize t1 = tsize (it h) /\ tmembers t1 <= tmembers (it h) + 1).
      { assert (R : rep (it h) (fun k => match hash_get eqb hash (it h) k with Ok v => v | Fault => None end)).
        { intros k1 v1. unfold hash_get.
          destruct (probe_ok _ _ _ k1 C) as (r & Er & Pr).
          - destruct (Nat.eq_dec (tsize (it h)) 0) as [Z|Z].
            + pose proof (pow2_pos _ (k_pow _ _ _ C)). lia.
            + assert (tsize (it h) / 2 < tsize (it h)) by (apply Nat.div_lt; lia). lia.
          - rewrite Er. cbn [bind]. destruct r as [s|s].
            + apply live_val; assumption.
            + split; [intros (s' & B & _); apply Pr in B; contradiction|discriminate]. }
        pose proof (fun X => put_copy_ok (it h) k (tvals (it old) i) _ C X R) as PC.
        destruct PC as (h2 & E2 & C2 & S2 & M2 & _).
        - assert (0 < tsize (it h)) by apply (pow2_pos _ (k_pow _ _ _ C)).
          assert (tsize (it h) / 2 < tsize (it h)) by (apply Nat.div_lt; lia).
          clear - M Hc H0. lia.
        - rewrite E2 in E1. injection E1 as <-. split; [assumption|]. split; [assumption|lia]. }
      destruct HH as (C1 & S1 & M1).
      apply (IHtodo (S i) (ITab t1 k (tvals (it old) i)) t'); [assumption| |exact E].
      cbn [it]. rewrite S1. replace (S i + todo) with (i + S todo) by lia.
      cbn [count]. rewrite Ek. lia.
    + fold (irebuild (S d) old). apply IHtodo; [assumption| |assumption].
      replace (S i + todo) with (i + S todo) by lia. cbn [count]. rewrite Ek. lia.
Qed.

Definition cache_ok (h : itab K V) (m : K -> option V) : Prop :=
  0 < tmembers (it h) -> icacheval h = m (icachekey h).

Lemma ihash_put_ok h k v m : tinv (it h) -> rep (it h) m ->
  exists h', ihash_put eqb hash 2 h k v = Ok h' /\ tinv (it h') /\
     rep (it h') (fm_set eqb m k v) /\ cache_ok h' (fm_set eqb m k v).
Proof.
  intros I R. destruct (sgrow_ok _ I) as (t1 & E1 & C1 & H41 & Hm1 & HL).
  assert (G : exists h1, (if tsize (it h) / 2 <? tmembers (it h)
      then irebuild 1 h (tsize (it h)) 0
           (ITab (hash_new (tsize (it h) * 2)) (icachekey h) (icacheval h)) else Ok h)
      = Ok h1 /\ it h1 = t1).
  { destruct (tsize (it h) / 2 <? tmembers (it h)) eqn:G.
    - apply (irebuild_copy 0); cbn [it].
      + apply core_new, pow2_double, (k_pow _ _ _ (proj1 I)).
      + cbn [Nat.add count]. rewrite (k_count _ _ _ (proj1 I)).
        destruct I as (_ & H4 & Hm). cbn. revert Hm H4. dlia.
      + exact E1.
    - injection E1 as <-. eauto. }
  destruct G as (h1 & Eh & Eit).
  assert (E : ihash_put eqb hash 2 h k v = ibody h1 k v).
  { change (ihash_put eqb hash 2 h k v) with
     (do! h1 <- (if tsize (it h) / 2 <? tmembers (it h)
      then irebuild 1 h (tsize (it h)) 0
           (ITab (hash_new (tsize (it h) * 2)) (icachekey h) (icacheval h)) else Ok h);
      ibody h1 k v). rewrite Eh. reflexivity. }
  rewrite E, ibody_copy, Eit.
  assert (R1 : rep t1 m) by (intros k' v'; rewrite HL; apply R).
  destruct (put_copy_ok t1 k v m C1) as (h2 & E2 & C2 & S2 & M2 & R2 & _);
    [revert Hm1; dlia|assumption|].
  rewrite E2. cbn [bind]. eexists. split; [reflexivity|]. cbn [it]. split; [|split; [assumption|]].
  - split; [assumption|]. rewrite S2. split; [assumption|lia].
  - intros _. cbn. unfold fm_set. rewrite eqb_refl. reflexivity.
Qed.

Lemma ihash_get_ok h k m : tinv (it h) -> rep (it h) m -> cache_ok h m ->
  exists h', ihash_get eqb hash h k = Ok (m k, h') /\ tinv (it h') /\
     rep (it h') m /\ cache_ok h' m.
Proof.
  intros I R Hc. unfold ihash_get.
  destruct ((0 <? tmembers (it h)) && eqb k (icachekey h))%bool eqn:G.
  - apply andb_true_iff in G. destruct G as [G1 G2]. apply Nat.ltb_lt in G1.
    apply eqb_ok in G2. exists h. rewrite (Hc G1), <- G2. auto.
  - pose proof (hash_get_ok (it h) k m I R) as HG. unfold hash_get in HG.
    destruct (probe eqb _ _ _ _ k) as [[s|s]|]; cbn [bind] in *; [| |discriminate].
    + injection HG as HG. rewrite HG. eexists. split; [reflexivity|].
      cbn. split; [assumption|]. split; [assumption|]. intros _. reflexivity.
    + injection HG as HG. rewrite <- HG. eexists. split; [reflexivity|].
      cbn. split; [assumption|]. split; [assumption|]. intros _. exact HG.
Qed.

(* Sets. *)
Definition sinv (h : hset K) (s : K -> bool) : Prop :=
  kinv (ssize h) (skeys h) (smembers h) /\ 4 <= ssize h /\ smembers h <= ssize h / 2 + 1 /\
  forall k, s k = true <-> exists i, skeys h i = Some k.

Definition sbody (h : hset K) (k : K) : res (hset K) :=
    do! p <- probe eqb (ssize h) (ssize h) (skeys h) (hash_slot hash (ssize h) k) k;
    match p with
    | Found _ => Ok h
    | Empty slot => Ok (HSet (ssize h) (smembers h + 1) (upd (skeys h) slot (Some k)))
    end.

Lemma hset_insert_nogrow d h k : smembers h <= ssize h / 2 ->
  hset_insert eqb hash (S d) h k = sbody h k.
Proof.
  intros H. cbn [hset_insert].
  replace (ssize h / 2 <? smembers h) with false by (symmetry; apply Nat.ltb_ge; assumption).
  reflexivity.
Qed.

Definition srebuild d (old : hset K) :=
         (fix rebuild (todo : nat) (i : nat) (h' : hset K) : res (hset K) :=
            match todo with
            | 0 => Ok h'
            | S t =>
              match skeys old i with
              | Some k' =>
                do! h'' <- hset_insert eqb hash d h' k';
                rebuild t (S i) h''
              | None => rebuild t (S i) h'
              end
            end).

Lemma sbody_ok h k : kinv (ssize h) (skeys h) (smembers h) -> smembers h < ssize h ->
  exists h', sbody h k = Ok h' /\ kinv (ssize h') (skeys h') (smembers h') /\
    ssize h' = ssize h /\ smembers h' <= smembers h + 1 /\
    (forall k', (exists i, skeys h' i = Some k') <-> k' = k \/ exists i, skeys h i = Some k').
Proof.
  intros I Hr. unfold sbody. destruct (probe_ok _ _ _ k I Hr) as (r & Er & Pr).
  rewrite Er. cbn [bind]. destruct r as [s|s].
  - exists h. split; [reflexivity|]. split; [assumption|]. split; [reflexivity|]. split; [lia|].
    intros k'. split; [auto|]. intros [->|A]; [exists s; exact Pr|exact A].
  - eexists. split; [reflexivity|]. cbn. split; [apply kinv_store; assumption|].
    split; [reflexivity|]. split; [lia|]. intros k'.
    assert (En : skeys h s = None) by apply Pr. split.
    + intros (i & A). unfold upd in A. destruct (Nat.eqb_spec i s); [left; congruence|right; eauto].
    + intros [->|(i & A)]; [exists s; apply upd_same|]. exists i. rewrite upd_other; congruence.
Qed.

Lemma srebuild_ok d old size : forall todo i h,
  kinv (ssize h) (skeys h) (smembers h) -> ssize h = size ->
  count (skeys old) (i + todo) + smembers h <= size / 2 + count (skeys old) i ->
  exists h', srebuild (S d) old todo i h = Ok h' /\
    kinv (ssize h') (skeys h') (smembers h') /\ ssize h' = size /\
    smembers h' + count (skeys old) i <= smembers h + count (skeys old) (i + todo) /\
    (forall k, (exists j, skeys h' j = Some k) <->
       (exists j, skeys h j = Some k) \/ exists j, i <= j < i + todo /\ skeys old j = Some k).
Proof.
  induction todo; intros i h I Hs Hc; cbn [srebuild].
  - exists h. rewrite Nat.add_0_r. split; [reflexivity|]. split; [assumption|].
    split; [assumption|]. split; [lia|]. intros k. split; [auto|].
    intros [A|(j & Hj & _)]; [exact A|lia].
  - fold (srebuild (S d) old). rewrite Nat.add_succ_r in *.
    assert (M : count (skeys old) (S i) <= count (skeys old) (S (i + todo)))
        by (apply count_mono; lia).
    destruct (skeys old i) as [k|] eqn:Ek.
    + assert (CE : count (skeys old) (S i) = count (skeys old) i + 1)
        by (cbn [count]; rewrite Ek; reflexivity).
      rewrite hset_insert_nogrow by (rewrite Hs; lia).
      assert (0 < ssize h) by apply (pow2_pos _ (k_pow _ _ _ I)).
      assert (ssize h / 2 < ssize h) by (apply Nat.div_lt; lia).
      destruct (sbody_ok h k I) as (h1 & E1 & I1 & S1 & M1 & K1); [subst size; lia|].
      rewrite E1. cbn [bind].
      destruct (IHtodo (S i) h1 I1) as (h2 & E2 & I2 & S2 & M2 & K2);
        [congruence|cbn [Nat.add] in *; lia|].
      exists h2. split; [assumption|]. split; [assumption|]. split; [assumption|].
      split; [cbn [Nat.add] in *; lia|].
      intros k'. rewrite K2, K1. split.
      * intros [[->|A]|(j & Hj & A)]; [right; exists i; split; [lia|auto]|auto|].
        right. exists j. split; [lia|auto].
      * intros [A|(j & Hj & A)]; [auto|]. destruct (Nat.eq_dec j i) as [->|].
        -- left. left. congruence.
        -- right. exists j. split; [lia|auto].
    + assert (CE : count (skeys old) (S i) = count (skeys old) i)
        by (cbn [count]; rewrite Ek; lia).
      destruct (IHtodo (S i) h I Hs) as (h2 & E2 & I2 & S2 & M2 & K2);
        [cbn [Nat.add] in *; lia|].
      exists h2. split; [assumption|]. split; [assumption|]. split; [assumption|].
      split; [cbn [Nat.add] in *; lia|].
      intros k'. rewrite K2. split; (intros [A|(j & Hj & A)]; [auto|]); right; exists j.
      * split; [lia|auto].
      * split; [|auto]. destruct (Nat.eq_dec j i) as [->|]; [congruence|lia].
Qed.

Lemma hset_insert_ok h k s : sinv h s ->
  exists h', hset_insert eqb hash 2 h k = Ok h' /\
     sinv h' (fun k' => if eqb k k' then true else s k').
Proof.
  intros (I & H4 & Hm & HS).
  assert (G : exists h1, (if ssize h / 2 <? smembers h
      then srebuild 1 h (ssize h) 0 (hset_new (ssize h * 2)) else Ok h) = Ok h1 /\
      kinv (ssize h1) (skeys h1) (smembers h1) /\ 4 <= ssize h1 /\
      smembers h1 <= ssize h1 / 2 /\
      (forall k, (exists j, skeys h1 j = Some k) <-> exists j, skeys h j = Some k)).
  { destruct (ssize h / 2 <? smembers h) eqn:G.
    - destruct (srebuild_ok 0 h (ssize h * 2) (ssize h) 0 (@hset_new K (ssize h * 2)))
        as (h1 & E1 & I1 & S1 & M1 & K1).
      + apply kinv_empty, pow2_double, (k_pow _ _ _ I).
      + reflexivity.
      + cbn. rewrite (k_count _ _ _ I). revert Hm H4. dlia.
      + exists h1. split; [assumption|]. split; [assumption|]. split; [lia|]. split.
        * cbn in M1. rewrite (k_count _ _ _ I) in M1. rewrite S1. revert Hm H4. dlia.
        * intros k'. rewrite K1. split.
          -- intros [(j & A)|(j & _ & A)]; [discriminate|eauto].
          -- intros (j & A). right. exists j. split; [|auto].
             split; [lia|]. eapply (k_range _ _ _ I); eassumption.
    - apply Nat.ltb_ge in G. exists h. split; [reflexivity|]. split; [assumption|]. split; [assumption|]. split; [assumption|]. intros; tauto. }
  destruct G as (h1 & E1 & I1 & H41 & M1 & K1).
  assert (E : hset_insert eqb hash 2 h k = sbody h1 k).
  { change (hset_insert eqb hash 2 h k) with
     (do! h1 <- (if ssize h / 2 <? smembers h
      then srebuild 1 h (ssize h) 0 (hset_new (ssize h * 2)) else Ok h); sbody h1 k).
    rewrite E1. reflexivity. }
  rewrite E. destruct (sbody_ok h1 k I1) as (h2 & E2 & I2 & S2 & M2 & K2).
  { revert M1. dlia. }
  exists h2. split; [assumption|]. split; [assumption|]. split; [congruence|].
  split; [rewrite S2; lia|].
  intros k'. rewrite K2, K1. destruct (eqb k k') eqn:Q.
  - apply eqb_ok in Q. subst. tauto.
  - apply eqb_neq in Q. rewrite HS. intuition congruence.
Qed.

Lemma hset_contains_ok h k s : sinv h s -> hset_contains eqb hash h k = Ok (s k).
Proof.
  intros (I & H4 & Hm & HS). unfold hset_contains.
  destruct (probe_ok _ _ _ k I) as (r & Er & Pr); [revert Hm; dlia|].
  rewrite Er. cbn [bind]. destruct r as [i|i].
  - f_equal. symmetry. apply HS. exists i. exact Pr.
  - f_equal. symmetry. destruct (s k) eqn:Q; [|reflexivity].
    apply HS in Q. destruct Q as (j & A). apply Pr in A. contradiction.
Qed.

(* Histories. *)
Definition hashrep (h : tab K V) (st : (K -> option V) * (K -> bool)) : Prop :=
  tinv h /\ rep h (fst st) /\ forall k, haskey h k -> snd st k = true.

Lemma hash_step_ok h st op : hashrep h st ->
  exists o h' st', hash_step eqb hash h op = Ok (o, h') /\ map_step eqb st op o st' /\
     hashrep h' st'.
Proof.
  destruct st as [m e]. intros (I & R & HE). cbn [fst snd] in *. destruct op; cbn [hash_step].
  - destruct (hash_put_ok h k v m I R) as (b & h' & E & I' & R' & B1 & B2 & HK).
    rewrite E. cbn [bind]. do 3 eexists. split; [reflexivity|]. split.
    + apply ms_put_bool; [assumption|]. intros F. destruct b; [|reflexivity].
      rewrite (HE _ (B2 eq_refl)) in F. discriminate.
    + split; [assumption|]. split; [assumption|]. intros k' Hk'. cbn.
      destruct (HK _ Hk') as [->|A]; [rewrite eqb_refl; reflexivity|].
      destruct (eqb k k'); auto.
  - destruct (hash_delete_ok h k m I R) as (h' & E & I' & R' & HK).
    rewrite E. cbn [bind]. do 3 eexists. split; [reflexivity|]. split; [apply ms_delete|].
    split; [assumption|]. split; [assumption|]. cbn. auto.
  - rewrite (hash_get_ok h k m I R). cbn [bind]. do 3 eexists.
    split; [reflexivity|]. split; [apply ms_get|]. repeat split; auto; apply R || apply I.
  - do 3 eexists. split; [reflexivity|]. split; [apply ms_iter; apply hash_iter_ok; assumption|].
    split; [assumption|]. split; assumption.
Qed.

Lemma shash_step_ok h m e op : tinv h -> rep h m ->
  exists o h' m' e', shash_step eqb hash h op = Ok (o, h') /\
     map_step eqb (m, e) op o (m', e') /\ tinv h' /\ rep h' m'.
Proof.
  intros I R. destruct op; cbn [shash_step].
  - destruct (shash_put_ok h k v m I R) as (h' & E & I' & R').
    rewrite E. cbn [bind]. do 4 eexists. split; [reflexivity|]. split; [apply ms_put|]. auto.
  - destruct (hash_delete_ok h k m I R) as (h' & E & I' & R' & HK).
    rewrite E. cbn [bind]. do 4 eexists. split; [reflexivity|]. split; [apply ms_delete|]. auto.
  - rewrite (hash_get_ok h k m I R). cbn [bind]. do 4 eexists.
    split; [reflexivity|]. split; [apply ms_get|]. auto.
  - do 4 eexists. split; [reflexivity|]. split; [apply ms_iter; apply hash_iter_ok; assumption|].
    auto.
Qed.

Lemma ihash_step_ok h m e op : put_or_get op -> tinv (it h) -> rep (it h) m -> cache_ok h m ->
  exists o h' m' e', ihash_step eqb hash h op = Ok (o, h') /\
     map_step eqb (m, e) op o (m', e') /\ tinv (it h') /\ rep (it h') m' /\ cache_ok h' m'.
Proof.
  intros HO I R Hc. destruct op; try contradiction; cbn [ihash_step].
  - destruct (ihash_put_ok h k v m I R) as (h' & E & I' & R' & C').
    rewrite E. cbn [bind]. do 4 eexists. split; [reflexivity|]. split; [apply ms_put|]. auto.
  - destruct (ihash_get_ok h k m I R Hc) as (h' & E & I' & R' & C').
    rewrite E. cbn [bind]. do 4 eexists. split; [reflexivity|]. split; [apply ms_get|]. auto.
Qed.

Lemma new_tinv size : pow2 size -> 4 <= size -> tinv (@hash_new K V size).
Proof. intros. split; [apply core_new; assumption|]. cbn. split; [assumption|lia]. Qed.
End P.
