(* Proofs about the generic hash table of GhashModel.v. *)
From Coq Require Import List Arith Lia Bool.
From Verif Require Import Base HashModel HashSpec HashProofs GhashModel.
Import ListNotations.

Section P.
Context {K V : Type} (cmp : K -> K -> bool) (hash : K -> nat).
Hypothesis cmp_refl : forall a, cmp a a = true.
Hypothesis cmp_sym : forall a b, cmp a b = cmp b a.
Hypothesis cmp_trans : forall a b c, cmp a b = true -> cmp b c = true -> cmp a c = true.
Hypothesis hash_cmp : forall a b, cmp a b = true -> hash a = hash b.

Record ginv (size : nat) (keys : nat -> option K) (n : nat) : Prop := {
  g_pow : pow2 size;
  g_range : forall i k, keys i = Some k -> i < size;
  g_reach : forall i k, keys i = Some k ->
     exists d, d < size /\ i = at_ hash size k d /\
       forall e, e < d -> keys (at_ hash size k e) <> None;
  g_count : count keys size = n
}.

Lemma at_cmp size a b d : cmp a b = true -> at_ hash size a d = at_ hash size b d.
Proof. intros H. unfold at_. rewrite (hash_cmp _ _ H). reflexivity. Qed.

Lemma at_inj size k a b : a < size -> b < size -> at_ hash size k a = at_ hash size k b -> a = b.
Proof.
  intros Ha Hb E. unfold at_ in E.
  assert (forall x y, x <= y -> y < size -> (hash k + x) mod size = (hash k + y) mod size -> x = y).
  { clear. intros x y L Hy E.
    pose proof (Nat.div_mod (hash k + x) size ltac:(lia)).
    pose proof (Nat.div_mod (hash k + y) size ltac:(lia)).
    assert (y - x = size * ((hash k + y) / size - (hash k + x) / size)) by nia.
    destruct ((hash k + y) / size - (hash k + x) / size); nia. }
  destruct (Nat.le_gt_cases a b); [apply H; auto|symmetry; apply H; auto; lia].
Qed.

Lemma gput_loop_ok size keys n k (v : option V) : ginv size keys n -> n < size ->
  forall f d vals, f + d = size ->
  (forall e, e < d -> keys (at_ hash size k e) <> None) ->
  exists s vals', gput_loop cmp f (Tab size n keys vals) (at_ hash size k d) k v =
      Ok (Tab size (n + 1) (upd keys s (Some k)) vals') /\
    keys s = None /\ s < size /\
    (exists d', d' < size /\ s = at_ hash size k d' /\
       forall e, e < d' -> keys (at_ hash size k e) <> None) /\
    vals' s = v /\
    forall i k', keys i = Some k' ->
      (cmp k' k = true -> (forall e, e < d -> i <> at_ hash size k e) -> vals' i = v) /\
      (cmp k' k = false -> vals' i = vals i) /\
      ((exists e, e < d /\ i = at_ hash size k e) -> vals' i = vals i).
Proof.
  intros I Hn. pose proof (pow2_pos _ (g_pow _ _ _ I)) as Hp.
  induction f; intros d vals Hf Hd.
  - exfalso. destruct (empty_slot keys size) as (i & Hi & E).
    + rewrite (g_count _ _ _ I). assumption.
    + destruct (at_cover hash size k i Hp Hi) as (e & He & Ea).
      specialize (Hd e ltac:(lia)). rewrite Ea in Hd. contradiction.
  - cbn [gput_loop tkeys tsize tmembers tvals].
    destruct (keys (at_ hash size k d)) as [k0|] eqn:E.
    + assert (Hd' : forall e, e < S d -> keys (at_ hash size k e) <> None).
      { intros e He. destruct (Nat.eq_dec e d) as [->|]; [congruence|apply Hd; lia]. }
      rewrite next_at by apply (g_pow _ _ _ I).
      destruct (cmp k0 k) eqn:Q.
      * destruct (IHf (S d) (upd vals (at_ hash size k d) v)) as
          (s & vals' & Eq & Es & Hs & Hr & Hv & Hall); [lia|assumption|].
        exists s, vals'. split; [exact Eq|]. do 4 (split; [assumption|]).
        intros i k' Hi. destruct (Hall i k' Hi) as (A & B & C). split; [|split].
        -- intros Q' Ne. destruct (Nat.eq_dec i (at_ hash size k d)) as [Ei|Ei].
           ++ rewrite C by (exists d; split; [lia|assumption]). rewrite Ei. apply upd_same.
           ++ apply A; [assumption|]. intros e He.
              destruct (Nat.eq_dec e d) as [->|]; [assumption|apply Ne; lia].
        -- intros Q'. rewrite B by assumption. apply upd_other. congruence.
        -- intros (e & He & Ei). rewrite C by (exists e; split; [lia|assumption]).
           apply upd_other. subst i. intros Ea. apply at_inj in Ea; lia.
      * destruct (IHf (S d) vals) as
          (s & vals' & Eq & Es & Hs & Hr & Hv & Hall); [lia|assumption|].
        exists s, vals'. split; [exact Eq|]. do 4 (split; [assumption|]).
        intros i k' Hi. destruct (Hall i k' Hi) as (A & B & C). split; [|split].
        -- intros Q' Ne. apply A; [assumption|]. intros e He.
           destruct (Nat.eq_dec e d) as [->|]; [congruence|apply Ne; lia].
        -- assumption.
        -- intros (e & He & Ei). apply C. exists e. split; [lia|assumption].
    + exists (at_ hash size k d), (upd vals (at_ hash size k d) v).
      split; [reflexivity|]. split; [assumption|]. split; [apply at_lt; assumption|].
      split; [exists d; split; [lia|split; [reflexivity|assumption]]|].
      split; [apply upd_same|].
      intros i k' Hi. assert (Ni : i <> at_ hash size k d) by congruence.
      rewrite upd_other by assumption. split; [|split; auto].
      intros Q Ne. exfalso. destruct (g_reach _ _ _ I _ _ Hi) as (e & He & Ei & Ho).
      rewrite (at_cmp _ _ _ _ Q) in Ei.
      destruct (Nat.lt_trichotomy e d) as [L|[->|L]].
      * exact (Ne e L Ei).
      * contradiction.
      * specialize (Ho d L). rewrite (at_cmp _ _ _ _ Q) in Ho. contradiction.
Qed.

Lemma ginv_store size keys n k s : ginv size keys n -> keys s = None -> s < size ->
  (exists d', d' < size /\ s = at_ hash size k d' /\
       forall e, e < d' -> keys (at_ hash size k e) <> None) ->
  ginv size (upd keys s (Some k)) (n + 1).
Proof.
  intros I E Hs (d & Hd & Es & Ho). constructor.
  - apply (g_pow _ _ _ I).
  - intros i k'. unfold upd. destruct (Nat.eqb_spec i s); [subst; auto|]. apply (g_range _ _ _ I).
  - intros i k'. unfold upd at 1. destruct (Nat.eqb_spec i s) as [Ei|Hi]; intros A.
    + subst i. injection A as <-. exists d. split; [assumption|]. split; [assumption|].
      intros e He. unfold upd. destruct (Nat.eqb_spec (at_ hash size k e) s); [discriminate|auto].
    + destruct (g_reach _ _ _ I _ _ A) as (d' & Hd' & Ei & Ho'). exists d'.
      split; [assumption|]. split; [assumption|].
      intros e He. unfold upd. destruct (Nat.eqb_spec (at_ hash size k' e) s); [discriminate|auto].
  - rewrite count_store by assumption. rewrite (g_count _ _ _ I). reflexivity.
Qed.

Definition gcore (h : tab K V) : Prop := ginv (tsize h) (tkeys h) (tmembers h).
Definition gvals (h : tab K V) (m : K -> option V) : Prop :=
  forall s k, tkeys h s = Some k -> tvals h s = m k.
Definition ghas (h : tab K V) (k : K) : Prop :=
  exists s k', tkeys h s = Some k' /\ cmp k' k = true.

Lemma gbody_ok h k v : gcore h -> tmembers h < tsize h ->
  exists h', gput_loop cmp (tsize h) h (hash_slot hash (tsize h) k) k v = Ok h' /\
    gcore h' /\ tsize h' = tsize h /\ tmembers h' = tmembers h + 1 /\
    (forall m, gvals h m -> gvals h' (fm_set cmp m k v)) /\
    ghas h' k /\ (forall k', ghas h k' -> ghas h' k').
Proof.
  intros C Hr. pose proof (pow2_pos _ (g_pow _ _ _ C)) as Hp.
  rewrite slot_at by apply (g_pow _ _ _ C).
  destruct (gput_loop_ok _ _ _ k v C Hr (tsize h) 0 (tvals h)) as
    (s & vals' & E & Es & Hs & Hr' & Hv & Hall); [lia|intros; lia|].
  destruct h as [size n keys vals]. cbn [tsize tmembers tkeys tvals] in *.
  eexists. split; [exact E|]. split; [apply ginv_store; assumption|].
  split; [reflexivity|]. split; [reflexivity|]. split; [|split].
  - intros m Hm i k'. cbn [tkeys tvals]. unfold fm_set. rewrite (cmp_sym k k').
    unfold upd. destruct (Nat.eqb_spec i s) as [Ei|Ni]; intros Hi.
    + injection Hi as <-. rewrite cmp_refl. congruence.
    + destruct (Hall i k' Hi) as (A & B & _). destruct (cmp k' k) eqn:Q.
      * apply A; [reflexivity|]. intros; lia.
      * rewrite B by reflexivity. apply Hm. exact Hi.
  - exists s, k. cbn. rewrite upd_same. auto.
  - intros k' (i & k0 & A & B). exists i, k0. cbn in *. rewrite upd_other by congruence. auto.
Qed.

Definition grebuild d (old : tab K V) :=
         (fix rebuild (todo : nat) (i : nat) (h' : tab K V) : res (tab K V) :=
            match todo with
            | 0 => Ok h'
            | S t =>
              match tkeys old i with
              | Some k' =>
                do! h'' <- ghash_put cmp hash d h' k' (tvals old i);
                rebuild t (S i) h''
              | None => rebuild t (S i) h'
              end
            end).

Lemma ghash_put_nogrow d (h : tab K V) k v : tmembers h <= tsize h / 2 ->
  ghash_put cmp hash (S d) h k v = gput_loop cmp (tsize h) h (hash_slot hash (tsize h) k) k v.
Proof.
  intros H. cbn [ghash_put].
  replace (tsize h / 2 <? tmembers h) with false by (symmetry; apply Nat.ltb_ge; assumption).
  reflexivity.
Qed.

Definition respects (m : K -> option V) : Prop := forall a b, cmp a b = true -> m a = m b.

Lemma gvals_ext h m m' : (forall k, m k = m' k) -> gvals h m -> gvals h m'.
Proof. intros E G s k A. rewrite <- E. apply G. assumption. Qed.

Lemma grebuild_ok d old m : respects m -> gvals old m -> forall todo i h,
  gcore h -> gvals h m ->
  count (tkeys old) (i + todo) + tmembers h <= tsize h / 2 + count (tkeys old) i ->
  exists h', grebuild (S d) old todo i h = Ok h' /\ gcore h' /\ tsize h' = tsize h /\
    tmembers h' + count (tkeys old) i = tmembers h + count (tkeys old) (i + todo) /\
    gvals h' m /\ (forall k, ghas h k -> ghas h' k) /\
    (forall j k, i <= j < i + todo -> tkeys old j = Some k -> ghas h' k).
Proof.
  intros Rm Go. induction todo; intros i h C G Hc; cbn [grebuild].
  - exists h. rewrite Nat.add_0_r. split; [reflexivity|]. split; [assumption|].
    split; [reflexivity|]. split; [reflexivity|]. split; [assumption|]. split; [auto|]. intros; lia.
  - fold (grebuild (S d) old). rewrite Nat.add_succ_r in *.
    assert (M : count (tkeys old) (S i) <= count (tkeys old) (S (i + todo)))
        by (apply count_mono; lia).
    destruct (tkeys old i) as [k|] eqn:Ek.
    + assert (CE : count (tkeys old) (S i) = count (tkeys old) i + 1)
        by (cbn [count]; rewrite Ek; reflexivity).
      rewrite ghash_put_nogrow by lia.
      assert (0 < tsize h) by apply (pow2_pos _ (g_pow _ _ _ C)).
      assert (tsize h / 2 < tsize h) by (apply Nat.div_lt; lia).
      destruct (gbody_ok h k (tvals old i) C) as (h1 & E1 & C1 & S1 & M1 & V1 & K1 & K1'); [lia|].
      rewrite E1. cbn [bind].
      destruct (IHtodo (S i) h1 C1) as (h2 & E2 & C2 & S2 & M2 & G2 & K2 & K2').
      * eapply gvals_ext; [|apply V1; exact G]. intros k'. unfold fm_set.
        destruct (cmp k k') eqn:Q; [|reflexivity]. rewrite (Go _ _ Ek). apply Rm. assumption.
      * rewrite S1. cbn [Nat.add] in *. lia.
      * exists h2. split; [assumption|]. split; [assumption|]. split; [congruence|].
        split; [cbn [Nat.add] in *; lia|]. split; [assumption|]. split; [auto|].
        intros j k' Hj A. destruct (Nat.eq_dec j i) as [->|].
        -- apply K2. rewrite Ek in A. injection A as <-. assumption.
        -- apply (K2' j); [lia|assumption].
    + assert (CE : count (tkeys old) (S i) = count (tkeys old) i)
        by (cbn [count]; rewrite Ek; lia).
      destruct (IHtodo (S i) h C G) as (h2 & E2 & C2 & S2 & M2 & G2 & K2 & K2');
        [cbn [Nat.add] in *; lia|].
      exists h2. split; [assumption|]. split; [assumption|]. split; [assumption|].
      split; [cbn [Nat.add] in *; lia|]. split; [assumption|]. split; [auto|].
      intros j k' Hj A. destruct (Nat.eq_dec j i) as [->|]; [congruence|].
      apply (K2' j); [lia|assumption].
Qed.

Definition ghash_rep (h : tab K V) (m : K -> option V) : Prop :=
  gcore h /\ 4 <= tsize h /\ tmembers h <= tsize h / 2 + 1 /\ respects m /\ gvals h m /\
  forall k, m k <> None -> ghas h k.

Lemma ghash_put_ok h k v m : ghash_rep h m ->
  exists h', ghash_put cmp hash 2 h k v = Ok h' /\ ghash_rep h' (fm_set cmp m k v).
Proof.
  intros (C & H4 & Hm & Rm & G & HK).
  assert (GR : exists h1, (if tsize h / 2 <? tmembers h
      then grebuild 1 h (tsize h) 0 (hash_new (tsize h * 2)) else Ok h) = Ok h1 /\
      gcore h1 /\ 4 <= tsize h1 /\ tmembers h1 <= tsize h1 / 2 /\ gvals h1 m /\
      forall k, ghas h k -> ghas h1 k).
  { destruct (tsize h / 2 <? tmembers h) eqn:B.
    - destruct (grebuild_ok 0 h m Rm G (tsize h) 0 (hash_new (tsize h * 2))) as
        (h1 & E1 & C1 & S1 & M1 & G1 & K1 & K1').
      + pose proof (@kinv_empty K hash (tsize h * 2) (pow2_double _ (g_pow _ _ _ C))) as KI.
        constructor; cbn; try discriminate; apply KI.
      + intros s k' A. discriminate.
      + cbn. rewrite (g_count _ _ _ C). revert Hm H4. dlia.
      + exists h1. split; [assumption|]. split; [assumption|].
        cbn in S1, M1. rewrite (g_count _ _ _ C) in M1.
        split; [lia|]. split; [rewrite S1; revert Hm H4 M1; dlia|]. split; [assumption|].
        intros k' (s & k0 & A & Q).
        destruct (K1' s k0) as (s' & k1 & A' & Q').
        * split; [lia|]. eapply (g_range _ _ _ C); eassumption.
        * assumption.
        * exists s', k1. split; [assumption|]. eapply cmp_trans; eassumption.
    - apply Nat.ltb_ge in B. exists h. auto 10. }
  destruct GR as (h1 & E1 & C1 & H41 & M1 & G1 & K1).
  assert (E : ghash_put cmp hash 2 h k v =
     gput_loop cmp (tsize h1) h1 (hash_slot hash (tsize h1) k) k v).
  { change (ghash_put cmp hash 2 h k v) with
     (do! h1 <- (if tsize h / 2 <? tmembers h
      then grebuild 1 h (tsize h) 0 (hash_new (tsize h * 2)) else Ok h);
      gput_loop cmp (tsize h1) h1 (hash_slot hash (tsize h1) k) k v).
    rewrite E1. reflexivity. }
  rewrite E. destruct (gbody_ok h1 k v C1) as (h2 & E2 & C2 & S2 & M2 & V2 & K2 & K2').
  { revert M1. dlia. }
  exists h2. split; [assumption|]. split; [assumption|]. split; [congruence|].
  split; [rewrite S2; lia|]. split; [|split].
  - intros a b Q. unfold fm_set. rewrite (Rm a b Q).
    destruct (cmp k a) eqn:A, (cmp k b) eqn:B; try reflexivity; exfalso.
    + rewrite (cmp_trans _ _ _ A Q) in B. discriminate.
    + rewrite cmp_sym in Q. rewrite (cmp_trans _ _ _ B Q) in A. discriminate.
  - apply V2. assumption.
  - intros k'. unfold fm_set. destruct (cmp k k') eqn:Q; intros A.
    + destruct K2 as (s & k0 & A' & Q'). exists s, k0. split; [assumption|].
      eapply cmp_trans; eassumption.
    + apply K2', K1, HK. assumption.
Qed.

Lemma gprobe_ok size keys n k : ginv size keys n -> n < size ->
  exists r, probe cmp size size keys (hash_slot hash size k) k = Ok r /\
  match r with
  | Found s => exists k', keys s = Some k' /\ cmp k' k = true
  | Empty s => forall i k', keys i = Some k' -> cmp k' k = false
  end.
Proof.
  intros I Hn. pose proof (pow2_pos _ (g_pow _ _ _ I)) as Hp.
  rewrite slot_at by apply (g_pow _ _ _ I).
  assert (G : forall f d, f + d = size ->
    (forall e, e < d -> keys (at_ hash size k e) <> None /\
       forall k', keys (at_ hash size k e) = Some k' -> cmp k' k = false) ->
   exists r, probe cmp f size keys (at_ hash size k d) k = Ok r /\
  match r with
  | Found s => exists k', keys s = Some k' /\ cmp k' k = true
  | Empty s => forall i k', keys i = Some k' -> cmp k' k = false
  end).
  { induction f; intros d Hf Hd.
    - exfalso. destruct (empty_slot keys size) as (i & Hi & E).
      + rewrite (g_count _ _ _ I). assumption.
      + destruct (at_cover hash size k i Hp Hi) as (e & He & Ea).
        destruct (Hd e ltac:(lia)) as [Hx _]. rewrite Ea in Hx. contradiction.
    - cbn [probe]. destruct (keys (at_ hash size k d)) as [k0|] eqn:E.
      + destruct (cmp k0 k) eqn:Q; [eexists; split; [reflexivity|]; cbn; eauto|].
        rewrite next_at by apply (g_pow _ _ _ I). apply IHf; [lia|].
        intros e He. destruct (Nat.eq_dec e d) as [->|]; [|apply Hd; lia].
        rewrite E. split; [discriminate|]. intros ? [= <-]. assumption.
      + eexists; split; [reflexivity|]. cbn. intros i k' Hi.
        destruct (cmp k' k) eqn:Q; [|reflexivity]. exfalso.
        destruct (g_reach _ _ _ I _ _ Hi) as (e & He & Ei & Ho).
        rewrite (at_cmp _ _ _ _ Q) in Ei.
        destruct (Nat.lt_trichotomy e d) as [L|[->|L]].
        * destruct (Hd e L) as [_ Hx]. subst i. rewrite (Hx _ Hi) in Q. discriminate.
        * congruence.
        * specialize (Ho d L). rewrite (at_cmp _ _ _ _ Q) in Ho. contradiction. }
  apply G; [lia|]. intros; lia.
Qed.

Lemma ghash_get_ok h k m : ghash_rep h m -> ghash_get cmp hash h k = Ok (m k).
Proof.
  intros (C & H4 & Hm & Rm & G & HK). unfold ghash_get.
  destruct (gprobe_ok _ _ _ k C) as (r & E & P); [revert Hm; dlia|].
  rewrite E. cbn [bind]. destruct r as [s|s].
  - destruct P as (k' & A & Q). rewrite (G _ _ A). f_equal. apply Rm. assumption.
  - f_equal. destruct (m k) as [v|] eqn:Em; [|reflexivity]. exfalso.
    destruct (HK k) as (i & k' & A & Q); [congruence|]. rewrite (P _ _ A) in Q. discriminate.
Qed.
End P.
