(* The invariant of the work-stealing queue. *)
From Coq Require Import List Arith NArith ZArith Lia Bool Permutation.
From Verif Require Import Base DequeModel DequeSpec.
Import ListNotations.

(* The task stored at index [i]. *)
Definition tk (m : nat -> N) (i : nat) : task := map m (seq (WORDS * i) WORDS).
(* One past the index of the last task not yet handed out. *)
Definition hi (st : sys) : nat :=
  match own st with
  | ORead nb _ | OAge nb _ | OZero nb _ _ _ | OCas nb _ _ _ => S nb
  | OReset _ => top st
  | _ => bot st
  end.
Definition rem (st : sys) : list task := map (tk (mem st)) (seq (top st) (hi st - top st)).

Definition own_ok (st : sys) : Prop :=
  match own st with
  | OIdle | OLoad => True
  | OPush rest a nb xs =>
    exists dn, concat xs = dn ++ rest /\ a = WORDS * bot st + length dn /\ nb = bot st + length xs /\
      Forall (fun x => length x = WORDS) xs /\
      map (mem st) (seq (WORDS * bot st) (length dn)) = dn
  | OStore nb => bot st = S nb
  | ORead nb acc => bot st = nb /\ length acc <= WORDS /\ map (mem st) (seq (WORDS * nb) (length acc)) = acc
  | OAge nb x => bot st = nb /\ x = tk (mem st) nb
  | OZero nb x tp tg => bot st = nb /\ x = tk (mem st) nb /\ nb <= tp <= top st /\ tg = tag st
  | OCas nb x tp tg => bot st = 0 /\ x = tk (mem st) nb /\ nb = tp /\ tp <= top st /\ tg = tag st
  | OReset tg => bot st = 0 /\ tg = tag st
  end.

Definition fresh (st : sys) (t tp : nat) (tg : N) : Prop :=
  tg = N.modulo (started st t) TAGS /\ (started st t <= resets st)%N /\ (started st t = resets st -> tp <= top st).

Definition thief_ok (st : sys) (t : nat) : Prop :=
  match thief st t with
  | TIdle | TAge => True
  | TBot tp tg => fresh st t tp tg
  | TRead tp tg acc => (fresh st t tp tg /\ length acc <= WORDS) /\
    (started st t = resets st -> tp = top st ->
       tp < hi st /\ map (mem st) (seq (WORDS * tp) (length acc)) = acc)
  | TCas tp tg x => fresh st t tp tg /\
    (started st t = resets st -> tp = top st -> tp < hi st /\ x = tk (mem st) tp)
  end.

Definition inv (st : sys) : Prop :=
  top st <= hi st /\ own_ok st /\ tag st = N.modulo (resets st) TAGS /\
  (forall t, thief_ok st t) /\ Permutation (taken (log st) ++ rem st) (pushed (log st)).

Lemma init_inv : inv init.
Proof.
  unfold inv. cbn. split; [lia|]. split; [exact Logic.I|]. split; [reflexivity|]. split; [intros t; exact Logic.I|constructor].
Qed.

(* Thieves do not notice a step that keeps the age and the tasks below [hi]. *)
Lemma thief_keep st st' t : thief st' t = thief st t -> started st' t = started st t -> resets st' = resets st ->
  top st' = top st -> (top st < hi st -> top st < hi st' /\ forall i, i < WORDS -> mem st' (WORDS * top st + i) = mem st (WORDS * top st + i)) ->
  thief_ok st t -> thief_ok st' t.
Proof.
  intros E Es Er Et H K. unfold thief_ok in *. rewrite E. unfold fresh in *. rewrite Es, Er, Et.
  destruct (thief st t) as [| |tp tg|tp tg acc|tp tg x]; auto; destruct K as [K1 K2]; split; auto; intros A B;
    destruct (K2 A B) as [C D]; subst tp; destruct (H C) as [F G]; split; auto.
  - rewrite <- D at 2. apply map_ext_in. intros i Hi. apply in_seq in Hi.
    replace i with (WORDS * top st + (i - WORDS * top st)) by lia. apply G. lia.
  - subst x. unfold tk. symmetry. apply map_ext_in. intros i Hi. apply in_seq in Hi.
    replace i with (WORDS * top st + (i - WORDS * top st)) by lia. apply G. lia.
Qed.

(* Nor one that changes the tag. *)
Lemma thief_reset st st' t : thief st' t = thief st t -> started st' t = started st t -> (resets st < resets st')%N ->
  thief_ok st t -> thief_ok st' t.
Proof.
  intros E Es Er K. unfold thief_ok, fresh in *. rewrite E, Es.
  destruct (thief st t) as [| |tp tg|tp tg acc|tp tg x]; auto.
  - destruct K as (A & B & C). split; [exact A|]. split; [lia|]. intros D. lia.
  - destruct K as (((A & B & C) & L) & _). split; [split; [split; [exact A|]; split; [lia|]; intros D; lia|exact L]|]. intros D. lia.
  - destruct K as ((A & B & C) & _). split; [split; [exact A|]; split; [lia|]; intros D; lia|]. intros D. lia.
Qed.

Lemma tag_succ r : N.modulo (N.modulo r TAGS + 1) TAGS = N.modulo (N.succ r) TAGS.
Proof. rewrite N.add_mod_idemp_l by discriminate. now rewrite N.add_1_r. Qed.

Lemma tags_equal s r : (s <= r)%N -> (r < s + TAGS)%N -> N.modulo s TAGS = N.modulo r TAGS -> s = r.
Proof.
  unfold TAGS. intros H1 H2 H3. Zify.zify. Z.to_euclidean_division_equations. lia.
Qed.

Lemma tk_words m m' i : (forall k, k < WORDS -> m' (WORDS * i + k) = m (WORDS * i + k)) -> tk m' i = tk m i.
Proof.
  intros H. unfold tk. apply map_ext_in. intros j Hj. apply in_seq in Hj.
  replace j with (WORDS * i + (j - WORDS * i)) by lia. apply H. lia.
Qed.

(* The words of consecutive tasks. *)
Lemma tasks_words m : forall (xs : list task) b, Forall (fun x => length x = WORDS) xs ->
  map m (seq (WORDS * b) (length (concat xs))) = concat xs -> map (tk m) (seq b (length xs)) = xs.
Proof.
  induction xs as [|x xs IH]; intros b F H; [reflexivity|]. cbn [concat] in H. cbn [length seq map].
  pose proof (Forall_inv F) as Lx. apply Forall_inv_tail in F. cbn beta in Lx.
  rewrite app_length, seq_app, map_app in H.
  assert (E : map m (seq (WORDS * b) (length x)) = x /\ map m (seq (WORDS * b + length x) (length (concat xs))) = concat xs).
  { revert H. generalize (concat xs) as c. intros c H.
    assert (L : length (map m (seq (WORDS * b) (length x))) = length x) by now rewrite map_length, seq_length.
    split.
    - apply (f_equal (firstn (length x))) in H. rewrite firstn_app, L, Nat.sub_diag, firstn_O, app_nil_r, firstn_all2 in H by lia.
      rewrite firstn_app, Nat.sub_diag, firstn_O, app_nil_r, firstn_all in H. exact H.
    - apply (f_equal (skipn (length x))) in H. rewrite skipn_app, L, Nat.sub_diag, skipn_O, skipn_all2 in H by lia.
      rewrite skipn_app, Nat.sub_diag, skipn_O, skipn_all in H. exact H. }
  destruct E as [E1 E2]. f_equal.
  - unfold tk. rewrite Lx in E1. exact E1.
  - apply IH; [exact F|]. replace (WORDS * S b) with (WORDS * b + length x) by (rewrite Lx; lia). exact E2.
Qed.

(* Adding what lies at the bottom, and taking from either end. *)
Lemma seq_top a b : a < b -> seq a (b - a) = a :: seq (S a) (b - S a).
Proof. intros H. replace (b - a) with (S (b - S a)) by lia. reflexivity. Qed.
Lemma seq_bot a b : a <= b -> seq a (S b - a) = seq a (b - a) ++ [b].
Proof. intros H. replace (S b - a) with (b - a + 1) by lia. rewrite seq_app. f_equal. cbn. f_equal. lia. Qed.
Lemma seq_join a b c : a <= b -> seq a (b + c - a) = seq a (b - a) ++ seq b c.
Proof. intros H. replace (b + c - a) with (b - a + c) by lia. rewrite seq_app. do 2 f_equal. lia. Qed.

Lemma own_step_inv st : inv st -> inv (own_step st).
Proof.
  intros (I1 & I2 & I3 & I4 & I5). unfold inv, own_step, own_ok, rem, hi in *.
  destruct (own st) as [|rest a nb xs| |nb|nb acc|nb x|nb x tp tg|nb x tp tg|tg] eqn:Eo.
  - rewrite Eo. auto.
  - destruct I2 as (dn & Ec & Ea & En & Fx & Md). destruct rest as [|w rest].
    + rewrite app_nil_r in Ec. cbn [emit set_own set_bot own top bot log mem tag resets]. rewrite <- Ec in Md.
      pose proof (tasks_words (mem st) xs (bot st) Fx Md) as T.
      split; [lia|]. split; [exact Logic.I|]. split; [exact I3|]. split.
      * intros t. apply (thief_keep st); try reflexivity; [|auto]. unfold hi. rewrite Eo. cbn. intros H. split; [lia|auto].
      * cbn [taken pushed]. subst nb. rewrite seq_join by lia. rewrite map_app, T.
        rewrite app_assoc. rewrite Permutation_app_comm. now apply Permutation_app_head.
    + cbn [emit set_own set_mem own top bot log mem tag resets].
      assert (Hn : forall i, i < bot st -> forall k, k < WORDS -> upd (mem st) a w (WORDS * i + k) = mem st (WORDS * i + k)).
      { intros i Hi k Hk. apply upd_other. subst a. unfold WORDS in *. lia. }
      split; [exact I1|]. split.
      * exists (dn ++ [w]). rewrite <- app_assoc. split; [exact Ec|]. rewrite app_length. cbn [length]. split; [lia|]. split; [exact En|].
        split; [exact Fx|]. rewrite seq_app, map_app. cbn [seq map]. rewrite <- Ea, upd_same. f_equal.
        rewrite <- Md at 2. apply map_ext_in. intros i Hi. apply in_seq in Hi. apply upd_other. lia.
      * split; [exact I3|]. split.
        -- intros t. apply (thief_keep st); try reflexivity; [|auto]. unfold hi. rewrite Eo. cbn. intros H. split; [exact H|]. apply (Hn _ H).
        -- erewrite map_ext_in; [exact I5|]. intros i Hi. apply in_seq in Hi. apply tk_words. apply Hn. lia.
  - destruct (bot st) as [|nb] eqn:Eb.
    + cbn [emit set_own own top bot log mem tag resets]. rewrite Eb. split; [exact I1|]. split; [exact Logic.I|]. split; [exact I3|]. split.
      * intros t. apply (thief_keep st); try reflexivity; [|auto]. unfold hi. rewrite Eo. cbn. auto.
      * exact I5.
    + cbn [emit set_own own top bot log mem tag resets]. rewrite Eb. split; [exact I1|]. split; [reflexivity|]. split; [exact I3|]. split.
      * intros t. apply (thief_keep st); try reflexivity; [|auto]. unfold hi. rewrite Eo. cbn. auto.
      * exact I5.
  - cbn [emit set_own set_bot own top bot log mem tag resets length]. rewrite I2 in *. split; [exact I1|]. split.
    { split; [reflexivity|]. split; [lia|reflexivity]. } split; [exact I3|]. split.
    * intros t. apply (thief_keep st); try reflexivity; [|auto]. unfold hi. rewrite Eo, I2. cbn. auto.
    * exact I5.
  - destruct I2 as (Eb & La & Ma). destruct (Nat.eqb_spec (length acc) WORDS) as [E|E].
    + cbn [emit set_own set_bot own top bot log mem tag resets]. split; [exact I1|]. split.
      { split; [exact Eb|]. unfold tk. rewrite <- Ma at 1. now rewrite E. } split; [exact I3|]. split.
      * intros t. apply (thief_keep st); try reflexivity; [|auto]. unfold hi. rewrite Eo. cbn. auto.
      * exact I5.
    + cbn [emit set_own set_bot own top bot log mem tag resets]. rewrite app_length. cbn [length]. split; [exact I1|]. split.
      { split; [exact Eb|]. split; [lia|]. rewrite seq_app, map_app, Ma. reflexivity. } split; [exact I3|]. split.
      * intros t. apply (thief_keep st); try reflexivity; [|auto]. unfold hi. rewrite Eo. cbn. auto.
      * exact I5.
  - destruct I2 as (Eb & Ex). destruct (Nat.ltb_spec (top st) nb) as [L|L].
    + cbn [emit set_own set_bot own top bot log mem tag resets]. rewrite Eb. split; [lia|]. split; [exact Logic.I|]. split; [exact I3|]. split.
      * intros t. apply (thief_keep st); try reflexivity; [|auto]. unfold hi. rewrite Eo. cbn. rewrite Eb. intros _. auto.
      * cbn [taken pushed]. rewrite seq_bot in I5 by lia. rewrite map_app in I5. cbn [map] in I5. rewrite <- Ex in I5.
        rewrite <- I5. rewrite app_assoc. cbn [app]. apply Permutation_cons_append.
    + cbn [emit set_own set_bot own top bot log mem tag resets]. split; [exact I1|]. split.
      { split; [exact Eb|]. split; [exact Ex|]. split; [lia|reflexivity]. } split; [exact I3|]. split.
      * intros t. apply (thief_keep st); try reflexivity; [|auto]. unfold hi. rewrite Eo. cbn. auto.
      * exact I5.
  - destruct I2 as (Eb & Ex & Ht & Eg). destruct (Nat.eqb_spec nb tp) as [E|E].
    + cbn [emit set_own set_bot own top bot log mem tag resets]. split; [exact I1|]. split.
      { split; [reflexivity|]. split; [exact Ex|]. split; [exact E|]. split; [lia|exact Eg]. } split; [exact I3|]. split.
      * intros t. apply (thief_keep st); try reflexivity; [|auto]. unfold hi. rewrite Eo. cbn. auto.
      * exact I5.
    + cbn [emit set_own set_bot own top bot log mem tag resets]. assert (Et : top st = S nb) by lia. split; [lia|]. split.
      { split; [reflexivity|exact Eg]. } split; [exact I3|]. split.
      * intros t. apply (thief_keep st); try reflexivity; [|auto]. unfold hi. rewrite Eo. cbn. intros H. lia.
      * rewrite Nat.sub_diag. rewrite <- Et, Nat.sub_diag in I5. exact I5.
  - destruct I2 as (Eb & Ex & En & Ht & Eg). unfold age_is.
    destruct (Nat.eqb_spec (top st) tp) as [E|E]; cbn [andb].
    + replace (tag st =? tg)%N with true by (symmetry; apply N.eqb_eq; congruence).
      cbn [emit set_own set_bot reset_age own top bot log mem tag resets]. split; [lia|]. split; [exact Logic.I|]. split.
      { subst tg. rewrite I3. apply tag_succ. } split.
      * intros t. apply (thief_reset st); try reflexivity; [|auto]. cbn. lia.
      * rewrite Eb. cbn [Nat.sub seq map taken pushed]. rewrite app_nil_r. rewrite <- I5. assert (Hnb : nb = top st) by lia. rewrite Ex, Hnb.
        replace (S (top st) - top st) with 1 by lia. cbn [seq map]. apply Permutation_cons_append.
    + cbn [emit set_own set_bot own top bot log mem tag resets]. assert (Et : top st = S nb) by lia. split; [lia|]. split.
      { split; [exact Eb|exact Eg]. } split; [exact I3|]. split.
      * intros t. apply (thief_keep st); try reflexivity; [|auto]. unfold hi. rewrite Eo. cbn. intros H. lia.
      * rewrite Nat.sub_diag. rewrite <- Et, Nat.sub_diag in I5. exact I5.
  - destruct I2 as (Eb & Eg). cbn [emit set_own set_bot reset_age own top bot log mem tag resets]. rewrite Eb. split; [lia|]. split; [exact Logic.I|]. split.
    { subst tg. rewrite I3. apply tag_succ. } split.
    * intros t. apply (thief_reset st); try reflexivity; [|auto]. cbn. lia.
    * rewrite Nat.sub_diag in I5. exact I5.
Qed.

Lemma thief_upd st t p : inv st -> (forall st', thief st' t = p -> started st' = started st -> resets st' = resets st ->
    top st' = top st -> hi st' = hi st -> mem st' = mem st -> thief_ok st' t) -> inv (set_thief st t p).
Proof.
  intros (I1 & I2 & I3 & I4 & I5) H. unfold inv. cbn [set_thief top tag resets log]. split; [exact I1|]. split; [exact I2|]. split; [exact I3|].
  split; [|exact I5]. intros u. destruct (Nat.eq_dec u t) as [->|Nu].
  - apply H; try reflexivity. cbn. apply upd_same.
  - apply (thief_keep st); try reflexivity; [cbn; now apply upd_other|auto|auto].
Qed.

Lemma emit_inv st o : inv st -> (taken (o :: log st) = taken (log st)) -> pushed (o :: log st) = pushed (log st) -> inv (emit st o).
Proof.
  intros (I1 & I2 & I3 & I4 & I5) A B. unfold inv. cbn [emit top tag resets log]. split; [exact I1|]. split; [exact I2|]. split; [exact I3|].
  split; [exact I4|]. rewrite A, B. exact I5.
Qed.

Lemma thief_step_inv st t : inv st -> no_wrap st t -> inv (thief_step st t).
Proof.
  intros I0 W. pose proof I0 as (I1 & I2 & I3 & I4 & I5). unfold thief_step, no_wrap in *. pose proof (I4 t) as K. unfold thief_ok in K.
  destruct (thief st t) as [| |tp tg|tp tg acc|tp tg x] eqn:Et.
  - exact I0.
  - unfold inv. cbn [start_thief set_thief top tag resets log]. split; [exact I1|]. split; [exact I2|]. split; [exact I3|]. split; [|exact I5].
    intros u. destruct (Nat.eq_dec u t) as [->|Nu].
    + unfold thief_ok, fresh. cbn. rewrite !upd_same. split; [exact I3|]. split; [lia|lia].
    + apply (thief_keep st); try reflexivity; cbn; try (now apply upd_other); auto.
  - destruct (Nat.leb_spec (bot st) tp) as [L|L].
    + apply emit_inv; try reflexivity. apply thief_upd; [exact I0|]. intros st' E _ _ _ _ _. unfold thief_ok. now rewrite E.
    + apply thief_upd; [exact I0|]. intros st' E Es Er Etp Eh Em. unfold thief_ok, fresh. rewrite E, Es, Er, Etp, Eh, Em.
      split; [split; [exact K|cbn; lia]|]. intros A B. split; [|reflexivity].
      unfold hi, own_ok in *. destruct (own st); try lia.
  - destruct K as ((F & La) & K). destruct (Nat.eqb_spec (length acc) WORDS) as [E|E].
    + apply thief_upd; [exact I0|]. intros st' E' Es Er Etp Eh Em. unfold thief_ok, fresh. rewrite E', Es, Er, Etp, Eh, Em.
      split; [exact F|]. intros A B. destruct (K A B) as [C D]. split; [exact C|]. unfold tk. rewrite <- D at 1. now rewrite E.
    + apply thief_upd; [exact I0|]. intros st' E' Es Er Etp Eh Em. unfold thief_ok, fresh. rewrite E', Es, Er, Etp, Eh, Em.
      rewrite app_length. cbn [length]. split; [split; [exact F|lia]|]. intros A B. destruct (K A B) as [C D]. split; [exact C|].
      rewrite seq_app, map_app, D. reflexivity.
  - destruct K as (F & K). unfold age_is. destruct (Nat.eqb_spec (top st) tp) as [E|E]; cbn [andb].
    + destruct (N.eqb_spec (tag st) tg) as [E'|E'].
      * destruct F as (F1 & F2 & F3). assert (S0 : started st t = resets st) by (apply tags_equal; [exact F2|exact W|congruence]).
        destruct (K S0 (eq_sym E)) as [Hl Hx]. subst tp.
        assert (Hh : hi (emit (set_thief (set_top st (S (top st))) t TIdle) (Stole t x)) = hi st /\
                     own_ok (emit (set_thief (set_top st (S (top st))) t TIdle) (Stole t x))).
        { unfold hi, own_ok in *. cbn [emit set_thief set_top own bot top mem tag].
          destruct (own st); try (split; [reflexivity|exact I2]); try (split; [reflexivity|]; intuition lia). lia. }
        destruct Hh as [Hh Ho]. unfold inv. rewrite Hh. split; [exact Hl|]. split; [exact Ho|].
        cbn [emit set_thief set_top tag resets log]. split; [exact I3|]. split.
        -- intros u. destruct (Nat.eq_dec u t) as [->|Nu]; [unfold thief_ok; cbn; rewrite upd_same; exact Logic.I|].
           specialize (I4 u). unfold thief_ok, fresh in *. cbn [emit set_thief set_top thief started resets top mem]. rewrite upd_other by exact Nu.
           destruct (thief st u) as [| |tp2 tg2|tp2 tg2 acc2|tp2 tg2 x2]; auto.
           ++ destruct I4 as (A & B & C). split; [exact A|]. split; [exact B|]. intros D. specialize (C D). lia.
           ++ destruct I4 as (((A & B & C) & L) & _). split; [split; [|exact L]; split; [exact A|]; split; [exact B|]; intros D; specialize (C D); lia|].
              intros D D'. specialize (C D). lia.
           ++ destruct I4 as ((A & B & C) & _). split; [split; [exact A|]; split; [exact B|]; intros D; specialize (C D); lia|].
              intros D D'. specialize (C D). lia.
        -- cbn [taken pushed]. unfold rem in *. rewrite Hh. cbn [emit set_thief set_top mem top]. rewrite (seq_top _ _ Hl) in I5. cbn [map] in I5.
           rewrite <- Hx in I5. rewrite <- I5. cbn [app]. apply Permutation_middle.
      * apply emit_inv; try reflexivity. apply thief_upd; [exact I0|]. intros st' E2 _ _ _ _ _. unfold thief_ok. now rewrite E2.
    + apply emit_inv; try reflexivity. apply thief_upd; [exact I0|]. intros st' E2 _ _ _ _ _. unfold thief_ok. now rewrite E2.
Qed.

Lemma event_inv st e st' : inv st -> (forall t, no_wrap st t) ->
  (forall xs, e = CallPush xs -> Forall (fun x => length x = WORDS) xs) -> do_event st e = Ok st' -> inv st'.
Proof.
  intros I0 W F E. pose proof I0 as (I1 & I2 & I3 & I4 & I5). destruct e as [xs| |t| |t]; cbn [do_event] in E.
  - destruct (own st) eqn:Eo; try (injection E as <-; exact I0).
    destruct (_ <=? _); [|discriminate]. injection E as <-. unfold inv, own_ok, rem, hi in *. rewrite Eo in *.
    cbn [set_own own top bot log mem tag resets]. split; [exact I1|]. split.
    { exists []. cbn [length seq map]. split; [reflexivity|]. split; [symmetry; apply Nat.add_0_r|]. split; [reflexivity|]. split; [auto|reflexivity]. }
    split; [exact I3|]. split; [|exact I5]. intros t. apply (thief_keep st); try reflexivity; [|auto]. unfold hi. rewrite Eo. cbn. auto.
  - destruct (own st) eqn:Eo; try (injection E as <-; exact I0). injection E as <-. unfold inv, own_ok, rem, hi in *. rewrite Eo in *.
    cbn [set_own own top bot log mem tag resets]. split; [exact I1|]. split; [exact Logic.I|].
    split; [exact I3|]. split; [|exact I5]. intros t. apply (thief_keep st); try reflexivity; [|auto]. unfold hi. rewrite Eo. cbn. auto.
  - destruct (thief st t) eqn:Et; try (injection E as <-; exact I0). injection E as <-.
    apply thief_upd; [exact I0|]. intros st' E2 _ _ _ _ _. unfold thief_ok. now rewrite E2.
  - injection E as <-. now apply own_step_inv.
  - injection E as <-. now apply thief_step_inv.
Qed.

Lemma run_app : forall es1 es2 st, run st (es1 ++ es2) = (do! st' <- run st es1; run st' es2).
Proof.
  induction es1 as [|e es1 IH]; intros es2 st; [reflexivity|]. cbn [app run].
  destruct (do_event st e) as [st1|]; [|reflexivity]. cbn [bind]. apply IH.
Qed.

Lemma run_inv es st : run init es = Ok st -> whole_tasks es -> short_steals es -> inv st.
Proof.
  revert st. induction es as [|e es IH] using rev_ind; intros st R F W.
  - cbn in R. injection R as <-. apply init_inv.
  - rewrite run_app in R. destruct (run init es) as [st1|] eqn:R1; [|discriminate]. cbn [bind run] in R.
    destruct (do_event st1 e) as [st2|] eqn:R2; [|discriminate]. cbn [bind] in R. injection R as <-.
    eapply event_inv; [apply IH| | |exact R2].
    + reflexivity.
    + intros xs H. apply F. apply in_or_app. now left.
    + intros es1 es2 s H. apply (W es1 (es2 ++ [e]) s). now rewrite H, app_assoc.
    + intros t. apply (W es [e] st1); [reflexivity|exact R1].
    + intros xs ->. apply F. apply in_or_app. right. now left.
Qed.


(* A step returns at most one outcome, and a pop that returns false found no task
   left. *)
Lemma event_log st e st' : inv st -> do_event st e = Ok st' ->
  log st' = log st \/
  exists o, log st' = o :: log st /\ (o = PopEmpty -> Permutation (taken (log st)) (pushed (log st))).
Proof.
  intros (I1 & I2 & I3 & I4 & I5) E. destruct e as [xs| |t| |t]; cbn [do_event] in E.
  - destruct (own st); try (injection E as <-; now left). destruct (_ <=? _); [|discriminate]. injection E as <-. now left.
  - destruct (own st); injection E as <-; now left.
  - destruct (thief st t); injection E as <-; now left.
  - injection E as <-. unfold own_step, inv, rem, hi, own_ok in *. destruct (own st) as [|rest a nb xs| |nb|nb acc|nb x|nb x tp tg|nb x tp tg|tg] eqn:Eo.
    + now left.
    + destruct rest; [|now left]. right. eexists. split; [reflexivity|discriminate].
    + destruct (bot st); [|now left]. right. eexists. split; [reflexivity|]. intros _. cbn [Nat.sub seq map] in I5. rewrite app_nil_r in I5. exact I5.
    + now left.
    + destruct (_ =? _); now left.
    + destruct (_ <? _); [|now left]. right. eexists. split; [reflexivity|discriminate].
    + destruct (_ =? _); now left.
    + destruct (age_is _ _ _); [|now left]. right. eexists. split; [reflexivity|discriminate].
    + right. eexists. split; [reflexivity|]. intros _. rewrite Nat.sub_diag in I5. cbn [seq map] in I5. rewrite app_nil_r in I5. exact I5.
  - injection E as <-. unfold thief_step. destruct (thief st t) as [| |tp tg|tp tg acc|tp tg x].
    + now left.
    + now left.
    + destruct (_ <=? _); [|now left]. right. eexists. split; [reflexivity|discriminate].
    + destruct (_ =? _); now left.
    + destruct (age_is _ _ _); right; (eexists; split; [reflexivity|discriminate]).
Qed.

Lemma short_prefix es e : short_steals (es ++ [e]) -> short_steals es.
Proof. intros W es1 es2 s H. apply (W es1 (es2 ++ [e]) s). now rewrite H, app_assoc. Qed.
Lemma whole_prefix es e : whole_tasks (es ++ [e]) -> whole_tasks es.
Proof. intros F xs H. apply F. apply in_or_app. now left. Qed.

(* Every suffix of the log is the log of an earlier reachable state. *)
Lemma run_log es : forall st, run init es = Ok st -> whole_tasks es -> short_steals es ->
  forall h2 h1, log st = h2 ++ h1 ->
  (exists rest, Permutation (taken h1 ++ rest) (pushed h1)) /\
  (forall h0, h1 = PopEmpty :: h0 -> Permutation (taken h0) (pushed h0)).
Proof.
  induction es as [|e es IH] using rev_ind; intros st R F W h2 h1 E.
  - cbn in R. injection R as <-. cbn in E. destruct h2, h1; try discriminate. split; [exists []; constructor|discriminate].
  - pose proof (run_inv _ _ R F W) as (_ & _ & _ & _ & P).
    rewrite run_app in R. destruct (run init es) as [st1|] eqn:R1; [|discriminate]. cbn [bind run] in R.
    destruct (do_event st1 e) as [st2|] eqn:R2; [|discriminate]. cbn [bind] in R. injection R as <-.
    specialize (IH st1 eq_refl (whole_prefix _ _ F) (short_prefix _ _ W)).
    destruct (event_log st1 e st2) as [L|(o & L & Q)].
    + apply (run_inv es); [exact R1|apply (whole_prefix _ _ F)|apply (short_prefix _ _ W)].
    + exact R2.
    + apply (IH h2 h1). congruence.
    + rewrite L in E. destruct h2 as [|o2 h2].
      * cbn [app] in E. subst h1. split; [eexists; rewrite L in P; exact P|]. intros h0 [= -> <-]. auto.
      * cbn [app] in E. injection E as _ E. now apply (IH h2 h1).
Qed.
