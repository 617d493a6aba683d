(* The automaton built for a sequence matches what the sequence matches. *)
From Coq Require Import List Arith Bool Lia.
From Verif Require Import Base PslSpec PslModel PslGraph.
Import ListNotations.

(* ---- induction over sequences ---- *)
Section SereInd.
Variable P : sere -> Prop.
Hypothesis HHdl : forall p, P (Hdl p).
Hypothesis HSeq : forall k ops, Forall P ops -> P (Seq k ops).
Hypothesis HRep : forall k lo hi r, P r -> P (Rep k lo hi r).
Hypothesis HAnd : forall a b, P a -> P b -> P (And a b).
Fixpoint sere_ind' (r : sere) : P r :=
  match r with
  | Hdl p => HHdl p
  | Seq k ops =>
    HSeq k ops ((fix go (l : list sere) : Forall P l :=
                   match l with
                   | [] => Forall_nil P
                   | o :: l' => Forall_cons o (sere_ind' o) (go l')
                   end) ops)
  | Rep k lo hi r' => HRep k lo hi r' (sere_ind' r')
  | And a b => HAnd a b (sere_ind' a) (sere_ind' b)
  end.
End SereInd.

Lemma plain_seq k ops : plain (Seq k ops) <-> ops <> [] /\ Forall plain ops.
Proof.
  cbn [plain]. split; intros (H1 & H2); (split; [exact H1|]).
  - clear H1. induction ops as [|o ops IH]; [constructor|].
    destruct H2 as (H2 & H3). constructor; auto.
  - clear H1. induction ops as [|o ops IH]; [exact Logic.I|].
    inversion_clear H2. split; [assumption|]. exact (IH H0).
Qed.

(* ---- the two composition rules on lists ---- *)
Fixpoint cat_m (w : trace) (ops : list sere) (i j : nat) : Prop :=
  match ops with
  | [] => i = j
  | o :: rest => exists k, matches w o i k /\ cat_m w rest k j
  end.

Fixpoint fuse_m (w : trace) (ops : list sere) (i j : nat) : Prop :=
  match ops with
  | [] => False
  | o :: rest =>
    match rest with
    | [] => matches w o i j
    | _ => exists k, i <= k /\ matches w o i (S k) /\ fuse_m w rest k j
    end
  end.

Lemma matches_cat w ops i j : matches w (Seq Concat ops) i j <-> cat_m w ops i j.
Proof.
  revert i. induction ops as [|o ops IH]; intros i; [reflexivity|].
  cbn [matches cat_m]. split; intros (k & H1 & H2); exists k;
    (split; [exact H1|]); apply IH; exact H2.
Qed.

Lemma matches_fuse w ops i j : matches w (Seq Fusion ops) i j <-> fuse_m w ops i j.
Proof.
  revert i. induction ops as [|o ops IH]; intros i; [reflexivity|].
  cbn [matches fuse_m]. destruct ops as [|o2 ops]; [reflexivity|].
  split; intros (k & H0 & H1 & H2); exists k;
    (split; [exact H0|]; split; [exact H1|]); apply IH; exact H2.
Qed.

Lemma times_pos (m : nat -> nat -> Prop) n i j :
  (forall i j, m i j -> i < j) -> times m n i j -> i <= j /\ (1 <= n -> i < j).
Proof.
  intros Hm. revert i. induction n as [|n IH]; cbn [times]; intros i H; [lia|].
  destruct H as (k & H1 & H2). apply Hm in H1. apply IH in H2. lia.
Qed.

(* Plain sequences do not match the empty word. *)
Lemma matches_pos r : plain r -> forall w i j, matches w r i j -> i < j.
Proof.
  induction r as [p|k ops IH|k lo hi r IH|a b IHa IHb] using sere_ind'; intros HP w i j HM.
  - destruct HM as (_ & ->). lia.
  - apply plain_seq in HP as (Hne & HP). destruct k.
    + apply matches_cat in HM.
      assert (HL : forall i, cat_m w ops i j -> i <= j /\ (ops <> [] -> i < j)).
      { clear HM i Hne. induction ops as [|o ops IHo]; intros i HM; cbn [cat_m] in HM.
        - split; [lia|congruence].
        - destruct HM as (k & H1 & H2). inversion_clear IH. inversion_clear HP.
          apply H in H1; [|assumption]. apply IHo in H2; auto. lia. }
      apply HL; assumption.
    + apply matches_fuse in HM. clear Hne. revert i HM.
      induction ops as [|o ops IHo]; intros i HM; [destruct HM|].
      inversion_clear IH. inversion_clear HP. cbn [fuse_m] in HM.
      destruct ops as [|o2 ops]; [eauto|].
      destruct HM as (k & H3 & H4 & H5). apply IHo in H5; auto. lia.
  - destruct k; [|destruct HP|destruct HP]. destruct HP as (H1 & H2 & H3).
    destruct HM as (n & (W1 & W2) & HT).
    apply (times_pos _ _ _ _ (IH H3 w)) in HT. lia.
  - destruct HP.
Qed.

(* ---- what is kept while building ---- *)
Definition wf (f : fsm) (s : nat) : Prop :=
  s < next f /\ edges f s = [] /\ forall q, next f <= q -> edges f q = [].

Definition built (M C : rel) (f : fsm) (s : nat) (f' : fsm) (t : nat) : Prop :=
  frag False 0 (edges f) (edges f') s (next f) (next f') t s /\
  lang (edges f') s t M C /\ acc f' = acc f /\ ag f' = ag f.

Definition builds (bld : fsm -> nat -> res (fsm * nat)) (M C : rel) : Prop :=
  forall f s, wf f s -> exists f' t, bld f s = Ok (f', t) /\ built M C f s f' t.

Lemma lang_iff G s t (M M' C C' : rel) :
  (forall w i j, M w i (S j) <-> M' w i (S j)) -> (forall w i j, C w i j <-> C' w i j) ->
  lang G s t M C -> lang G s t M' C'.
Proof.
  intros HM HC [L1 L2]. split; intros w i j.
  - rewrite <- HM. apply L1.
  - rewrite <- HC. apply L2.
Qed.

Lemma built_iff M M' C f s f' t :
  (forall w i j, M w i (S j) <-> M' w i (S j)) ->
  built M C f s f' t -> built M' C f s f' t.
Proof.
  intros HM (F & L & A). split; [exact F|]. split; [|exact A].
  eapply lang_iff; [exact HM| |exact L]. reflexivity.
Qed.

Lemma kind_eqb_spec a b : kind_eqb a b = true <-> a = b.
Proof. destruct a, b; cbn; split; congruence. Qed.

(* A new edge is appended when no edge of that kind goes there. *)
Lemma insert_fresh l e :
  (forall x, In x l -> ek x = ek e -> dst x <> dst e) -> insert_edge l e = l ++ [e].
Proof.
  intros H. unfold insert_edge.
  destruct (existsb _ l) eqn:E; [|reflexivity]. exfalso.
  apply existsb_exists in E as (x & Hx & E).
  apply andb_true_iff in E as (E & _). apply andb_true_iff in E as (E1 & E2).
  apply kind_eqb_spec in E1. apply Nat.eqb_eq in E2. exact (H x Hx E1 E2).
Qed.

Lemma build_hdl fuel p :
  builds (build fuel (Hdl p)) (fun w => matches w (Hdl p)) (fun w i j => i = j).
Proof.
  intros f s (Hs & He & Hn). cbn [build add_state].
  eexists _, _. split; [reflexivity|].
  unfold add_edge, set_edges. cbn [edges next acc ag]. rewrite He. cbn.
  split; [|split; [|auto]].
  - apply frag_hdl; auto.
  - apply lang_hdl; auto.
Qed.

Lemma build_cons M1 C1 M2 C2 lk (rest : fsm -> nat -> res (fsm * nat)) f s f1 t1 :
  wf f s -> built M1 C1 f s f1 t1 -> builds rest M2 C2 ->
  exists f' t, rest (add_edge (fst (add_state f1)) t1 (snd (add_state f1)) lk None)
                    (snd (add_state f1)) = Ok (f', t) /\
    built (compose lk M1 M2) C2 f s f' t.
Proof.
  intros (W1 & W2 & W3) (F & L & A1 & A2) HR.
  pose proof (f_rng _ _ _ _ _ _ _ _ _ F) as (R1 & R2).
  assert (Hfr : forall q, next f1 <= q -> edges f1 q = []).
  { intros q Hq. rewrite (f_frame _ _ _ _ _ _ _ _ _ F); [apply W3; lia|].
    unfold dom. lia. }
  cbn [add_state fst snd].
  set (g := add_edge _ _ _ _ _).
  assert (Hg : edges g = upd (edges f1) t1 (edges f1 t1 ++ [Edge lk None (next f1)])).
  { unfold g, add_edge, set_edges. cbn [edges]. rewrite insert_fresh; [reflexivity|].
    intros x Hx _. cbn [dst].
    pose proof (frag_dom_closed _ _ _ _ _ _ _ _ F t1 x ltac:(right; lia) Hx) as HD.
    unfold dom in HD. lia. }
  destruct (HR g (next f1)) as (f' & t & HO & F' & L' & A1' & A2').
  { split; [|split].
    - unfold g, add_edge, set_edges. cbn. lia.
    - rewrite Hg. rewrite upd_other by lia. apply Hfr. lia.
    - unfold g at 1. unfold add_edge, set_edges. cbn [next]. intros q Hq.
      rewrite Hg. rewrite upd_other by lia. apply Hfr. lia. }
  exists f', t. split; [exact HO|].
  assert (Hng : next g = S (next f1)) by reflexivity.
  rewrite Hng, Hg in F'.
  split; [|split; [|split]].
  - eapply (frag_weaken False 0 0 (edges f)); [reflexivity|].
    eapply (frag_link False False false 0); [exact F|exact F'| | |]; auto; try discriminate.
    intros [].
  - eapply lang_link; eauto.
  - rewrite A1'. exact A1.
  - rewrite A2'. exact A2.
Qed.

Lemma seq_ok fuel k ops :
  ops <> [] -> Forall plain ops ->
  Forall (fun r => exists C, builds (build fuel r) (fun w => matches w r) C) ops ->
  exists C, builds (build_seq (build fuel) (match k with Fusion => EPS | Concat => NEXT end) ops)
                   (fun w => matches w (Seq k ops)) C.
Proof.
  intros Hne HP HB. revert Hne.
  induction ops as [|o ops IH]; [congruence|]. intros _.
  inversion_clear HB as [|? ? (C1 & B1) HB']. inversion_clear HP as [|? ? P1 P2].
  destruct ops as [|o2 ops].
  - exists C1. intros f s Hwf. destruct (B1 f s Hwf) as (f' & t & HO & HB).
    exists f', t. cbn [build_seq]. rewrite HO. cbn [bind]. split; [reflexivity|].
    eapply built_iff; [|exact HB]. intros w i j. destruct k.
    + rewrite matches_cat. cbn [cat_m]. split; [eauto|]. intros (k & H & ->). exact H.
    + rewrite matches_fuse. reflexivity.
  - destruct (IH P2 HB' ltac:(discriminate)) as (C2 & B2).
    exists C2. intros f s Hwf. destruct (B1 f s Hwf) as (f1 & t1 & HO & HB).
    destruct (build_cons _ _ _ _ (match k with Fusion => EPS | Concat => NEXT end)
                _ f s f1 t1 Hwf HB B2) as (f' & t & HO2 & HB2).
    exists f', t. split.
    + assert (Ht : (t1 =? s) = false).
      { destruct HB as (F & _). pose proof (f_rng _ _ _ _ _ _ _ _ _ F).
        apply Nat.eqb_neq. lia. }
      change (build_seq (build fuel) ?lk (o :: o2 :: ops) f s) with
        (do! (f1, t) <- build fuel o f s;
         if t =? s then build_seq (build fuel) lk (o2 :: ops) f1 t
         else let '(f2, s2) := add_state f1 in
              build_seq (build fuel) lk (o2 :: ops) (add_edge f2 t s2 lk None) s2).
      rewrite HO. cbn [bind]. rewrite Ht. exact HO2.
    + eapply built_iff; [|exact HB2]. intros w i j. unfold compose. destruct k.
      * rewrite !matches_cat. change (cat_m w (o :: o2 :: ops) i (S j)) with
          (exists k, matches w o i k /\ cat_m w (o2 :: ops) k (S j)).
        split.
        -- intros (k1 & H1 & H2). exists (S k1). split; [exact H1|].
           rewrite matches_cat in H2. exact H2.
        -- intros (k1 & H1 & H2). pose proof (matches_pos _ P1 _ _ _ H1).
           destruct k1 as [|k1]; [lia|]. exists k1. rewrite matches_cat. auto.
      * rewrite !matches_fuse. change (fuse_m w (o :: o2 :: ops) i (S j)) with
          (exists k, i <= k /\ matches w o i (S k) /\ fuse_m w (o2 :: ops) k (S j)).
        split.
        -- intros (k1 & H1 & H2). exists k1. rewrite matches_fuse in H2.
           pose proof (matches_pos _ P1 _ _ _ H1). split; [lia|]. auto.
        -- intros (k1 & _ & H1 & H2). exists k1. rewrite matches_fuse. auto.
Qed.

(* ---- repetition ---- *)
Definition used (lo i0 k : nat) : Prop := exists c, 1 <= c < k /\ lo <= i0 + c.

Lemma copies_ok bld r lo sk (M C : rel) :
  builds bld M C -> (forall w i j, M w i j -> i < j) ->
  forall k i0 f s lb0, 1 <= k -> wf f s ->
  (used lo i0 k -> sk < next f /\ sk <> s /\ edges f sk = []) ->
  exists f' t lb nl,
    build_copies bld Times r lo sk k i0 f s lb0 = Ok (f', t, lb) /\
    frag (used lo i0 k) sk (edges f) (edges f') s (next f) (next f') t lb /\
    chain lo i0 k sk (edges f') s (next f) (next f') t lb nl M C /\
    acc f' = acc f /\ ag f' = ag f.
Proof.
  intros HB Hpos. induction k as [|k IH]; [lia|].
  intros i0 f s lb0 _ Hwf Hsk.
  destruct (HB f s Hwf) as (f1 & t1 & HO & F & L & A1 & A2).
  pose proof Hwf as (W1 & W2 & W3).
  pose proof (f_rng _ _ _ _ _ _ _ _ _ F) as (R1 & R2).
  cbn [build_copies]. rewrite HO. cbn [bind].
  destruct k as [|k].
  - exists f1, t1, s, (next f). split; [reflexivity|].
    split; [|split; [|auto]].
    + eapply (frag_weaken _ _ _ (edges f)); [reflexivity|exact F].
    + eapply chain_one; [|exact L].
      eapply (frag_weaken False 0 sk (edges f)); [reflexivity|exact F].
  - assert (Hfr : forall q, next f1 <= q -> edges f1 q = []).
    { intros q Hq. rewrite (f_frame _ _ _ _ _ _ _ _ _ F); [apply W3; lia|].
      unfold dom. lia. }
    set (x := lo - 1 <=? i0).
    assert (Hx : x = true -> used lo i0 (S (S k))).
    { intros HX. apply Nat.leb_le in HX. exists 1. lia. }
    set (f3 := if x then _ else _).
    assert (H3 : next f3 = next f1 /\ acc f3 = acc f1 /\ ag f3 = ag f1 /\
                 edges f3 t1 = edges f1 t1 ++ exits x sk /\
                 forall q, q <> t1 -> edges f3 q = edges f1 q).
    { unfold f3. destruct x; cbn [next acc ag edges add_edge set_edges].
      - repeat split; try reflexivity.
        + rewrite upd_same. unfold exits. apply insert_fresh. intros y Hy Hk.
          rewrite (f_t _ _ _ _ _ _ _ _ _ F y Hy) in Hk. discriminate.
        + intros q Hq. apply upd_other. exact Hq.
      - cbn [exits]. rewrite app_nil_r. auto. }
    destruct H3 as (N3 & C3 & G3 & E3 & O3). clearbody f3.
    cbn [add_state fst snd].
    set (g := add_edge _ _ _ _ _).
    assert (Hng : next g = S (next f1)).
    { unfold g, add_edge, set_edges. cbn [next]. rewrite N3. reflexivity. }
    assert (Hg : forall q, edges g q =
      upd (edges f1) t1 (edges f1 t1 ++ exits x sk ++ [Edge NEXT None (next f1)]) q).
    { intros q. unfold g, add_edge, set_edges. cbn [edges next]. unfold upd.
      destruct (Nat.eqb_spec q t1) as [->|Hq].
      - rewrite E3, N3. rewrite insert_fresh; [now rewrite <- app_assoc|].
        intros y Hy _. cbn [dst]. apply in_app_or in Hy as [Hy|Hy].
        + pose proof (frag_dom_closed _ _ _ _ _ _ _ _ F t1 y ltac:(right; lia) Hy) as HD.
          unfold dom in HD. lia.
        + unfold exits in Hy. destruct x; [|destruct Hy]. destruct Hy as [<-|[]]. cbn.
          destruct (Hsk (Hx eq_refl)). lia.
      - apply O3. exact Hq. }
    assert (Hu : used lo (S i0) (S k) -> used lo i0 (S (S k))).
    { intros (c & Hc & Hl). exists (S c). lia. }
    destruct (IH (S i0) g (next f1) s) as (f' & t & lb & nl & HO2 & F2 & HC & A3 & A4).
    + lia.
    + split; [lia|]. split.
      * rewrite Hg, upd_other by lia. apply Hfr. lia.
      * intros q Hq. rewrite Hg, upd_other by lia. apply Hfr. lia.
    + intros U. destruct (Hsk (Hu U)) as (K1 & K2 & K3).
      split; [lia|]. split; [lia|]. rewrite Hg, upd_other by lia.
      rewrite (f_frame _ _ _ _ _ _ _ _ _ F); [exact K3|]. unfold dom. lia.
    + exists f', t, lb, nl. split; [rewrite N3; exact HO2|].
      rewrite Hng in F2, HC.
      apply (frag_base _ _ _ (upd (edges f1) t1
               (edges f1 t1 ++ exits x sk ++ [Edge NEXT None (next f1)]))) in F2;
        [|intros; apply Hg].
      assert (F0 : frag False sk (edges f) (edges f1) s (next f) (next f1) t1 s)
        by (eapply (frag_weaken _ _ _ (edges f)); [reflexivity|exact F]).
      split; [|split; [|split]].
      * eapply (frag_link _ (used lo (S i0) (S k)) x sk); [exact F0|exact F2|auto| |].
        -- intros HX. split; [auto|reflexivity].
        -- intros U. destruct (Hsk U) as (K1 & K2 & _). auto.
      * eapply chain_cons; [lia|exact Hpos|exact F0|exact F2| |exact L|exact HC].
        intros [HX|U]; apply Hsk; auto.
      * rewrite A3. unfold g, add_edge, set_edges. cbn [acc]. congruence.
      * rewrite A4. unfold g, add_edge, set_edges. cbn [ag]. congruence.
Qed.

Lemma rep_ok bld r lo hi (M C : rel) :
  1 <= lo -> (match hi with Some h => lo <= h | None => True end) ->
  builds bld M C -> (forall w i j, M w i j -> i < j) ->
  exists C', builds (build_repeat bld Times lo hi r)
    (fun w i j => exists n, within lo hi n /\ times (M w) n i j) C'.
Proof.
  intros Hlo Hhi HB Hpos.
  assert (Hlo0 : (lo =? 0) = false) by (apply Nat.eqb_neq; lia).
  assert (Hnot : forall k, k <= lo -> used lo 0 k -> False).
  { intros k Hk (c & Hc & Hl). lia. }
  destruct hi as [h|].
  - (* a finite upper bound *)
    destruct (Nat.ltb_spec lo h) as [Hlt|Hge].
    + exists C. intros f s (W1 & W2 & W3). unfold build_repeat.
      replace (lo <? h) with true by (symmetry; apply Nat.ltb_lt; exact Hlt).
      cbn [add_state].
      set (f0 := Fsm _ _ _ _).
      destruct (copies_ok bld r lo (next f) M C HB Hpos h 0 f0 s 0)
        as (f1 & t & lb & nl & HO & F & HC & A1 & A2).
      { lia. }
      { split; [cbn; lia|]. split; [exact W2|]. cbn. intros q Hq. apply W3. lia. }
      { intros _. cbn. split; [lia|]. split; [lia|]. apply W3. lia. }
      rewrite HO. cbn [bind].
      pose proof (f_rng _ _ _ _ _ _ _ _ _ F) as (R1 & R2). cbn [f0 next] in R1, R2.
      assert (Ht : (t =? s) = false) by (apply Nat.eqb_neq; lia).
      rewrite Ht, Hlo0. eexists _, _. split; [reflexivity|].
      assert (Hsk : edges f1 (next f) = []).
      { rewrite (f_frame _ _ _ _ _ _ _ _ _ F); [apply W3; lia|].
        unfold dom. cbn [f0 next]. lia. }
      unfold built, add_edge, set_edges. cbn [edges next acc ag].
      rewrite Hsk. change (insert_edge [] ?e) with [e].
      split; [|split; [|split; [exact A1|exact A2]]].
      * eapply (frag_range (used lo 0 h)); [exists lo; lia|lia|apply W3; lia|].
        exact F.
      * eapply lang_iff; [| |apply (lang_range lo h (next f) (edges f1) s (next f0) (next f1) t lb nl M C)].
        -- intros w i j. unfold within. split; intros (m & Hm & T); exists m; auto.
        -- reflexivity.
        -- exact Hlo.
        -- lia.
        -- exact Hpos.
        -- exact Hsk.
        -- unfold dom. cbn [f0 next]. lia.
        -- exact HC.
    + assert (h = lo) by lia. subst h.
      exists C. intros f s Hwf. unfold build_repeat. rewrite Nat.ltb_irrefl.
      destruct (copies_ok bld r lo 0 M C HB Hpos lo 0 f s 0)
        as (f1 & t & lb & nl & HO & F & HC & A1 & A2);
        [lia|exact Hwf|intros U; destruct (Hnot lo ltac:(lia) U)|].
      rewrite HO. cbn [bind].
      pose proof (f_rng _ _ _ _ _ _ _ _ _ F) as (R1 & R2).
      assert (Ht : (t =? s) = false) by (apply Nat.eqb_neq; lia).
      rewrite Ht, Hlo0. eexists _, _. split; [reflexivity|].
      split; [|split; [|auto]].
      * eapply (frag_weaken _ _ _ (edges f)); [reflexivity|].
        eapply (frag_false (used lo 0 lo)); [exact (Hnot lo ltac:(lia))|exact F].
      * eapply lang_iff; [| |eapply lang_fixed; [exact Hlo|exact Hpos|exact HC]].
        -- intros w i j. cbn beta. unfold within. split.
           ++ intros T. exists lo. split; [lia|exact T].
           ++ intros (m & Hm & T). replace lo with m by lia. exact T.
        -- reflexivity.
  - eexists. intros f s Hwf. unfold build_repeat. rewrite Nat.ltb_irrefl.
    destruct (copies_ok bld r lo 0 M C HB Hpos lo 0 f s 0)
      as (f1 & t & lb & nl & HO & F & HC & A1 & A2);
      [lia|exact Hwf|intros U; destruct (Hnot lo ltac:(lia) U)|].
    rewrite HO. cbn [bind].
    pose proof (f_rng _ _ _ _ _ _ _ _ _ F) as (R1 & R2).
    assert (Ht : (t =? s) = false) by (apply Nat.eqb_neq; lia).
    rewrite Ht, Hlo0. eexists _, _. split; [reflexivity|].
    unfold built, add_edge, set_edges. cbn [edges next acc ag].
    split; [|split; [|auto]].
    + eapply frag_inf.
      eapply (frag_false (used lo 0 lo)); [exact (Hnot lo ltac:(lia))|exact F].
    + eapply lang_iff; [| |eapply lang_inf; [exact Hlo|exact Hpos|exact HC]].
      * intros w i j. cbn beta. unfold within.
        split; intros (m & Hm & T); exists m; (split; [tauto|exact T]).
      * reflexivity.
Qed.

(* ---- every plain sequence ---- *)
Lemma build_ok fuel r : plain r ->
  exists C, builds (build fuel r) (fun w => matches w r) C.
Proof.
  induction r as [p|k ops IH|k lo hi r IH|a b IHa IHb] using sere_ind'; intros HP.
  - eexists. apply build_hdl.
  - apply plain_seq in HP as (Hne & HP). apply seq_ok; auto.
    clear Hne. induction IH as [|o ops Ho IH IH2]; constructor; inversion_clear HP; auto.
  - destruct k; [|destruct HP|destruct HP]. destruct HP as (H1 & H2 & H3).
    destruct (IH H3) as (C & HB).
    destruct (rep_ok (build fuel r) r lo hi _ C H1 H2 HB (matches_pos r H3)) as (C' & HB').
    exists C'. exact HB'.
  - destruct HP.
Qed.
