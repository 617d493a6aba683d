From Coq Require Import List Arith NArith Bool Lia.
From Verif Require Import Base MaskModel MaskSpec MaskProofs MaskRun CfgModel CfgProofs DomModel DomSpec.
Import ListNotations.
Open Scope nat_scope.

(* ---------- the operations on masks, as operations on sets ---------- *)

Lemma d_set n m s b : denotes n m s -> b < n ->
  exists m', mask_set m b = Ok m' /\ denotes n m' (fun i => (i =? b) || s i).
Proof.
  intros (Dn & Dw & De) H. destruct (mask_set_ok m b Dw) as (m' & R & H1 & H2 & H3); [lia|].
  exists m'. split; [exact R|]. split; [lia|]. split; [assumption|]. intros i Hi. now rewrite H3, De.
Qed.

Lemma d_setall n m s : denotes n m s -> exists m', mask_setall m = Ok m' /\ denotes n m' (fun _ => true).
Proof.
  intros (Dn & Dw & De). unfold mask_setall.
  destruct (mask_set_range_ok m 0 (msize m) Dw) as (m' & R & H1 & H2 & H3); [lia|].
  exists m'. split; [exact R|]. split; [lia|]. split; [assumption|]. intros i Hi. rewrite H3.
  unfold in_range. lia.
Qed.

Lemma d_intersect n m s m2 s2 : denotes n m s -> denotes n m2 s2 ->
  exists m', mask_intersect m m2 = Ok m' /\ denotes n m' (fun i => s i && s2 i).
Proof.
  intros (Dn & Dw & De) (En & Ew & Ee).
  destruct (mask_words_op_ok N.land andb m m2) as (m' & R & H1 & H2 & H3); auto; try lia.
  { intros. now apply w64_land_l. }
  { intros a b i Hi. apply bt_land. }
  exists m'. split; [exact R|]. split; [lia|]. split; [assumption|].
  intros i Hi. rewrite H3, De, Ee by lia. reflexivity.
Qed.

Lemma d_copy n m s m2 s2 : denotes n m s -> denotes n m2 s2 ->
  exists m', mask_copy m m2 = Ok m' /\ denotes n m' s2.
Proof.
  intros (Dn & Dw & De) (En & Ew & Ee).
  destruct (mask_words_op_ok (fun _ b => b) (fun _ b => b) m m2) as (m' & R & H1 & H2 & H3); auto; try lia.
  exists m'. split; [exact R|]. split; [lia|]. split; [assumption|].
  intros i Hi. rewrite H3, Ee by lia. reflexivity.
Qed.

Definition same_below (n : nat) (s t : iset) : Prop := forall i, i < n -> s i = t i.

Lemma d_eq n m s m2 s2 : denotes n m s -> denotes n m2 s2 ->
  exists r, mask_eq m m2 = Ok r /\ (r = true <-> same_below n s s2).
Proof.
  intros (Dn & Dw & De) (En & Ew & Ee).
  destruct (mask_eq_ok m m2) as (r & R & H); auto; try lia.
  exists r. split; [exact R|]. rewrite H, Dn. split; intros H' i Hi.
  - rewrite <- De, <- Ee by lia. now apply H'.
  - rewrite De, Ee by lia. now apply H'.
Qed.

(* ---------- the flow graph ---------- *)

Section Unit.
Variable u : munit.
Hypothesis U : unit_ok u.
Hypothesis NE : u <> [].
Notation n := (length u).

(* The graph after the first [k] blocks. *)
Definition cfg_is (k : nat) (c : cfg) : Prop :=
  (forall i, entry (c i) = true <-> i = 0 \/ exists j, j < k /\ nth_error u j = Some (Wait i)) /\
  (forall i, exists ps os, elist_is (cin (c i)) ps /\ elist_is (cout (c i)) os /\
     (forall p, In p ps <-> exists ts, p < k /\ nth_error u p = Some (Goto ts) /\ In i ts) /\
     (forall q, In q os <-> exists ts, i < k /\ nth_error u i = Some (Goto ts) /\ In q ts)).

Lemma elist_nil : elist_is no_edges [].
Proof. split; [reflexivity|]. left. cbn. repeat split; lia. Qed.

Lemma cfg_start : cfg_is 0 (fun i => Cblock (i =? 0) false no_edges no_edges).
Proof.
  split.
  - intros i. cbn. split.
    + intros H. left. now apply Nat.eqb_eq.
    + intros [->|(j & J & _)]; [reflexivity|lia].
  - intros i. exists [], []. split; [apply elist_nil|]. split; [apply elist_nil|].
    split; intros p; (split; [intros []|intros (ts & H & _); lia]).
Qed.

(* The edges of one block, with those of [done] added already. *)
Definition cfg_mid (k : nat) (c0 : cfg) (done : list nat) (c : cfg) : Prop :=
  (forall i, entry (c i) = entry (c0 i)) /\
  (forall i, exists ps os ps0 os0, elist_is (cin (c0 i)) ps0 /\ elist_is (cout (c0 i)) os0 /\
     elist_is (cin (c i)) ps /\ elist_is (cout (c i)) os /\
     (forall p, In p ps <-> In p ps0 \/ (p = k /\ In i done)) /\
     (forall q, In q os <-> In q os0 \/ (i = k /\ In q done))).

Lemma add_medge_ok k c0 done c t : cfg_mid k c0 done c ->
  exists c', add_medge c k t = Ok c' /\ cfg_mid k c0 (done ++ [t]) c'.
Proof.
  intros (E & R). unfold add_medge.
  destruct (R k) as (ps & os & ps0 & os0 & P0 & O0 & P & O & IP & IO).
  destruct (add_one_edge_ok _ _ t O) as (o & -> & Ho). cbn [bind].
  set (c1 := upd c k _).
  assert (R1 : exists psT, elist_is (cin (c1 t)) psT /\ elist_is (cin (c t)) psT).
  { unfold c1, upd. destruct (Nat.eqb_spec t k) as [->|]; cbn [cin].
    - now exists ps.
    - destruct (R t) as (a & _ & _ & _ & _ & _ & A & _). now exists a. }
  destruct R1 as (psT & T1 & T2).
  destruct (add_one_edge_ok _ _ k T1) as (x & -> & Hx). cbn [bind].
  eexists. split; [reflexivity|]. split.
  - intros i. unfold upd at 1. destruct (Nat.eqb_spec i t) as [->|]; cbn [entry];
      unfold c1, upd; [destruct (Nat.eqb_spec t k) as [->|]|destruct (Nat.eqb_spec i k) as [->|]];
      cbn [entry]; apply E.
  - intros i. destruct (R i) as (ps' & os' & ps0' & os0' & P0' & O0' & P' & O' & IP' & IO').
    exists (if i =? t then psT ++ [k] else ps'), (if i =? k then os ++ [t] else os'), ps0', os0'.
    split; [assumption|]. split; [assumption|].
    assert (UNI : forall e l l', elist_is e l -> elist_is e l' -> l = l').
    { intros e l l' (A & B) (A' & B').
      destruct B as [(B1 & B2 & B3)|(B1 & B2 & B3)], B' as [(B1' & B2' & B3')|(B1' & B2' & B3')];
        rewrite B3 in B3'; congruence. }
    conjs.
    + unfold upd at 1. destruct (Nat.eqb_spec i t) as [->|]; cbn [cin]; [exact Hx|].
      unfold c1, upd. destruct (Nat.eqb_spec i k) as [->|]; cbn [cin]; exact P'.
    + unfold upd at 1. destruct (Nat.eqb_spec i t) as [->|]; cbn [cout];
        unfold c1, upd; [destruct (Nat.eqb_spec t k) as [->|]|destruct (Nat.eqb_spec i k) as [->|]];
        cbn [cout]; assumption.
    + intros p. destruct (Nat.eqb_spec i t) as [->|N].
      * rewrite (UNI _ _ _ T2 P'). rewrite !in_app_iff, IP'. cbn [In]. intuition congruence.
      * rewrite IP', in_app_iff. cbn [In]. intuition congruence.
    + intros q. destruct (Nat.eqb_spec i k) as [->|N].
      * rewrite <- (UNI _ _ _ O O') in *. rewrite !in_app_iff, IO'. cbn [In].
        intuition congruence.
      * rewrite IO'. intuition congruence.
Qed.

Lemma add_medges_ok k c0 ts : Forall (fun b => b < n) ts -> forall done c, cfg_mid k c0 done c ->
  exists c', add_medges n c k ts = Ok c' /\ cfg_mid k c0 (done ++ ts) c'.
Proof.
  induction ts as [|t ts IH]; intros F done c M; cbn [add_medges].
  - exists c. now rewrite app_nil_r.
  - inversion_clear F as [|? ? H F']. destruct (Nat.ltb_spec t n); [|lia].
    destruct (add_medge_ok k c0 done c t M) as (c1 & -> & M1). cbn [bind].
    destruct (IH F' _ _ M1) as (c2 & E2 & M2). exists c2. split; [exact E2|].
    now rewrite <- app_assoc in M2.
Qed.

Lemma cfg_block_ok k t c : nth_error u k = Some t -> cfg_is k c ->
  exists c', cfg_block n k t c = Ok c' /\ cfg_is (S k) c'.
Proof.
  intros K (E & R).
  assert (T : term_ok n t) by (eapply (proj1 (Forall_forall _ _)); [exact U|eapply nth_error_In; eauto]).
  assert (NEW : forall p x, nth_error u p = Some x -> (p < S k <-> p < k \/ (p = k /\ x = t))).
  { intros p x X. split; [|lia]. intros L. destruct (Nat.eq_dec p k) as [->|]; [right; split; congruence|left; lia]. }
  destruct t as [b| |ts]; cbn [cfg_block term_ok] in *.
  - destruct (Nat.ltb_spec b n); [|lia]. eexists. split; [reflexivity|]. split.
    + intros i.
      assert (X : entry (set_returns k (set_entry b c) i) = true <-> entry (c i) = true \/ i = b).
      { unfold set_returns, set_entry, upd.
        destruct (Nat.eqb_spec i k) as [->|]; cbn [entry returns];
          [destruct (Nat.eqb_spec k b) as [->|]|destruct (Nat.eqb_spec i b) as [->|]]; cbn [entry]; tauto. }
      rewrite X, E. split.
      * intros [[->|(j & J1 & J2)]| ->]; [now left|right; exists j; split; [lia|assumption]|].
        right. exists k. split; [lia|assumption].
      * intros [->|(j & J1 & J2)]; [tauto|]. apply (NEW j _ J2) in J1 as [J1|(-> & J1)].
        -- left. right. now exists j.
        -- right. congruence.
    + intros i. destruct (R i) as (ps & os & P & O & IP & IO). exists ps, os.
      conjs.
      * unfold set_returns, set_entry, upd. destruct (Nat.eqb_spec i k) as [->|]; cbn [cin];
          [destruct (Nat.eqb_spec k b) as [->|]|destruct (Nat.eqb_spec i b) as [->|]]; exact P.
      * unfold set_returns, set_entry, upd. destruct (Nat.eqb_spec i k) as [->|]; cbn [cout];
          [destruct (Nat.eqb_spec k b) as [->|]|destruct (Nat.eqb_spec i b) as [->|]]; exact O.
      * intros p. rewrite IP. split; intros (ts & A & B & C).
        -- exists ts. repeat split; [lia|assumption|assumption].
        -- apply (NEW _ _ B) in A as [A|(-> & A)]; [|discriminate]. exists ts. auto.
      * intros p. rewrite IO. split; intros (ts & A & B & C).
        -- exists ts. repeat split; [lia|assumption|assumption].
        -- apply (NEW _ _ B) in A as [A|(-> & A)]; [|discriminate]. exists ts. auto.
  - eexists. split; [reflexivity|]. split.
    + intros i.
      assert (X : entry (set_returns k c i) = entry (c i)).
      { unfold set_returns, upd. destruct (Nat.eqb_spec i k) as [->|]; reflexivity. }
      rewrite X, E. split.
      * intros [->|(j & J1 & J2)]; [now left|right; exists j; split; [lia|assumption]].
      * intros [->|(j & J1 & J2)]; [tauto|]. apply (NEW j _ J2) in J1 as [J1|(-> & J1)]; [|discriminate].
        right. now exists j.
    + intros i. destruct (R i) as (ps & os & P & O & IP & IO). exists ps, os.
      conjs.
      * unfold set_returns, upd. destruct (Nat.eqb_spec i k) as [->|]; exact P.
      * unfold set_returns, upd. destruct (Nat.eqb_spec i k) as [->|]; exact O.
      * intros p. rewrite IP. split; intros (ts & A & B & C).
        -- exists ts. repeat split; [lia|assumption|assumption].
        -- apply (NEW _ _ B) in A as [A|(-> & A)]; [|discriminate]. exists ts. auto.
      * intros p. rewrite IO. split; intros (ts & A & B & C).
        -- exists ts. repeat split; [lia|assumption|assumption].
        -- apply (NEW _ _ B) in A as [A|(-> & A)]; [|discriminate]. exists ts. auto.
  - assert (M : cfg_mid k c [] c).
    { split; [reflexivity|]. intros i. destruct (R i) as (ps & os & P & O & _).
      exists ps, os, ps, os. conjs; try assumption; intros p; cbn [In]; tauto. }
    destruct (add_medges_ok k c ts T [] c M) as (c' & -> & E' & R'). cbn [app] in R'.
    exists c'. split; [reflexivity|]. split.
    + intros i. rewrite E', E. split.
      * intros [->|(j & J1 & J2)]; [now left|right; exists j; split; [lia|assumption]].
      * intros [->|(j & J1 & J2)]; [tauto|]. apply (NEW j _ J2) in J1 as [J1|(-> & J1)]; [|discriminate].
        right. now exists j.
    + intros i. destruct (R i) as (ps & os & P & O & IP & IO).
      destruct (R' i) as (ps' & os' & ps0 & os0 & P0 & O0 & P' & O' & IP' & IO').
      assert (UNI : forall e l l', elist_is e l -> elist_is e l' -> l = l').
      { intros e l l' (A & B) (A' & B').
        destruct B as [(B1 & B2 & B3)|(B1 & B2 & B3)], B' as [(B1' & B2' & B3')|(B1' & B2' & B3')];
          rewrite B3 in B3'; congruence. }
      rewrite <- (UNI _ _ _ P P0), <- (UNI _ _ _ O O0) in *.
      exists ps', os'. conjs; [assumption|assumption| |].
      * intros p. rewrite IP', IP. split.
        -- intros [(ts' & A & B & C)|(-> & C)]; [exists ts'; repeat split; [lia|assumption|assumption]|].
           exists ts. repeat split; [lia|assumption|assumption].
        -- intros (ts' & A & B & C). apply (NEW _ _ B) in A as [A|(-> & A)]; [left; exists ts'; auto|].
           right. split; [reflexivity|]. congruence.
      * intros p. rewrite IO', IO. split.
        -- intros [(ts' & A & B & C)|(-> & C)]; [exists ts'; repeat split; [lia|assumption|assumption]|].
           exists ts. repeat split; [lia|assumption|assumption].
        -- intros (ts' & A & B & C). apply (NEW _ _ B) in A as [A|(-> & A)]; [left; exists ts'; auto|].
           right. split; [reflexivity|]. congruence.
Qed.

Lemma cfg_blocks_ok : forall l k c, skipn k u = l -> k <= n -> cfg_is k c ->
  exists c', cfg_blocks n k l c = Ok c' /\ cfg_is n c'.
Proof.
  induction l as [|t l IH]; intros k c S K H; cbn [cfg_blocks].
  - exists c. split; [reflexivity|].
    assert (n - k = 0) by (rewrite <- skipn_length, S; reflexivity).
    replace n with k by lia. exact H.
  - assert (T : nth_error u k = Some t).
    { rewrite <- (firstn_skipn k u), S, nth_error_app2; rewrite firstn_length_le by lia; [|lia].
      now rewrite Nat.sub_diag. }
    assert (K' : k < n) by (apply nth_error_Some; congruence).
    destruct (cfg_block_ok k t c T H) as (c1 & -> & H1). cbn [bind].
    apply (IH (Datatypes.S k) c1); [|lia|assumption].
    change (Datatypes.S k) with (1 + k). replace (1 + k) with (k + 1) by lia.
    rewrite <- (firstn_skipn k u), S.
    rewrite skipn_app, firstn_length_le by lia.
    rewrite skipn_all2 by (rewrite firstn_length_le; lia).
    replace (k + 1 - k) with 1 by lia. reflexivity.
Qed.

Lemma get_cfg_is : exists c, mir_get_cfg u = Ok c /\ cfg_is n c.
Proof. apply cfg_blocks_ok; [reflexivity|lia|apply cfg_start]. Qed.

Lemma cfg_entry c : cfg_is n c -> forall i, i < n -> (entry (c i) = true <-> enters u i).
Proof.
  intros (E & _) i I. rewrite E. unfold enters. split.
  - intros [->|(j & J1 & J2)]; (split; [assumption|]); [now left|right]. eapply nth_error_In; eauto.
  - intros (_ & [->|H]); [now left|right]. apply In_nth_error in H as (j & J). exists j.
    split; [|assumption]. apply nth_error_Some. congruence.
Qed.

Lemma cfg_preds c : cfg_is n c -> forall i, exists ps, elist_is (cin (c i)) ps /\
  (forall p, In p ps <-> goes u p i) /\ forall p, In p ps -> p < n.
Proof.
  intros (_ & R) i. destruct (R i) as (ps & os & P & _ & IP & _). exists ps. split; [assumption|]. split.
  - intros p. rewrite IP. unfold goes. split.
    + intros (ts & _ & A & B). now exists ts.
    + intros (ts & A & B). exists ts. repeat split; try assumption. apply nth_error_Some. congruence.
  - intros p H. apply IP in H as (ts & H & _). exact H.
Qed.

(* ---------- the sets ---------- *)

Variable c : cfg.
Hypothesis C : cfg_is n c.

Definition meets (D : ibank) (i : nat) : iset -> Prop :=
  fun s => forall d, s d = true <-> d = i \/ forall p, goes u p i -> D p d = true.

Definition bank_ok (dom : nat -> mask) (D : ibank) : Prop := forall i, denotes n (dom i) (D i).

Lemma dom_preds_ok dom D i ps tmp s : bank_ok dom D -> elist_is (cin (c i)) ps ->
  forall k j, k + j = length ps -> denotes n tmp s ->
  exists t, dom_preds c dom i k j tmp = Ok t /\
    denotes n t (fun d => s d && forallb (fun p => D p d) (skipn j ps)).
Proof.
  intros B L. intros k. revert tmp s. induction k as [|k IH]; intros tmp s j K T; cbn [dom_preds].
  - exists tmp. split; [reflexivity|]. eapply denotes_ext; [exact T|]. intros d _.
    rewrite skipn_all2 by lia. cbn. now rewrite andb_true_r.
  - destruct (get_edge_ok _ _ j L ltac:(lia)) as (p & -> & P). cbn [bind].
    destruct (d_intersect n _ _ _ _ T (B p)) as (t1 & -> & T1). cbn [bind].
    destruct (IH t1 _ (S j) ltac:(lia) T1) as (t & E & D'). exists t. split; [exact E|].
    eapply denotes_ext; [exact D'|]. intros d _. cbn beta.
    assert (X : skipn j ps = p :: skipn (S j) ps).
    { clear -P. revert j P. induction ps as [|x ps IH]; intros [|j] P; cbn in *; try discriminate.
      - now injection P as ->.
      - now apply IH. }
    rewrite X. cbn [forallb]. now rewrite andb_assoc.
Qed.

(* One block of a round. *)
Lemma dom_block_ok dom D i tmp s : bank_ok dom D -> denotes n tmp s -> i < n ->
  exists t1 t2 t3 m e s3,
    mask_setall tmp = Ok t1 /\ dom_preds c dom i (ecount (cin (c i))) 0 t1 = Ok t2 /\
    mask_set t2 i = Ok t3 /\ mask_eq t3 (dom i) = Ok e /\ mask_copy (dom i) t3 = Ok m /\
    denotes n t3 s3 /\ denotes n m s3 /\ meets D i s3 /\ (e = true <-> same_below n s3 (D i)).
Proof.
  intros B T I. destruct (d_setall n _ _ T) as (t1 & E1 & T1).
  destruct (cfg_preds c C i) as (ps & L & IP & _).
  destruct (dom_preds_ok dom D i ps t1 _ B L (length ps) 0 ltac:(lia) T1) as (t2 & E2 & T2).
  destruct (d_set n _ _ i T2 I) as (t3 & E3 & T3).
  destruct (d_eq n _ _ _ _ T3 (B i)) as (e & E4 & T4).
  destruct (d_copy n _ _ _ _ (B i) T3) as (m & E5 & T5).
  exists t1, t2, t3, m, e. eexists. split; [exact E1|].
  split; [destruct L as (-> & _); exact E2|]. split; [exact E3|]. split; [exact E4|].
  split; [exact E5|]. split; [exact T3|]. split; [exact T5|]. split; [|exact T4].
  intros d. cbn [skipn andb]. rewrite orb_true_iff, Nat.eqb_eq, forallb_forall.
  split; (intros [H|H]; [now left|right]); intros p P; apply H; now apply IP.
Qed.

(* Sets above the dominators, shrinking towards them. *)
Definition sound (D : ibank) : Prop :=
  (forall i d, i < n -> d < n -> dominates u d i -> D i d = true) /\
  (forall i, i < n -> enters u i -> forall d, D i d = true <-> d = i).
Definition shrinking (D : ibank) : Prop :=
  forall i d, i < n -> ~ enters u i -> d < n -> d = i \/ (forall p, goes u p i -> D p d = true) -> D i d = true.
Definition sub (D D' : ibank) : Prop := forall i d, i < n -> d < n -> D i d = true -> D' i d = true.

Lemma goes_below p i : goes u p i -> p < n /\ i < n.
Proof.
  intros (ts & A & B). split; [apply nth_error_Some; congruence|].
  apply nth_error_In in A. apply (proj1 (Forall_forall _ _) U) in A. cbn in A.
  now apply (proj1 (Forall_forall _ _) A).
Qed.

Lemma meets_sound D i s : sound D -> i < n -> ~ enters u i -> meets D i s ->
  forall d, d < n -> dominates u d i -> s d = true.
Proof.
  intros (S1 & _) I NI M d Hd H. apply M. destruct (Nat.eq_dec d i) as [|N]; [now left|right].
  intros p P. apply S1; [apply (goes_below _ _ P)|assumption|]. intros l L.
  destruct (H (i :: l) (path_go u p i l L P)) as [E|E]; [congruence|assumption].
Qed.

Lemma step_ok D i s : sound D -> shrinking D -> i < n -> ~ enters u i -> meets D i s ->
  sound (upd D i s) /\ shrinking (upd D i s) /\ sub (upd D i s) D.
Proof.
  intros SD SH I NI M.
  assert (SUB : sub (upd D i s) D).
  { intros j d J Hd. unfold upd. destruct (Nat.eqb_spec j i) as [->|]; [|auto].
    intros H. apply M in H. now apply SH. }
  split; [|split; [|exact SUB]].
  - split.
    + intros j d J Hd H. unfold upd. destruct (Nat.eqb_spec j i) as [->|].
      * exact (meets_sound D i s SD I NI M d Hd H).
      * now apply (proj1 SD).
    + intros j J E d. unfold upd. destruct (Nat.eqb_spec j i) as [->|]; [contradiction|].
      now apply (proj2 SD).
  - intros j d J NJ Hd H.
    assert (H' : d = j \/ forall p, goes u p j -> D p d = true).
    { destruct H as [H|H]; [now left|right]. intros p P. apply SUB; [apply (goes_below _ _ P)|assumption|auto]. }
    unfold upd. destruct (Nat.eqb_spec j i) as [->|].
    + now apply M.
    + now apply SH.
Qed.

(* How many pairs are left. *)
Definition weight (D : ibank) : nat :=
  list_sum (map (fun i => length (filter (D i) (seq 0 n))) (seq 0 n)).

Lemma filter_le (f g : nat -> bool) l : (forall x, In x l -> f x = true -> g x = true) ->
  length (filter f l) <= length (filter g l) /\
  (length (filter f l) = length (filter g l) -> forall x, In x l -> f x = g x).
Proof.
  induction l as [|x l IH]; intros H; cbn [filter].
  - split; [lia|]. intros _ y [].
  - destruct IH as (A & B); [intros y Y; apply H; now right|].
    pose proof (H x (or_introl eq_refl)) as HX.
    destruct (f x) eqn:F, (g x) eqn:G; cbn [length]; split; try lia; try (specialize (HX eq_refl); congruence).
    + intros E y [<-|Y]; [congruence|]. apply B; [lia|assumption].
    + intros E y [<-|Y]; [congruence|]. apply B; [lia|assumption].
Qed.

Lemma sum_le (f g : nat -> nat) l : (forall x, In x l -> f x <= g x) ->
  list_sum (map f l) <= list_sum (map g l) /\
  (list_sum (map f l) = list_sum (map g l) -> forall x, In x l -> f x = g x).
Proof.
  induction l as [|x l IH]; intros H; cbn [map list_sum fold_right].
  - split; [lia|]. intros _ y [].
  - destruct IH as (A & B); [intros y Y; apply H; now right|].
    pose proof (H x (or_introl eq_refl)) as HX. unfold list_sum in *. cbn in *. split; [lia|].
    intros E y [<-|Y]; [lia|]. apply B; [lia|assumption].
Qed.

Lemma weight_sub D D' : sub D D' -> weight D <= weight D' /\
  (weight D = weight D' -> forall i, i < n -> same_below n (D i) (D' i)).
Proof.
  intros S.
  assert (P : forall i, In i (seq 0 n) ->
    length (filter (D i) (seq 0 n)) <= length (filter (D' i) (seq 0 n))).
  { intros i I. apply in_seq in I. apply filter_le. intros d Hd. apply in_seq in Hd. apply S; lia. }
  destruct (sum_le _ _ _ P) as (A & B). split; [exact A|].
  intros E i I d Hd. unfold weight in E.
  assert (EI := B E i ltac:(apply in_seq; lia)).
  refine (proj2 (filter_le (D i) (D' i) (seq 0 n) _) EI d _); [|apply in_seq; lia].
  intros x X. apply in_seq in X. apply S; lia.
Qed.

Lemma sub_trans A B D : sub A B -> sub B D -> sub A D.
Proof. unfold sub. eauto. Qed.

(* [changes] tells whether some set is smaller. *)
Lemma dom_round_ok : forall l, Forall (fun i => i < n) l -> forall dom D tmp s ch D0,
  bank_ok dom D -> denotes n tmp s -> sound D -> shrinking D -> sub D D0 ->
  (ch = false -> forall i, i < n -> same_below n (D i) (D0 i)) ->
  (ch = true -> weight D < weight D0) ->
  exists dom' tmp' ch' D' s', dom_round c l dom tmp ch = Ok (dom', tmp', ch') /\
    bank_ok dom' D' /\ denotes n tmp' s' /\ sound D' /\ shrinking D' /\ sub D' D0 /\
    (ch' = false -> ch = false /\ (forall i, i < n -> same_below n (D' i) (D0 i)) /\
       forall i, In i l -> ~ enters u i ->
         forall d, d < n -> (D0 i d = true <-> d = i \/ forall p, goes u p i -> D0 p d = true)) /\
    (ch' = true -> weight D' < weight D0).
Proof.
  induction l as [|i l IH]; intros F dom D tmp s ch D0 B T SD SH SU CF CT; cbn [dom_round].
  - exists dom, tmp, ch, D, s. conjs; auto.
    intros ->. conjs; auto. intros i [].
  - inversion_clear F as [|? ? I F'].
    destruct (entry (c i)) eqn:EN.
    + destruct (IH F' dom D tmp s ch D0 B T SD SH SU CF CT)
        as (dom' & tmp' & ch' & D' & s' & E & B' & T' & SD' & SH' & SU' & CF' & CT').
      exists dom', tmp', ch', D', s'. conjs; auto.
      intros X. destruct (CF' X) as (A1 & A2 & A3). conjs; auto.
      intros j [<-|J] NJ; [|now apply A3]. exfalso. apply NJ. now apply (cfg_entry c C).
    + assert (NI : ~ enters u i) by (intros X; apply (cfg_entry c C i I) in X; congruence).
      destruct (dom_block_ok dom D i tmp s B T I)
        as (t1 & t2 & t3 & m & e & s3 & E1 & E2 & E3 & E4 & E5 & T3 & TM & M & EQ).
      rewrite E1. cbn [bind]. rewrite E2. cbn [bind]. rewrite E3. cbn [bind].
      destruct (step_ok D i s3 SD SH I NI M) as (SD1 & SH1 & SU1).
      assert (B1 : bank_ok (upd dom i m) (upd D i s3)).
      { intros j. unfold upd. destruct (j =? i); [exact TM|apply B]. }
      assert (SU2 := sub_trans _ _ _ SU1 SU).
      assert (CH : (if ch then Ok true else do! e0 <- mask_eq t3 (dom i); Ok (negb e0)) = Ok (ch || negb e)).
      { destruct ch; [reflexivity|]. rewrite E4. reflexivity. }
      rewrite CH. cbn [bind]. rewrite E5. cbn [bind].
      destruct (IH F' (upd dom i m) (upd D i s3) t3 s3 (ch || negb e) D0 B1 T3 SD1 SH1 SU2)
        as (dom' & tmp' & ch' & D' & s' & E & B' & T' & SD' & SH' & SU' & CF' & CT').
      { intros X. apply orb_false_iff in X as (X1 & X2). apply negb_false_iff in X2.
        intros j J. unfold upd. destruct (Nat.eqb_spec j i) as [->|].
        - intros d Hd. rewrite (proj1 EQ X2 d Hd). now apply CF.
        - now apply CF. }
      { intros X. pose proof (proj1 (weight_sub _ _ SU1)) as W1. pose proof (proj1 (weight_sub _ _ SU)) as W2.
        destruct ch; cbn [orb] in X.
        - specialize (CT eq_refl). lia.
        - destruct (Nat.eq_dec (weight (upd D i s3)) (weight D0)) as [W|W]; [exfalso|lia].
          assert (W3 : weight (upd D i s3) = weight D) by lia.
          pose proof (proj2 (weight_sub _ _ SU1) W3 i I) as Q. unfold upd in Q. rewrite Nat.eqb_refl in Q.
          apply EQ in Q. subst e. discriminate. }
      exists dom', tmp', ch', D', s'. conjs; auto.
      intros X. destruct (CF' X) as (A1 & A2 & A3). apply orb_false_iff in A1 as (A1 & A1').
      apply negb_false_iff in A1'. conjs; auto.
      intros j [<-|J] NJ; [|now apply A3]. intros d Hd.
      rewrite <- (CF A1 i I d Hd), <- (proj1 EQ A1' d Hd). rewrite (M d).
      split; (intros [H|H]; [now left|right]); intros p P; pose proof (goes_below _ _ P) as (PL & _).
      * rewrite <- (CF A1 p PL d Hd). auto.
      * rewrite (CF A1 p PL d Hd). auto.
Qed.

Lemma fix_exact D : sound D ->
  (forall i, i < n -> ~ enters u i -> forall d, d < n -> (D i d = true <-> d = i \/ forall p, goes u p i -> D p d = true)) ->
  forall i d, i < n -> d < n -> (D i d = true <-> dominates u d i).
Proof.
  intros SD FX i d I Hd. split; [|apply (proj1 SD); assumption].
  intros H l P. revert H.
  assert (DEC : forall j, j < n -> enters u j \/ ~ enters u j).
  { intros j J. destruct (entry (c j)) eqn:E.
    - left. now apply (cfg_entry c C).
    - right. intros X. apply (cfg_entry c C j J) in X. congruence. }
  clear I. induction P as [i E|i j l P IH G]; intros H.
  - apply (proj2 SD i (proj1 E) E) in H. subst. now left.
  - destruct (goes_below _ _ G) as (GI & GJ). destruct (DEC j GJ) as [E|E].
    + apply (proj2 SD j GJ E) in H. subst. now left.
    + apply (FX j GJ E d Hd) in H as [->|H]; [now left|]. right. apply IH. now apply H.
Qed.

Lemma dom_loop_ok : forall fuel dom D tmp s, weight D < fuel ->
  bank_ok dom D -> denotes n tmp s -> sound D -> shrinking D ->
  exists dom' D', dom_loop fuel n c dom tmp = Ok dom' /\ bank_ok dom' D' /\
    forall i d, i < n -> d < n -> (D' i d = true <-> dominates u d i).
Proof.
  induction fuel as [|fuel IH]; intros dom D tmp s W B T SD SH; [lia|]. cbn [dom_loop].
  destruct (dom_round_ok (seq 0 n)) with (dom := dom) (D := D) (tmp := tmp) (s := s) (ch := false) (D0 := D)
    as (dom' & tmp' & ch' & D' & s' & E & B' & T' & SD' & SH' & SU' & CF' & CT');
    try assumption; try discriminate.
  { apply Forall_forall. intros x X. apply in_seq in X. lia. }
  { intros i d _ _ H. exact H. }
  { intros _ i _ d _. reflexivity. }
  rewrite E. cbn [bind]. destruct ch'.
  - apply (IH dom' D' tmp' s'); try assumption. specialize (CT' eq_refl). lia.
  - destruct (CF' eq_refl) as (_ & EQ & FX). exists dom', D'. split; [reflexivity|]. split; [exact B'|].
    intros i d I Hd. rewrite (EQ i I d Hd). apply (fix_exact D SD); try assumption.
    intros j J NJ. apply FX; [apply in_seq; lia|assumption].
Qed.

Lemma dom_init_ok : forall l, Forall (fun i => i < n) l -> forall dom,
  (forall i, exists s, denotes n (dom i) s) ->
  exists dom', dom_init n c l dom = Ok dom' /\
    (forall i, exists s, denotes n (dom' i) s) /\
    (forall i, In i l -> denotes n (dom' i) (fun d => if entry (c i) then d =? i else true)) /\
    (forall i, ~ In i l -> dom' i = dom i).
Proof.
  induction l as [|i l IH]; intros F dom B; cbn [dom_init].
  - exists dom. conjs; auto. intros i [].
  - inversion_clear F as [|? ? I F'].
    assert (X : exists m, (if entry (c i) then mask_set (mask_init n) i else mask_setall (mask_init n)) = Ok m /\
      denotes n m (fun d => if entry (c i) then d =? i else true)).
    { destruct (entry (c i)).
      - destruct (d_set n _ _ i (mask_init_denotes n) I) as (m & E & D). exists m. split; [exact E|].
        eapply denotes_ext; [exact D|]. intros d _. cbn beta. now rewrite orb_false_r.
      - apply (d_setall n _ _ (mask_init_denotes n)). }
    destruct X as (m & -> & D). cbn [bind].
    destruct (IH F' (upd dom i m)) as (dom' & E & A1 & A2 & A3).
    { intros j. unfold upd. destruct (j =? i); [eauto|apply B]. }
    exists dom'. split; [exact E|]. split; [exact A1|]. split.
    + intros j J. destruct (in_dec Nat.eq_dec j l) as [JL|JL]; [now apply A2|].
      destruct J as [<-|J]; [|contradiction]. rewrite (A3 _ JL), upd_same. exact D.
    + intros j J. rewrite A3 by (intros K; apply J; now right).
      apply upd_other. intros ->. apply J. now left.
Qed.

Lemma weight_bound D : weight D <= n * n.
Proof.
  unfold weight. assert (G : forall l, list_sum (map (fun i => length (filter (D i) (seq 0 n))) l) <= length l * n).
  { induction l as [|x l IH]; cbn [map list_sum fold_right length]; [lia|].
    pose proof (proj1 (filter_le (D x) (fun _ => true) (seq 0 n) ltac:(auto))) as Q.
    assert (length (filter (fun _ : nat => true) (seq 0 n)) = n).
    { rewrite <- (seq_length n 0) at 2. f_equal. clear. induction (seq 0 n); cbn; congruence. }
    unfold list_sum in IH. cbn in *. lia. }
  specialize (G (seq 0 n)). now rewrite seq_length in G.
Qed.

Lemma dominator_tree_ok : exists dom D, mir_dominator_tree n c = Ok dom /\ bank_ok dom D /\
  forall i d, i < n -> d < n -> (D i d = true <-> dominates u d i).
Proof.
  unfold mir_dominator_tree.
  destruct (dom_init_ok (seq 0 n)) with (dom := fun _ : nat => mask_init n) as (dom & -> & B & I & O).
  { apply Forall_forall. intros x X. apply in_seq in X. lia. }
  { intros i. eexists. apply mask_init_denotes. }
  cbn [bind].
  set (D := fun i d => if i <? n then (if entry (c i) then d =? i else true) else false).
  assert (BD : bank_ok dom D).
  { intros i. unfold D. destruct (Nat.ltb_spec i n).
    - apply I. apply in_seq. lia.
    - rewrite O by (rewrite in_seq; lia). apply mask_init_denotes. }
  apply (dom_loop_ok (S (n * n)) dom D (mask_init n) (fun _ => false)).
  - pose proof (weight_bound D). lia.
  - exact BD.
  - apply mask_init_denotes.
  - split.
    + intros i d L Hd H. unfold D. destruct (Nat.ltb_spec i n); [|lia].
      destruct (entry (c i)) eqn:E; [|reflexivity]. apply (cfg_entry c C i L) in E.
      destruct (H [i] (path_enter u i E)) as [->|[]]. apply Nat.eqb_refl.
    + intros i L E d. apply (cfg_entry c C i L) in E. unfold D. destruct (Nat.ltb_spec i n); [|lia].
      rewrite E. apply Nat.eqb_eq.
  - intros i d L NI _ _. unfold D. destruct (Nat.ltb_spec i n); [|lia].
    destruct (entry (c i)) eqn:E; [|reflexivity]. apply (cfg_entry c C i L) in E. contradiction.
Qed.

End Unit.
