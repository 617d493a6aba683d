(* Liveness. *)
From Coq Require Import List ZArith Arith Bool Lia.
From Verif Require Import Base JitModel JitSpec JitPassProofs CfgModel CfgSpec CfgProofs.
Import ListNotations.

(* ---------- the sets of a block ---------- *)

(* The number of a location in the masks. *)
Definition num (nregs : nat) (x : loc) : nat := match x with LReg r => r | LFlag => nregs end.
(* The locations that are followed exactly. *)
Definition tracked (nregs : nat) (l : list ir) (x : loc) : Prop :=
  match x with
  | LReg r => r < nregs
  | LFlag => (forall i r, In i l -> In r (ir_regs i) -> r < nregs) /\
             (forall i, In i l -> op i <> J_CCMP /\ op i <> J_FCCMP)
  end.

Lemma expose_spec o s y : let s' := expose o s in
  snd s' = snd s /\ (fst s' y = true <-> fst s y = true \/ (o = Some y /\ snd s y = false)).
Proof.
  destruct s as [live kill]. unfold expose. destruct o as [r|]; cbn zeta; [|intuition congruence].
  destruct (kill r) eqn:K; cbn [fst snd].
  - split; [reflexivity|]. split; [auto|]. intros [H|(E & H)]; [exact H|congruence].
  - split; [reflexivity|]. unfold radd. rewrite orb_true_iff, Nat.eqb_eq. split.
    + intros [->|H]; auto.
    + intros [H|(E & H)]; [auto|]. left. congruence.
Qed.

Lemma get_reg_in v r : get_reg v = Some r <-> In r (value_regs v).
Proof. destruct v; cbn; split; intros H; try discriminate; try destruct H as [H|[]]; try (injection H as ->); auto; try contradiction; now subst. Qed.

(* One instruction, for a location whose number is [y]. *)
Lemma scan_one_spec nregs s i x : tracked nregs [i] x ->
  let y := num nregs x in let s' := scan_one nregs s i in
  (fst s' y = true <-> fst s y = true \/ (reads i x /\ snd s y = false)) /\
  (snd s' y = true <-> snd s y = true \/ writes i x \/ (exists r, x = LReg r /\ op i <> MACRO_CASE /\ result i = Some r)).
Proof.
  intros T. cbv zeta. unfold scan_one.
  set (s1 := expose (get_reg (arg1 i)) s). set (s2 := expose (get_reg (arg2 i)) s1).
  set (s3 := if reads_result i then expose (result i) s2 else s2).
  assert (E1 : snd s1 = snd s) by apply (expose_spec (get_reg (arg1 i)) s 0).
  assert (E2 : snd s2 = snd s) by (rewrite <- E1; apply (expose_spec (get_reg (arg2 i)) s1 0)).
  assert (E3 : snd s3 = snd s).
  { unfold s3. destruct (reads_result i); [|exact E2]. rewrite <- E2. apply (expose_spec (result i) s2 0). }
  assert (F3 : forall y, fst s3 y = true <-> fst s y = true \/
             ((get_reg (arg1 i) = Some y \/ get_reg (arg2 i) = Some y \/ (reads_result i = true /\ result i = Some y)) /\
              snd s y = false)).
  { intros y. pose proof (proj2 (expose_spec (get_reg (arg1 i)) s y)) as P1. fold s1 in P1.
    pose proof (proj2 (expose_spec (get_reg (arg2 i)) s1 y)) as P2. fold s2 in P2. rewrite E1 in P2.
    unfold s3. destruct (reads_result i).
    - pose proof (proj2 (expose_spec (result i) s2 y)) as P3. rewrite E2 in P3. rewrite P3, P2, P1. intuition congruence.
    - rewrite P2, P1. intuition congruence. }
  set (s4 := match writes_result i with Some r => (fst s3, radd r (snd s3)) | None => s3 end).
  assert (F4 : fst s4 = fst s3) by (unfold s4; destruct (writes_result i); reflexivity).
  assert (K4 : forall y, snd s4 y = true <-> snd s y = true \/ writes_result i = Some y).
  { intros y. unfold s4. destruct (writes_result i) as [r|]; cbn [snd]; rewrite E3.
    - unfold radd. rewrite orb_true_iff, Nat.eqb_eq. intuition congruence.
    - intuition congruence. }
  assert (WR : forall r, writes_result i = Some r <-> (op i <> MACRO_CASE /\ result i = Some r)).
  { intros r. unfold writes_result. destruct (op i) eqn:O; intuition congruence. }
  destruct x as [r|]; cbn [num reads writes]; cbn [tracked] in T.
  - (* a register: the flag does not matter *)
    assert (X : let s' := if writes_flags i then (fst s4, radd nregs (snd s4))
                          else if reads_flags i then expose (Some nregs) s4 else s4 in
                fst s' r = fst s4 r /\ snd s' r = snd s4 r).
    { cbv zeta. destruct (writes_flags i); cbn [fst snd].
      - split; [reflexivity|]. unfold radd. destruct (Nat.eqb_spec r nregs); [lia|reflexivity].
      - destruct (reads_flags i); [|split; reflexivity].
        destruct (expose_spec (Some nregs) s4 r) as (A & B). rewrite A. split; [|reflexivity].
        apply Bool.eq_true_iff_eq. rewrite B. split; [|auto]. intros [H|(H & _)]; [exact H|]. injection H as ->. lia. }
    cbv zeta in X. destruct X as (X1 & X2). rewrite X1, X2, F4, F3, K4, WR, !get_reg_in. split; [reflexivity|].
    split.
    + intros [H|(H1 & H2)]; auto. right. right. eauto.
    + intros [H|[(H1 & H2)|(r' & H & H1 & H2)]]; auto.
      * right. split; [|exact H2]. intros O. unfold reads_result in H1. now rewrite O in H1.
      * injection H as <-. auto.
  - (* the flag *)
    destruct T as (TR & TC).
    assert (NR : forall r, In r (ir_regs i) -> r < nregs) by (intros r; apply TR; now left).
    assert (NA : get_reg (arg1 i) <> Some nregs /\ get_reg (arg2 i) <> Some nregs /\ result i <> Some nregs).
    { unfold ir_regs in NR. conjs; intros H; apply (Nat.lt_irrefl nregs), NR; rewrite !in_app_iff.
      - left. now apply get_reg_in.
      - right. left. now apply get_reg_in.
      - right. right. rewrite H. now left. }
    destruct NA as (N1 & N2 & N3).
    assert (F5 : fst s4 nregs = true <-> fst s nregs = true) by (rewrite F4, F3; intuition congruence).
    assert (K5 : snd s4 nregs = true <-> snd s nregs = true).
    { rewrite K4, WR. intuition congruence. }
    assert (EX : writes_flags i = true -> reads_flags i = false).
    { destruct (TC i (or_introl eq_refl)) as (C1 & C2). unfold writes_flags, reads_flags.
      destruct (op i); try discriminate; try reflexivity; congruence. }
    destruct (writes_flags i) eqn:WF; cbn [fst snd].
    + rewrite (EX eq_refl). split; [intuition congruence|]. unfold radd. rewrite Nat.eqb_refl. cbn. intuition.
    + destruct (reads_flags i) eqn:RF.
      * destruct (expose_spec (Some nregs) s4 nregs) as (A & B). rewrite A, B, F5, K5.
        assert (K6 : snd s4 nregs = snd s nregs) by (apply Bool.eq_true_iff_eq; exact K5). rewrite K6.
        split; [intuition|]. split; [auto|]. intros [H|[H|(r & H & _)]]; [exact H| discriminate|discriminate].
      * rewrite F5, K5. split; [intuition congruence|]. split; [auto|]. intros [H|[H|(r & H & _)]]; [exact H|discriminate|discriminate].
Qed.

(* A register that is read through the result field counts as killed, too. *)
Definition kills (i : ir) (x : loc) : Prop :=
  writes i x \/ (exists r, x = LReg r /\ op i <> MACRO_CASE /\ result i = Some r).

Lemma kills_cases i x : kills i x -> writes i x \/ reads i x.
Proof.
  intros [W|(r & -> & _ & R)]; [auto|]. cbn. destruct (reads_result i) eqn:E; auto.
Qed.

Lemma writes_dec i x : writes i x \/ ~ writes i x.
Proof.
  destruct x as [r|]; cbn; [|destruct (writes_flags i); intuition congruence].
  destruct (reads_result i); [right; intros (H & _); discriminate|].
  destruct (result i) as [r'|]; [|right; intros (_ & H); discriminate].
  destruct (Nat.eq_dec r r') as [->|D]; [auto|]. right. intros (_ & H). congruence.
Qed.

Lemma scan_from nregs x : forall l s, tracked nregs l x ->
  let y := num nregs x in let s' := fold_left (scan_one nregs) l s in
  (fst s' y = true <-> fst s y = true \/
     (exists a i b, l = a ++ i :: b /\ reads i x /\ snd s y = false /\ (forall j, In j a -> ~ kills j x))) /\
  (snd s' y = true <-> snd s y = true \/ exists j, In j l /\ kills j x).
Proof.
  induction l as [|i l IH]; intros s T; cbv zeta in *; cbn [fold_left].
  - split; [|split; [auto|]; intros [H|(j & [] & _)]; exact H].
    split; [auto|]. intros [H|(a & i & b & E & _)]; [exact H|]. destruct a; discriminate.
  - assert (T1 : tracked nregs [i] x /\ tracked nregs l x).
    { destruct x as [r|]; cbn in *; [auto|]. destruct T as (T1 & T2). split; split.
      - intros j r [<-|[]]. apply T1. now left.
      - intros j [<-|[]]. apply T2. now left.
      - intros j r J. apply T1. now right.
      - intros j J. apply T2. now right. }
    destruct T1 as (T1 & T2). destruct (scan_one_spec nregs s i x T1) as (A & B). cbv zeta in A, B. fold (kills i x) in B.
    destruct (IH (scan_one nregs s i) T2) as (C & D). rewrite C, D, A, B. clear IH C D.
    assert (SF : snd (scan_one nregs s i) (num nregs x) = false <-> snd s (num nregs x) = false /\ ~ kills i x).
    { split.
      - intros H. split; [destruct (snd s (num nregs x)); [|reflexivity]|intros K];
          (assert (X : snd (scan_one nregs s i) (num nregs x) = true) by (apply B; auto); congruence).
      - intros (H1 & H2). destruct (snd (scan_one nregs s i) (num nregs x)); [|reflexivity].
        destruct B as (B & _). destruct (B eq_refl); [congruence|contradiction]. }
    split.
    + split.
      * intros [[H|(R & S1)]|(a & j & b & -> & R & S1 & N)].
        -- auto.
        -- right. exists [], i, l. conjs; auto; try (intros j []).
        -- apply SF in S1 as (S1 & K). right. exists (i :: a), j, b. conjs; auto. intros j0 [<-|J]; auto.
      * intros [H|(a & j & b & E & R & S1 & N)]; [auto|]. destruct a as [|i0 a]; injection E as <- ->.
        -- left. right. auto.
        -- right. exists a, j, b. conjs; auto. apply SF. split; [exact S1|apply N; now left]. intros j0 J. apply N. now right.
    + split.
      * intros [[H|K]|(j & J & K)]; eauto. right. exists i. split; [now left|exact K]. right. exists j. split; [now right|exact K].
      * intros [H|(j & [<-|J] & K)]; eauto.
Qed.

Lemma kills_first l x : (exists j, In j l /\ kills j x) ->
  exposed l x \/ exists j, In j l /\ writes j x.
Proof.
  intros (j & J & K). apply in_split in J as (a & b & ->). apply kills_cases in K as [W|R].
  - right. exists j. split; [apply in_app_iff; right; now left|exact W].
  - assert (D : (exists i, In i a /\ writes i x) \/ (forall i, In i a -> ~ writes i x)).
    { clear. induction a as [|i a IH]; [right; intros i []|].
      destruct (writes_dec i x) as [W|W]; [left; exists i; split; [now left|exact W]|].
      destruct IH as [(i0 & I0 & W0)|N]; [left; exists i0; split; [now right|exact W0]|].
      right. intros i0 [<-|I0]; auto. }
    destruct D as [(i & I0 & W)|N].
    + right. exists i. split; [apply in_app_iff; auto|exact W].
    + left. exists a, j, b. auto.
Qed.

(* livein before the iteration, and varkill. *)
Lemma scan_ok nregs l x : tracked nregs l x ->
  (fst (scan nregs l) (num nregs x) = true <-> exposed l x) /\
  (fst (scan nregs l) (num nregs x) = false -> (snd (scan nregs l) (num nregs x) = false <-> passes l x)).
Proof.
  intros T. destruct (scan_from nregs x l (rempty, rempty) T) as (A & B). cbv zeta in A, B.
  fold (scan nregs l) in A, B. cbn [fst snd] in A, B.
  assert (E : fst (scan nregs l) (num nregs x) = true <-> exposed l x).
  { rewrite A. split.
    - intros [H|(a & i & b & E & R & _ & N)]; [discriminate|]. exists a, i, b. conjs; auto.
      intros j J W. apply (N j J). now left.
    - intros (a & i & b & E & R & N). right.
      (* up to the first instruction that kills *)
      assert (D : forall pre rest, a = pre ++ rest -> (forall j, In j pre -> ~ kills j x) ->
                exists a' i' b', l = a' ++ i' :: b' /\ reads i' x /\ (forall j, In j a' -> ~ kills j x)).
      { intros pre rest. revert pre. induction rest as [|j rest IH]; intros pre Ea NP.
        - rewrite app_nil_r in Ea. subst a. exists pre, i, b. auto.
        - assert (K : kills j x \/ ~ kills j x).
          { unfold kills. destruct (writes_dec j x) as [W|W]; [auto|].
            destruct x as [r|]; [|right; intros [H|(r & H & _)]; [auto|discriminate]].
            destruct (op_eqb (op j) MACRO_CASE) eqn:O.
            - apply op_eqb_true in O. right. intros [H|(r' & _ & H & _)]; auto.
            - destruct (result j) as [r'|]; [|right; intros [H|(r' & _ & _ & H)]; [auto|discriminate]].
              destruct (Nat.eq_dec r r') as [->|D].
              + left. right. exists r'. conjs; auto. intros X. apply op_eqb_true in X. congruence.
              + right. intros [H|(r2 & H1 & _ & H2)]; [auto|congruence]. }
          destruct K as [K|K].
          + exists pre, j, (rest ++ i :: b). conjs; auto.
            * rewrite E, Ea, <- app_assoc. reflexivity.
            * apply kills_cases in K as [W|R']; [|exact R']. elim (N j); [|exact W]. rewrite Ea. apply in_app_iff. right. now left.
          + apply (IH (pre ++ [j])); [now rewrite <- app_assoc|]. intros j0 J. apply in_app_iff in J as [J|[<-|[]]]; auto. }
      destruct (D [] a eq_refl) as (a' & i' & b' & E' & R' & N'); [intros j []|].
      exists a', i', b'. auto. }
  split; [exact E|]. intros F. split.
  - intros K j J W. assert (X : snd (scan nregs l) (num nregs x) = true) by (apply B; right; exists j; split; [exact J|now left]). congruence.
  - intros P. destruct (snd (scan nregs l) (num nregs x)) eqn:S1; [|reflexivity].
    destruct (proj1 B eq_refl) as [H|H]; [discriminate|]. destruct (kills_first l x H) as [H1|(j & J & W)].
    + apply E in H1. congruence.
    + elim (P j J W).
Qed.

(* ---------- the iteration ---------- *)

Section Iter.
Variable nr : nat.
Variable ns : list node.

Lemma live_new_spec lo b x : live_new ns lo b x = true <->
  exists s n, In s (succs b) /\ nth_error ns s = Some n /\ (ue n x = true \/ (lo s x = true /\ vk n x = false)).
Proof.
  unfold live_new.
  assert (G : forall l acc, fold_left (fun acc s => match nth_error ns s with
             | Some n => runion acc (runion (rminus (lo s) (vk n)) (ue n)) | None => acc end) l acc x = true <->
             acc x = true \/ exists s n, In s l /\ nth_error ns s = Some n /\ (ue n x = true \/ (lo s x = true /\ vk n x = false))).
  { induction l as [|s l IH]; intros acc; cbn [fold_left].
    - split; [auto|]. intros [H|(s & n & [] & _)]; exact H.
    - rewrite IH. destruct (nth_error ns s) as [n|] eqn:N.
      + unfold runion, rminus. rewrite !orb_true_iff, andb_true_iff, negb_true_iff. split.
        * intros [[H|[H|H]]|(s0 & n0 & I0 & H)]; auto.
          -- right. exists s, n. cbn. auto.
          -- right. exists s, n. cbn. auto.
          -- right. exists s0, n0. cbn. tauto.
        * intros [H|(s0 & n0 & [<-|I0] & N0 & H)]; auto.
          -- rewrite N in N0. injection N0 as <-. destruct H as [H|H]; auto.
          -- right. eauto.
      + split.
        * intros [H|(s0 & n0 & I0 & H)]; auto. right. exists s0, n0. cbn. tauto.
        * intros [H|(s0 & n0 & [<-|I0] & N0 & H)]; auto; [congruence|]. right. eauto. }
  rewrite G. split; [intros [H|H]; [discriminate|exact H]|auto].
Qed.

(* Live according to the sets of the nodes. *)
Inductive nlive (x : nat) : nat -> Prop :=
| nlive_here k b s n : nth_error ns k = Some b -> In s (succs b) -> nth_error ns s = Some n -> ue n x = true -> nlive x k
| nlive_later k b s n : nth_error ns k = Some b -> In s (succs b) -> nth_error ns s = Some n -> vk n x = false ->
    nlive x s -> nlive x k.

Definition sound (lo : nat -> rset) : Prop := forall k x, lo k x = true -> nlive x k.
(* Going up: no bit is lost by another step. *)
Definition rising (lo : nat -> rset) : Prop :=
  forall k b x, nth_error ns k = Some b -> lo k x = true -> live_new ns lo b x = true.
Definition below (lo lo' : nat -> rset) : Prop := forall k x, lo k x = true -> lo' k x = true.

Lemma below_new lo lo' b x : below lo lo' -> live_new ns lo b x = true -> live_new ns lo' b x = true.
Proof.
  intros B H. apply live_new_spec in H as (s & n & I0 & N & [H|(H1 & H2)]); apply live_new_spec; exists s, n; auto.
  conjs; auto.
Qed.

Lemma req_spec a b : req nr a b = true <-> forall x, x < nr -> a x = b x.
Proof.
  unfold req. rewrite forallb_forall. split.
  - intros H x L. apply Bool.eqb_prop, H, in_seq. lia.
  - intros H x I0. apply in_seq in I0. rewrite H by lia. apply Bool.eqb_reflx.
Qed.

Lemma upd_sound lo k b : sound lo -> nth_error ns k = Some b -> sound (upd lo k (live_new ns lo b)).
Proof.
  intros S1 N j x H. unfold upd in H. destruct (Nat.eqb_spec j k) as [->|D]; [|now apply S1].
  apply live_new_spec in H as (s & n & I0 & Ns & [H|(H1 & H2)]).
  - eapply nlive_here; eauto.
  - eapply nlive_later; eauto.
Qed.

Lemma upd_rising lo k b : rising lo -> nth_error ns k = Some b ->
  below lo (upd lo k (live_new ns lo b)) /\ rising (upd lo k (live_new ns lo b)).
Proof.
  intros R N. assert (B : below lo (upd lo k (live_new ns lo b))).
  { intros j x H. unfold upd. destruct (Nat.eqb_spec j k) as [->|D]; [|exact H]. now apply (R k b x). }
  split; [exact B|]. intros j c x Nj H. apply (below_new lo); [exact B|]. unfold upd in H.
  destruct (Nat.eqb_spec j k) as [->|D].
  - assert (c = b) by congruence. now subst c.
  - now apply (R j c x).
Qed.

(* The number of bits set. *)
Definition bits_of (a : rset) : nat := length (filter a (seq 0 nr)).
Fixpoint total (n : nat) (lo : nat -> rset) : nat := match n with O => 0 | S n' => bits_of (lo n') + total n' lo end.

Lemma filter_le (a b : rset) l : (forall x, In x l -> a x = true -> b x = true) -> length (filter a l) <= length (filter b l).
Proof.
  induction l as [|x l IH]; intros H; cbn; [lia|].
  assert (IHl : length (filter a l) <= length (filter b l)) by (apply IH; intros; apply H; auto; now right).
  destruct (a x) eqn:A; [rewrite (H x (or_introl eq_refl) A); cbn; lia|]. destruct (b x); cbn; lia.
Qed.
Lemma filter_lt (a b : rset) l x : In x l -> a x = false -> b x = true ->
  (forall x, In x l -> a x = true -> b x = true) -> length (filter a l) < length (filter b l).
Proof.
  induction l as [|y l IH]; intros I0 A B H; [destruct I0|]. cbn.
  assert (Hl : forall x, In x l -> a x = true -> b x = true) by (intros; apply H; auto; now right).
  destruct I0 as [->|I0].
  - rewrite A, B. cbn. pose proof (filter_le a b l Hl). lia.
  - specialize (IH I0 A B Hl). destruct (a y) eqn:Ay; [rewrite (H y (or_introl eq_refl) Ay); cbn; lia|]. destruct (b y); cbn; lia.
Qed.

Lemma total_le n lo lo' : below lo lo' -> total n lo <= total n lo'.
Proof. intros B. induction n as [|n IH]; cbn; [lia|]. pose proof (filter_le (lo n) (lo' n) (seq 0 nr) ltac:(intros; now apply B)). unfold bits_of. lia. Qed.
Lemma total_lt n lo lo' k x : below lo lo' -> k < n -> x < nr -> lo k x = false -> lo' k x = true -> total n lo < total n lo'.
Proof.
  intros B L Lx F T. induction n as [|n IH]; [lia|]. cbn. pose proof (total_le n lo lo' B).
  destruct (Nat.eq_dec k n) as [->|D].
  - assert (bits_of (lo n) < bits_of (lo' n)); [|lia]. apply (filter_lt _ _ _ x); [apply in_seq; lia|exact F|exact T|intros; now apply B].
  - assert (total n lo < total n lo') by (apply IH; lia).
    pose proof (filter_le (lo n) (lo' n) (seq 0 nr) ltac:(intros; now apply B)). unfold bits_of. lia.
Qed.
Lemma total_max n lo : total n lo <= n * nr.
Proof.
  induction n as [|n IH]; cbn; [lia|].
  assert (bits_of (lo n) <= nr); [|lia]. unfold bits_of.
  assert (G : forall (a : rset) l, length (filter a l) <= length l).
  { induction l as [|y l IHl]; cbn; [lia|]. destruct (a y); cbn; lia. }
  specialize (G (lo n) (seq 0 nr)). now rewrite seq_length in G.
Qed.

Lemma live_round_ok : forall k lo ch lo' ch', k <= length ns -> sound lo -> rising lo ->
  live_round nr ns k lo ch = (lo', ch') ->
  sound lo' /\ rising lo' /\ below lo lo' /\
  (ch' = ch \/ (ch' = true /\ total (length ns) lo < total (length ns) lo')) /\
  (ch' = false -> lo' = lo /\ forall j b x, j < k -> nth_error ns j = Some b -> x < nr -> live_new ns lo b x = lo j x).
Proof.
  induction k as [|k IH]; intros lo ch lo' ch' L S1 R E; cbn [live_round] in E.
  - injection E as <- <-. conjs; auto. { intros j x; auto. } intros _. split; [reflexivity|]. intros; lia.
  - destruct (nth_error ns k) as [b|] eqn:N; [|apply nth_error_None in N; lia].
    destruct (req nr (live_new ns lo b) (lo k)) eqn:Q.
    + destruct (IH lo ch lo' ch' ltac:(lia) S1 R E) as (A1 & A2 & A3 & A4 & A5). conjs; auto.
      intros C. destruct (A5 C) as (-> & A6). split; [reflexivity|]. intros j c x Lj Nj Lx.
      destruct (Nat.eq_dec j k) as [->|D].
      * assert (c = b) by congruence. subst c. rewrite req_spec in Q. now apply Q.
      * apply A6; auto; lia.
    + destruct (upd_rising lo k b R N) as (B1 & R1).
      destruct (IH _ true lo' ch' ltac:(lia) (upd_sound lo k b S1 N) R1 E) as (A1 & A2 & A3 & A4 & A5).
      assert (LT : total (length ns) lo < total (length ns) (upd lo k (live_new ns lo b))).
      { assert (D : exists x, x < nr /\ live_new ns lo b x <> lo k x).
        { clear -Q. unfold req in Q.
          assert (G : forall l, forallb (fun x => Bool.eqb (live_new ns lo b x) (lo k x)) l = false ->
                    exists x, In x l /\ live_new ns lo b x <> lo k x).
          { induction l as [|y l IHl]; cbn; intros H; [discriminate|].
            destruct (Bool.eqb (live_new ns lo b y) (lo k y)) eqn:Y.
            - destruct (IHl H) as (x & I0 & X). eauto.
            - exists y. split; [now left|]. intros X. rewrite X, Bool.eqb_reflx in Y. discriminate. }
          destruct (G _ Q) as (x & I0 & X). apply in_seq in I0. exists x. split; [lia|exact X]. }
        destruct D as (x & Lx & Dx). apply (total_lt _ _ _ k x); [exact B1|lia|exact Lx| |].
        - destruct (lo k x) eqn:Lo; [|reflexivity]. elim Dx. now apply (R k b x).
        - unfold upd. rewrite Nat.eqb_refl. destruct (lo k x) eqn:Lo; [now apply (R k b x)|].
          destruct (live_new ns lo b x); [reflexivity|congruence]. }
      assert (C1 : ch' = true) by (destruct A4 as [A4|(A4 & _)]; exact A4).
      conjs; auto.
      * intros j x H. now apply A3, B1.
      * right. split; [exact C1|]. pose proof (total_le (length ns) _ _ A3). lia.
      * intros C. congruence.
Qed.

Lemma live_iter_ok : forall fuel lo, sound lo -> rising lo ->
  length ns * nr < fuel + total (length ns) lo ->
  exists lo', live_iter fuel nr ns lo = Ok lo' /\ sound lo' /\
    (forall j b x, nth_error ns j = Some b -> x < nr -> live_new ns lo' b x = lo' j x).
Proof.
  induction fuel as [|fuel IH]; intros lo S1 R F.
  - pose proof (total_max (length ns) lo). lia.
  - cbn [live_iter]. destruct (live_round nr ns (length ns) lo false) as [lo' ch] eqn:E.
    destruct (live_round_ok _ _ _ _ _ (le_n _) S1 R E) as (A1 & A2 & A3 & A4 & A5).
    destruct ch.
    + destruct A4 as [A4|(_ & A4)]; [discriminate|]. apply IH; auto. lia.
    + destruct (A5 eq_refl) as (-> & A6). exists lo. conjs; auto. intros j b x N Lx. apply A6; auto.
      apply nth_error_Some. congruence.
Qed.

Lemma nlive_complete lo x : x < nr ->
  (forall j b x, nth_error ns j = Some b -> x < nr -> live_new ns lo b x = lo j x) ->
  forall k, nlive x k -> lo k x = true.
Proof.
  intros Lx FX k H. induction H as [k b s n N I0 Ns U|k b s n N I0 Ns V H IH].
  - rewrite <- (FX k b x N Lx). apply live_new_spec. exists s, n. auto.
  - rewrite <- (FX k b x N Lx). apply live_new_spec. exists s, n. auto.
Qed.
End Iter.

Lemma liveness_ok nregs ns : exists lo, liveness nregs ns = Ok lo /\
  forall k x, x <= nregs -> (lo k x = true <-> nlive ns x k).
Proof.
  unfold liveness.
  destruct (live_iter_ok (S nregs) ns (S (length ns * S nregs)) (fun _ => rempty)) as (lo & E & S1 & F).
  - intros k x H. discriminate.
  - intros k b x N H. discriminate.
  - lia.
  - exists lo. split; [exact E|]. intros k x L. split; [apply S1|].
    apply (nlive_complete (S nregs)); [lia|exact F].
Qed.
