From Coq Require Import List Arith Bool Lia Permutation.
From Verif Require Import Base SenseModel NexusModel NexusSpec.
Import ListNotations.

(* ---- values ---- *)

Lemma skipn_skipn {B} : forall n m (l : list B), skipn n (skipn m l) = skipn (m + n) l.
Proof.
  intros n m. induction m as [|m IH]; intros l; [reflexivity|].
  destruct l as [|x l]; [now rewrite !skipn_nil|]. cbn [skipn Nat.add]. apply IH.
Qed.

Lemma map_seq_skip (f : nat -> nat) k : forall n a, k <= n ->
  skipn k (map f (seq a n)) = map f (seq (a + k) (n - k)).
Proof.
  induction k as [|k IH]; intros n a L.
  - rewrite Nat.add_0_r, Nat.sub_0_r. reflexivity.
  - destruct n as [|n]; [lia|]. cbn [seq map skipn]. rewrite IH by lia.
    now rewrite Nat.add_succ_comm.
Qed.

Lemma map_seq_first (f : nat -> nat) k : forall n a, k <= n ->
  firstn k (map f (seq a n)) = map f (seq a k).
Proof.
  induction k as [|k IH]; intros n a L; [reflexivity|].
  destruct n as [|n]; [lia|]. cbn [seq map firstn]. now rewrite IH by lia.
Qed.

Lemma fits_bytes mem n v : fits n v -> exists b, value_bytes mem n v = Ok b /\ length b = n.
Proof.
  unfold fits, value_bytes. destruct v as [b|a].
  - intros [L E]. replace (n <=? 8) with true by (symmetry; now apply Nat.leb_le).
    eexists. split; [reflexivity|]. rewrite firstn_length. lia.
  - intros L. replace (n <=? 8) with false by (symmetry; apply Nat.leb_gt; lia).
    eexists. split; [reflexivity|]. now rewrite map_length, seq_length.
Qed.

Lemma split_value_ok mem junk wnew size off v b :
  length junk = 8 -> 0 < size -> 0 < off -> 0 < wnew ->
  fits ((off + wnew) * size) v -> value_bytes mem ((off + wnew) * size) v = Ok b ->
  exists vn vo, split_value mem junk wnew size off v = Ok (vn, vo) /\
    fits (wnew * size) vn /\ fits (off * size) vo /\
    value_bytes mem (wnew * size) vn = Ok (skipn (off * size) b) /\
    value_bytes mem (off * size) vo = Ok (firstn (off * size) b).
Proof.
  intros J Hs Ho Hw F B. unfold split_value.
  assert (E : (off + wnew) * size = off * size + wnew * size) by lia.
  rewrite E in *. set (sp := off * size) in *. set (nw := wnew * size) in *.
  assert (0 < sp) by (subst sp; nia). assert (0 < nw) by (subst nw; nia).
  clearbody sp nw. clear E Hs Ho Hw.
  assert (skip_pad : forall n (l : list nat), length l = n -> firstn n (l ++ skipn n junk) = l).
  { intros n l <-. rewrite firstn_app, Nat.sub_diag, firstn_O, app_nil_r, firstn_all. reflexivity. }
  destruct v as [w|a]; cbn [fits] in F.
  - destruct F as [F Lw]. unfold value_bytes in B.
    replace (sp + nw <=? 8) with true in B by (symmetry; now apply Nat.leb_le). injection B as <-.
    replace (8 <? sp) with false by (symmetry; apply Nat.ltb_ge; lia).
    replace (8 <? nw) with false by (symmetry; apply Nat.ltb_ge; lia).
    replace (8 <? sp + nw) with false by (symmetry; apply Nat.ltb_ge; lia). cbn [andb].
    eexists. eexists. split; [reflexivity|].
    split. { cbn [fits]. split; [lia|]. rewrite app_length, skipn_length, repeat_length. lia. }
    split. { cbn [fits]. split; [lia|exact Lw]. }
    unfold value_bytes.
    replace (nw <=? 8) with true by (symmetry; apply Nat.leb_le; lia).
    replace (sp <=? 8) with true by (symmetry; apply Nat.leb_le; lia).
    split; f_equal.
    + rewrite firstn_app, skipn_length. replace (nw - (length w - sp)) with 0 by lia.
      rewrite firstn_O, app_nil_r. rewrite firstn_skipn_comm. reflexivity.
    + rewrite firstn_firstn. f_equal. lia.
  - unfold value_bytes in B.
    replace (sp + nw <=? 8) with false in B by (symmetry; apply Nat.leb_gt; lia). injection B as <-.
    rewrite map_seq_skip by lia. rewrite map_seq_first by lia.
    replace (sp + nw - sp) with nw by lia.
    unfold value_bytes.
    destruct (Nat.ltb_spec 8 sp) as [Hsp|Hsp]; destruct (Nat.ltb_spec 8 nw) as [Hnw|Hnw]; cbn [andb].
    + eexists. eexists. split; [reflexivity|]. cbn [fits].
      split; [exact Hnw|]. split; [exact Hsp|].
      replace (nw <=? 8) with false by (symmetry; apply Nat.leb_gt; lia).
      replace (sp <=? 8) with false by (symmetry; apply Nat.leb_gt; lia). split; reflexivity.
    + eexists. eexists. split; [reflexivity|]. cbn [fits].
      split. { split; [exact Hnw|]. rewrite app_length, map_length, seq_length, skipn_length. lia. }
      split; [exact Hsp|].
      replace (nw <=? 8) with true by (symmetry; apply Nat.leb_le; lia).
      replace (sp <=? 8) with false by (symmetry; apply Nat.leb_gt; lia).
      split; [|reflexivity]. f_equal. apply skip_pad. now rewrite map_length, seq_length.
    + eexists. eexists. split; [reflexivity|]. cbn [fits].
      split; [exact Hnw|]. split. { split; [exact Hsp|reflexivity]. }
      replace (nw <=? 8) with false by (symmetry; apply Nat.leb_gt; lia).
      replace (sp <=? 8) with true by (symmetry; apply Nat.leb_le; lia).
      split; [reflexivity|]. f_equal. apply map_seq_first. exact Hsp.
    + replace (8 <? sp + nw) with true by (symmetry; now apply Nat.ltb_lt).
      eexists. eexists. split; [reflexivity|]. cbn [fits].
      split. { split; [exact Hnw|]. rewrite app_length, map_length, seq_length, skipn_length. lia. }
      split. { split; [exact Hsp|reflexivity]. }
      replace (nw <=? 8) with true by (symmetry; apply Nat.leb_le; lia).
      replace (sp <=? 8) with true by (symmetry; apply Nat.leb_le; lia).
      split; f_equal.
      * apply skip_pad. now rewrite map_length, seq_length.
      * apply map_seq_first. exact Hsp.
Qed.

(* Element by element. *)
Lemma split_value_elem mem junk wnew size off v :
  length junk = 8 -> 0 < size -> 0 < off -> 0 < wnew -> fits ((off + wnew) * size) v ->
  exists vn vo, split_value mem junk wnew size off v = Ok (vn, vo) /\
    fits (wnew * size) vn /\ fits (off * size) vo /\
    (forall k, elem mem wnew size k vn = elem mem (off + wnew) size (off + k) v) /\
    (forall k, k < off -> elem mem off size k vo = elem mem (off + wnew) size k v).
Proof.
  intros J Hs Ho Hw F. destruct (fits_bytes mem _ _ F) as (b & B & L).
  destruct (split_value_ok mem junk wnew size off v b J Hs Ho Hw F B) as (vn & vo & E & F1 & F2 & B1 & B2).
  exists vn, vo. split; [exact E|]. split; [exact F1|]. split; [exact F2|].
  unfold elem. rewrite B, B1, B2. split; intros k.
  - f_equal. rewrite skipn_skipn. f_equal. nia.
  - intros K. rewrite skipn_firstn_comm, firstn_firstn. f_equal. nia.
Qed.

(* ---- sources ---- *)

Lemma split_pend_ok mem junk now wnew size off :
  length junk = 8 -> 0 < size -> 0 < off -> 0 < wnew -> forall l,
  Forall (fun tv => now <= fst tv /\ fits ((off + wnew) * size) (snd tv)) l ->
  exists ln lo ev, split_pend mem junk now wnew size off l = Ok (ln, lo, ev) /\
    Forall (fun tv => now <= fst tv /\ fits (wnew * size) (snd tv)) ln /\
    Forall (fun tv => now <= fst tv /\ fits (off * size) (snd tv)) lo /\
    (forall k, map (fun tv => (fst tv, elem mem wnew size k (snd tv))) ln =
               map (fun tv => (fst tv, elem mem (off + wnew) size (off + k) (snd tv))) l) /\
    (forall k, k < off -> map (fun tv => (fst tv, elem mem off size k (snd tv))) lo =
               map (fun tv => (fst tv, elem mem (off + wnew) size k (snd tv))) l) /\
    map fst lo = map fst l /\ map fst ln = map (fun d => now + d) ev.
Proof.
  intros J Hs Ho Hw. induction l as [|[t v] l IH]; intros F; cbn [split_pend].
  - exists [], [], []. repeat split; constructor.
  - destruct (Forall_inv F) as [Ft Fv]. cbn [fst snd] in Ft, Fv.
    destruct (split_value_elem mem junk wnew size off v J Hs Ho Hw Fv) as (vn & vo & E & F1 & F2 & V1 & V2).
    destruct (IH (Forall_inv_tail F)) as (ln & lo & ev & E' & G1 & G2 & W1 & W2 & T1 & T2).
    rewrite E. cbn [bind]. replace (now <=? t) with true by (symmetry; now apply Nat.leb_le).
    rewrite E'. cbn [bind]. eexists. eexists. eexists. split; [reflexivity|].
    split; [constructor; [split; assumption|exact G1]|].
    split; [constructor; [split; assumption|exact G2]|].
    split; [intros k; cbn [map fst snd]; now rewrite V1, W1|].
    split; [intros k K; cbn [map fst snd]; now rewrite V2, W2|].
    split; [cbn; now rewrite T1|]. cbn. rewrite T2. f_equal. lia.
Qed.

Lemma clone_source_ok mem junk now wnew size off o :
  length junk = 8 -> 0 < size -> 0 < off -> 0 < wnew -> plain now ((off + wnew) * size) o ->
  exists sn so ev, clone_source mem junk now wnew size off o = Ok (sn, so, ev) /\
    plain now (wnew * size) sn /\ plain now (off * size) so /\
    (forall k, src_view mem wnew size k sn = src_view mem (off + wnew) size (off + k) o) /\
    (forall k, k < off -> src_view mem off size k so = src_view mem (off + wnew) size k o) /\
    map fst (s_pend so) = map fst (s_pend o) /\
    map fst (s_pend sn) = map (fun d => now + d) ev.
Proof.
  intros J Hs Ho Hw (P1 & P2 & P3 & P4 & P5). unfold clone_source.
  destruct o as [kd pr dc qu [ct cv] pd]. cbn [s_kind s_proc s_disc s_queued s_cur s_pend fst snd] in *. subst dc qu.
  destruct (split_value_elem mem junk wnew size off cv J Hs Ho Hw P1) as (vn & vo & E & F1 & F2 & V1 & V2).
  rewrite E. cbn [bind].
  destruct (split_pend_ok mem junk now wnew size off J Hs Ho Hw pd P2)
    as (ln & lo & ev & E' & G1 & G2 & W1 & W2 & T1 & T2).
  destruct kd.
  - rewrite E'. cbn [bind]. eexists. eexists. eexists. split; [reflexivity|].
    split. { repeat split; cbn; auto. }
    split. { repeat split; cbn; auto. }
    split. { intros k. unfold src_view. cbn. now rewrite V1, W1. }
    split. { intros k K. unfold src_view. cbn. now rewrite V2, W2. }
    split; assumption.
  - destruct P5 as [P5|P5]; [discriminate|]. subst pd.
    eexists. eexists. eexists. split; [reflexivity|].
    split. { repeat split; cbn; auto. }
    split. { repeat split; cbn; auto. }
    split. { intros k. unfold src_view. cbn. now rewrite V1. }
    split. { intros k K. unfold src_view. cbn. now rewrite V2. }
    split; reflexivity.
  - destruct P5 as [P5|P5]; [discriminate|]. subst pd.
    eexists. eexists. eexists. split; [reflexivity|].
    split. { repeat split; cbn; auto. }
    split. { repeat split; cbn; auto. }
    split. { intros k. unfold src_view. cbn. now rewrite V1. }
    split. { intros k K. unfold src_view. cbn. now rewrite V2. }
    split; reflexivity.
Qed.

Definition times (l : list src) : list nat := concat (map (fun o => map fst (s_pend o)) l).

Lemma clone_sources_ok mem junk now wnew size off :
  length junk = 8 -> 0 < size -> 0 < off -> 0 < wnew -> forall l,
  Forall (plain now ((off + wnew) * size)) l ->
  exists ln lo ev, clone_sources mem junk now wnew size off l = Ok (ln, lo, ev) /\
    Forall (plain now (wnew * size)) ln /\ Forall (plain now (off * size)) lo /\
    (forall k, map (src_view mem wnew size k) ln = map (src_view mem (off + wnew) size (off + k)) l) /\
    (forall k, k < off -> map (src_view mem off size k) lo = map (src_view mem (off + wnew) size k) l) /\
    times lo = times l /\ times ln = map (fun d => now + d) ev.
Proof.
  intros J Hs Ho Hw. induction l as [|o l IH]; intros F; cbn [clone_sources].
  - exists [], [], []. repeat split; constructor.
  - destruct (clone_source_ok mem junk now wnew size off o J Hs Ho Hw (Forall_inv F))
      as (sn & so & e1 & E & P1 & P2 & V1 & V2 & T1 & T2).
    destruct (IH (Forall_inv_tail F)) as (ln & lo & ev & E' & G1 & G2 & W1 & W2 & U1 & U2).
    rewrite E. cbn [bind]. rewrite E'. cbn [bind].
    eexists. eexists. eexists. split; [reflexivity|].
    split; [now constructor|]. split; [now constructor|].
    split; [intros k; cbn [map]; now rewrite V1, W1|].
    split; [intros k K; cbn [map]; now rewrite V2, W2|].
    unfold times in *. cbn. rewrite T1, U1, T2, U2, map_app. split; reflexivity.
Qed.

(* ---- starts of the pieces ---- *)

Section Sig.
Context {A : Type}.

Fixpoint starts (off : nat) (ps : list (piece A)) : list (nat * nat) :=
  match ps with
  | [] => []
  | p :: ps' => (p_id p, off) :: starts (off + p_width p) ps'
  end.

Lemma total_cons (p : piece A) ps : total (p :: ps) = p_width p + total ps.
Proof. reflexivity. Qed.

Lemma total_app (a b : list (piece A)) : total (a ++ b) = total a + total b.
Proof. unfold total. now rewrite map_app, list_sum_app. Qed.

Lemma starts_app : forall (a b : list (piece A)) off, starts off (a ++ b) = starts off a ++ starts (off + total a) b.
Proof.
  induction a as [|p a IH]; intros b off; cbn [app starts].
  - unfold total. cbn. now rewrite Nat.add_0_r.
  - rewrite IH, total_cons. rewrite Nat.add_assoc. reflexivity.
Qed.

Lemma starts_lt : forall (ps : list (piece A)) off id st,
  Forall (fun p => 0 < p_width p) ps -> In (id, st) (starts off ps) -> off <= st < off + total ps.
Proof.
  induction ps as [|p ps IH]; intros off id st F I; cbn [starts] in I; [easy|].
  pose proof (Forall_inv F) as W0. cbn beta in W0. destruct I as [[= <- <-]|I]; rewrite total_cons; [lia|].
  specialize (IH _ _ _ (Forall_inv_tail F) I). lia.
Qed.

Lemma starts_ids : forall (ps : list (piece A)) off, map fst (starts off ps) = map p_id ps.
Proof. induction ps as [|p ps IH]; intros off; cbn; [reflexivity|]. now rewrite IH. Qed.

Lemma starts_inj : forall (ps : list (piece A)) off id1 id2 st,
  Forall (fun p => 0 < p_width p) ps ->
  In (id1, st) (starts off ps) -> In (id2, st) (starts off ps) -> id1 = id2.
Proof.
  induction ps as [|p ps IH]; intros off id1 id2 st F I1 I2; cbn [starts] in *; [easy|].
  pose proof (Forall_inv F) as W0. cbn beta in W0. pose proof (Forall_inv_tail F) as F'.
  destruct I1 as [[= <- <-]|I1], I2 as [E2|I2].
  - congruence.
  - apply starts_lt in I2; [lia|exact F'].
  - injection E2 as <- <-. apply starts_lt in I1; [lia|exact F'].
  - eapply IH; eassumption.
Qed.

Lemma position_starts : forall (ps : list (piece A)) off id st, NoDup (map p_id ps) ->
  In (id, st) (starts off ps) ->
  exists pos, position id ps = Some pos /\ pos < length ps /\ off + total (firstn pos ps) = st.
Proof.
  induction ps as [|p ps IH]; intros off id st ND I; cbn [starts position] in *; [easy|].
  cbn [map] in ND. inversion ND as [|? ? N1 N2]; subst.
  destruct I as [[= <- <-]|I].
  - rewrite Nat.eqb_refl. exists 0. split; [reflexivity|]. unfold total. cbn [firstn length map list_sum fold_right]. split; lia.
  - destruct (Nat.eqb_spec (p_id p) id) as [E|E].
    + exfalso. apply N1. rewrite E. rewrite <- (starts_ids ps (off + p_width p)).
      apply in_map_iff. exists (id, st). split; [reflexivity|exact I].
    + destruct (IH _ _ _ N2 I) as (pos & H1 & H2 & H3). rewrite H1.
      exists (S pos). split; [reflexivity|]. cbn [firstn length]. rewrite total_cons. split; lia.
Qed.

(* ---- the index ---- *)

Definition ix_ok (w : nat) (ps : list (piece A)) (i : index) : Prop :=
  let u := unit_of (i_how i) in
  0 < u /\ (forall off, off < w -> off / u < i_count i) /\
  (forall k id, i_arr i k = Some id <-> In (id, k * u) (starts 0 ps)) /\
  (forall id st, In (id, st) (starts 0 ps) -> (Nat.divide (u) (st))).

Lemma euclid_gcd : forall fuel g b, b < fuel -> euclid fuel g b = Nat.gcd b g.
Proof.
  induction fuel as [|fuel IH]; intros g b L; [lia|]. cbn [euclid].
  destruct (Nat.eqb_spec b 0) as [->|N]; [reflexivity|].
  rewrite IH by (pose proof (Nat.mod_upper_bound g b N); lia).
  destruct b as [|b]; [lia|]. cbn [Nat.gcd]. reflexivity.
Qed.

Lemma ctz_divides : forall fuel n, (Nat.divide (2 ^ ctz fuel n) (n)).
Proof.
  induction fuel as [|fuel IH]; intros n; cbn [ctz].
  - exists n. cbn. lia.
  - destruct (Nat.eqb_spec (n mod 2) 0) as [E|E]; [|exists n; cbn; lia].
    destruct (IH (n / 2)) as [q Hq]. exists q. cbn [Nat.pow].
    pose proof (Nat.div_mod n 2 ltac:(lia)) as D. rewrite E, Hq in D. lia.
Qed.

Lemma pow_divides a b n : a <= b -> (Nat.divide (2 ^ b) (n)) -> (Nat.divide (2 ^ a) (n)).
Proof.
  intros L [q Hq]. exists (q * 2 ^ (b - a)). rewrite Hq.
  replace b with (b - a + a) at 1 by lia. rewrite Nat.pow_add_r. lia.
Qed.

Definition shift_div (sh : option nat) (n : nat) : Prop :=
  match sh with Some k => (Nat.divide (2 ^ k) (n)) | None => n = 0 end.

Lemma scan_ok : forall (ps : list (piece A)) off sh g sh' g',
  scan_starts off (map p_width ps) sh g = (sh', g') ->
  (forall n, shift_div sh n -> shift_div sh' n) /\
  (forall n, (Nat.divide (g) (n)) -> Nat.divide g' n) /\
  (forall id st, In (id, st) (starts off ps) -> shift_div sh' st /\ Nat.divide g' st) /\
  (sh <> None -> sh' <> None) /\
  (forall id st, In (id, st) (starts off ps) -> 0 < st -> sh' <> None).
Proof.
  induction ps as [|p ps IH]; intros off sh g sh' g' H; cbn [map scan_starts starts] in *.
  - injection H as <- <-. repeat split; auto; intros; contradiction.
  - rewrite (euclid_gcd (S off) g off) in H by lia.
    set (sh1 := if 0 <? off then Some (match sh with None => ctz off off | Some s => Nat.min s (ctz off off) end)
                else sh) in *.
    destruct (IH _ _ _ _ _ H) as (I1 & I2 & I3 & I4 & I5).
    assert (S1 : forall n, shift_div sh n -> shift_div sh1 n).
    { intros n D. subst sh1. destruct (0 <? off); [|exact D].
      destruct sh as [s|]; cbn [shift_div] in *.
      - eapply pow_divides; [|exact D]. lia.
      - subst n. exists 0. reflexivity. }
    assert (S2 : shift_div sh1 off).
    { subst sh1. destruct (Nat.ltb_spec 0 off) as [L|L].
      - cbn [shift_div]. destruct sh as [s|]; [|apply ctz_divides].
        apply (pow_divides _ (ctz off off)); [lia|apply ctz_divides].
      - replace off with 0 by lia. destruct sh; cbn; [exists 0; reflexivity|reflexivity]. }
    split; [auto|]. split.
    { intros n D. apply I2. eapply Nat.divide_trans; [apply Nat.gcd_divide_r|exact D]. }
    split.
    { intros id st [[= <- <-]|I]; [|now apply I3 in I].
      split; [auto|]. apply I2. apply Nat.gcd_divide_l. }
    split.
    { intros N. apply I4. subst sh1. destruct (0 <? off); [discriminate|exact N]. }
    { intros id st [[= <- <-]|I] P; [|eapply I5; eassumption].
      apply I4. subst sh1. destruct (Nat.ltb_spec 0 off); [discriminate|lia]. }
Qed.

Lemma fill_ok h count : 0 < unit_of h -> forall (ps : list (piece A)) off arr,
  Forall (fun p => 0 < p_width p) ps ->
  (forall id st, In (id, st) (starts off ps) -> st / unit_of h < count /\ (Nat.divide (unit_of h) (st))) ->
  exists arr', fill_index h count off ps arr = Ok arr' /\
    forall k id, arr' k = Some id <->
      In (id, k * unit_of h) (starts off ps) \/
      (arr k = Some id /\ forall id', ~ In (id', k * unit_of h) (starts off ps)).
Proof.
  intros U. induction ps as [|p ps IH]; intros off arr F H; cbn [fill_index].
  - exists arr. split; [reflexivity|]. intros k id. cbn [starts]. split; [|intros [[]|[E _]]; exact E].
    intros E. right. split; [exact E|easy].
  - pose proof (Forall_inv F) as W. cbn beta in W.
    destruct (H (p_id p) off) as [Hc Hd]; [now left|].
    unfold map_index. replace (off / unit_of h <? count) with true by (symmetry; now apply Nat.ltb_lt).
    set (k0 := off / unit_of h) in *.
    assert (E0 : off = k0 * unit_of h).
    { destruct Hd as [q Hq]. subst k0. rewrite Hq at 2. rewrite Nat.div_mul by lia. exact Hq. }
    destruct (IH (off + p_width p) (fun j => if j =? k0 then Some (p_id p) else arr j)) as (arr' & E & S).
    { exact (Forall_inv_tail F). }
    { intros id st I. apply (H id st). now right. }
    exists arr'. split; [exact E|]. intros k id. rewrite S. cbn [starts In].
    assert (later : forall id', In (id', k * unit_of h) (starts (off + p_width p) ps) -> k <> k0).
    { intros id' I ->. apply starts_lt in I; [|exact (Forall_inv_tail F)]. lia. }
    destruct (Nat.eqb_spec k k0) as [Ek|Ek].
    + subst k. split.
      * intros [I|[[= <-] N]]; [left; now right|]. left. left. now rewrite E0.
      * intros [[I|I]|[_ N]].
        -- right. injection I as <- _. split; [reflexivity|]. intros id' I'. now apply (later id' I').
        -- now left.
        -- exfalso. apply (N (p_id p)). left. now rewrite <- E0.
    + split.
      * intros [I|[E1 N]]; [left; now right|]. right. split; [exact E1|].
        intros id' [I|I]; [|now apply (N id')]. injection I as _ I. apply Ek.
        rewrite E0 in I. nia.
      * intros [[I|I]|[E1 N]].
        -- exfalso. injection I as _ I. apply Ek. rewrite E0 in I. nia.
        -- now left.
        -- right. split; [exact E1|]. intros id' I. apply (N id'). now right.
Qed.

Lemma build_ok (w : nat) (ps : list (piece A)) :
  Forall (fun p => 0 < p_width p) ps -> total ps = w -> 2 <= length ps ->
  exists i, build_index w ps = Ok i /\ ix_ok w ps i.
Proof.
  intros F T L. unfold build_index.
  destruct (scan_starts 0 (map p_width ps) None 0) as [sh g] eqn:S.
  destruct (scan_ok ps 0 None 0 sh g S) as (_ & _ & D & _ & N).
  assert (SH : sh <> None).
  { destruct ps as [|p [|q ps]]; cbn in L; [lia|lia|].
    apply (N (p_id q) (p_width p)); [cbn; right; now left|]. exact (Forall_inv F). }
  destruct sh as [k|]; [|congruence].
  set (h := if (1 <? g) && (2 ^ k <? g) then HDiv g else HShift k).
  set (count := match h with HDiv g => (w + g - 1) / g | HShift k => w / 2 ^ k + 1 end).
  assert (U : 0 < unit_of h).
  { subst h. destruct ((1 <? g) && (2 ^ k <? g)) eqn:E; cbn.
    - apply andb_prop in E. destruct E as [E _]. apply Nat.ltb_lt in E. lia.
    - pose proof (Nat.pow_nonzero 2 k). lia. }
  assert (C : forall off, off < w -> off / unit_of h < count).
  { intros off O. subst count. clear S D. destruct h as [k'|g'] eqn:Eh; cbn [unit_of] in *.
    - pose proof (Nat.div_le_mono off w (2 ^ k')). lia.
    - apply Nat.div_lt_upper_bound; [lia|]. pose proof (Nat.div_mod (w + g' - 1) g').
      pose proof (Nat.mod_upper_bound (w + g' - 1) g'). nia. }
  assert (Dv : forall id st, In (id, st) (starts 0 ps) -> (Nat.divide (unit_of h) (st))).
  { intros id st I. destruct (D id st I) as [D1 D2]. subst h.
    destruct ((1 <? g) && (2 ^ k <? g)); [exact D2|exact D1]. }
  destruct (fill_ok h count U ps 0 (fun _ => None) F) as (arr & E & Sp).
  { intros id st I. split; [|eapply Dv; exact I]. apply C. rewrite <- T.
    apply starts_lt in I; [lia|exact F]. }
  rewrite E. cbn [bind]. eexists. split; [reflexivity|]. unfold ix_ok. cbn.
  split; [exact U|]. split; [exact C|]. split; [|exact Dv].
  intros k' id. rewrite Sp. split; [|now left]. intros [I|[X _]]; [exact I|discriminate].
Qed.

Lemma index_valid_div h off : 0 < unit_of h -> (index_valid h off = true <-> (Nat.divide (unit_of h) (off))).
Proof.
  intros U. destruct h as [k|g]; cbn [index_valid unit_of] in *; rewrite Nat.eqb_eq.
  - split; [intros E; exists (off / 2 ^ k); congruence|]. intros [q ->]. rewrite Nat.div_mul by lia. reflexivity.
  - rewrite Nat.mod_divide by lia. reflexivity.
Qed.

(* ---- the invariant ---- *)

Record ginv (now : nat) (s : signal A) : Prop := {
  gi_size : 0 < g_size s;
  gi_lay : laid_out (g_size s) 0 (g_pieces s);
  gi_tot : total (g_pieces s) = g_width s;
  gi_ids : NoDup (map p_id (g_pieces s));
  gi_next : Forall (fun p => p_id p < g_next s) (g_pieces s);
  gi_src : Forall (fun p => Forall (plain now (p_width p * p_size p)) (p_srcs p)) (g_pieces s);
  gi_ix : match g_index s with None => True | Some i => ix_ok (g_width s) (g_pieces s) i end;
  gi_ne : g_pieces s <> [] }.

Lemma laid_pos size : forall (ps : list (piece A)) off, laid_out size off ps -> Forall (fun p => 0 < p_width p) ps.
Proof.
  induction ps as [|p ps IH]; intros off L; [constructor|]. destruct L as (L1 & L2 & L3 & L4).
  constructor; [exact L1|]. eapply IH. exact L4.
Qed.

Lemma laid_app size : forall (a b : list (piece A)) off,
  laid_out size off (a ++ b) <-> laid_out size off a /\ laid_out size (off + total a) b.
Proof.
  induction a as [|p a IH]; intros b off; cbn [app laid_out].
  - unfold total. cbn. rewrite Nat.add_0_r. tauto.
  - rewrite IH, total_cons, Nat.add_assoc. tauto.
Qed.

Lemma nth_split_pieces (ps : list (piece A)) pos p : nth_error ps pos = Some p ->
  ps = firstn pos ps ++ p :: skipn (S pos) ps /\ length (firstn pos ps) = pos.
Proof.
  revert ps. induction pos as [|pos IH]; intros [|q ps] H; try discriminate; cbn [nth_error] in H.
  - injection H as ->. split; reflexivity.
  - destruct (IH ps H) as [E L]. split.
    + change (q :: ps = q :: (firstn pos ps ++ p :: skipn (S pos) ps)). now rewrite <- E.
    + cbn [firstn length]. now rewrite L.
Qed.

Lemma locate_app : forall (a b : list (piece A)) i,
  locate (a ++ b) i = if i <? total a then locate a i else locate b (i - total a).
Proof.
  induction a as [|p a IH]; intros b i; cbn [app locate].
  - unfold total. cbn. now rewrite Nat.sub_0_r.
  - rewrite total_cons. destruct (Nat.ltb_spec i (p_width p)) as [L|L].
    + replace (i <? p_width p + total a) with true by (symmetry; apply Nat.ltb_lt; lia). reflexivity.
    + rewrite IH. destruct (Nat.ltb_spec (i - p_width p) (total a)), (Nat.ltb_spec i (p_width p + total a)); try lia.
      * reflexivity.
      * f_equal. lia.
Qed.

Lemma clone_ok mem junk now (s : signal A) pos p off :
  length junk = 8 -> ginv now s -> nth_error (g_pieces s) pos = Some p -> 0 < off < p_width p ->
  exists s' ev o n, clone_nexus mem junk now s pos off = Ok (s', ev) /\ ginv now s' /\
    g_pieces s' = firstn pos (g_pieces s) ++ o :: n :: skipn (S pos) (g_pieces s) /\
    p_width o = off /\ p_width n = p_width p - off /\
    g_width s' = g_width s /\ g_size s' = g_size s /\
    (forall i, view mem s' i = view mem s i) /\
    Permutation (pending_times s') (pending_times s ++ map (fun d => now + d) ev).
Proof.
  intros J G NE Hoff. destruct (nth_split_pieces _ _ _ NE) as [Eps Lp].
  destruct G as [Hsz Hlay Htot Hids Hnext Hsrc Hix Hne].
  set (pre := firstn pos (g_pieces s)) in *. set (post := skipn (S pos) (g_pieces s)) in *.
  pose proof Hlay as Hlay0. rewrite Eps in Hlay0. apply laid_app in Hlay0. destruct Hlay0 as [HL1 HL2].
  cbn [laid_out] in HL2. destruct HL2 as (HW & HS & HO & HL3). cbn [Nat.add] in *.
  assert (Ht2 : total pre + (p_width p + total post) = g_width s).
  { rewrite <- Htot, <- total_cons, <- total_app. now rewrite <- Eps. }
  assert (Hp : Forall (plain now ((off + (p_width p - off)) * g_size s)) (p_srcs p)).
  { replace (off + (p_width p - off)) with (p_width p) by lia. rewrite <- HS.
    rewrite Forall_forall in Hsrc. apply Hsrc. eapply nth_error_In. exact NE. }
  destruct (clone_sources_ok mem junk now (p_width p - off) (g_size s) off J Hsz ltac:(lia) ltac:(lia) _ Hp)
    as (sn & so & ev & E & P1 & P2 & V1 & V2 & T1 & T2).
  replace (off + (p_width p - off)) with (p_width p) in * by lia.
  unfold clone_nexus. rewrite NE. replace (off <? p_width p) with true by (symmetry; apply Nat.ltb_lt; lia).
  rewrite <- HS in E. cbn zeta. rewrite E. cbn [bind]. fold pre post.
  set (new := Piece (g_next s) (p_width p - off) (p_size p) (p_off p + off * p_size p) (p_attr p) (p_sens p) sn).
  set (old := Piece (p_id p) off (p_size p) (p_off p) (p_attr p) (p_sens p) so).
  set (ps := pre ++ old :: new :: post).
  assert (Est : p_off new / p_size new = total pre + off).
  { subst new. cbn. rewrite HO, HS, <- Nat.mul_add_distr_r. apply Nat.div_mul. lia. }
  assert (Etot : total ps = g_width s).
  { subst ps. rewrite total_app, !total_cons. cbn [p_width old new]. lia. }
  assert (Elay : laid_out (g_size s) 0 ps).
  { subst ps. apply laid_app. split; [exact HL1|]. cbn [laid_out Nat.add].
    subst old new. cbn [p_width p_size p_off].
    split; [lia|]. split; [exact HS|]. split; [exact HO|].
    split; [lia|]. split; [exact HS|]. split; [rewrite HO, HS; lia|].
    replace (total pre + off + (p_width p - off)) with (total pre + p_width p) by lia. exact HL3. }
  assert (Estarts : forall id st, In (id, st) (starts 0 ps) <->
            (id, st) = (g_next s, total pre + off) \/ In (id, st) (starts 0 (g_pieces s))).
  { intros id st. rewrite Eps. subst ps. rewrite !starts_app. cbn [Nat.add starts]. subst old new. cbn [p_id p_width].
    replace (total pre + off + (p_width p - off)) with (total pre + p_width p) by lia.
    rewrite !in_app_iff. cbn [In]. intuition congruence. }
  assert (Nst : forall id, ~ In (id, total pre + off) (starts 0 (g_pieces s))).
  { intros id I. rewrite Eps, starts_app in I. cbn [Nat.add starts] in I. apply in_app_or in I.
    pose proof (laid_pos _ _ _ HL1) as F1. pose proof (laid_pos _ _ _ HL3) as F3.
    destruct I as [I|[I|I]].
    - apply starts_lt in I; [lia|exact F1].
    - injection I as _ I. lia.
    - apply starts_lt in I; [lia|exact F3]. }
  assert (Hpos : Forall (fun q => 0 < p_width q) ps) by (eapply laid_pos; exact Elay).
  assert (Lps : length ps = S (length (g_pieces s))).
  { assert (X : length (g_pieces s) = length (pre ++ p :: post)) by now rewrite <- Eps.
    rewrite X. subst ps. rewrite !app_length. cbn. lia. }
  assert (Lg : 1 <= length (g_pieces s)) by (destruct (g_pieces s); [congruence|cbn; lia]).
  assert (IX : exists ix, reindex (g_width s) ps (g_index s) (g_next s) (total pre + off) = Ok ix /\
                match ix with None => True | Some i => ix_ok (g_width s) ps i end).
  { unfold reindex. destruct (g_index s) as [i|].
    - destruct Hix as (U & Cn & Ar & Dv).
      destruct (index_valid (i_how i) (total pre + off)) eqn:V.
      + apply (index_valid_div _ _ U) in V. unfold map_index. set (k := (total pre + off) / unit_of (i_how i)).
        assert (Ek : total pre + off = k * unit_of (i_how i)).
        { destruct V as [q Hq]. subst k. rewrite Hq, Nat.div_mul by lia. reflexivity. }
        assert (Bk : k < i_count i).
        { apply Cn. lia. }
        assert (Nk : i_arr i k = None).
        { destruct (i_arr i k) as [id|] eqn:X; [|reflexivity]. apply Ar in X. rewrite <- Ek in X. now apply Nst in X. }
        replace (k <? i_count i) with true by (symmetry; now apply Nat.ltb_lt).
        rewrite Nk. cbn [opt_eqb andb]. eexists. split; [reflexivity|]. unfold ix_ok. cbn.
        split; [exact U|]. split; [exact Cn|]. split.
        * intros j id. rewrite Estarts. destruct (Nat.eqb_spec j k) as [Ej|Ej].
          -- subst j. split; [intros [= <-]; left; now rewrite Ek|].
             intros [[= <- _]|I]; [reflexivity|]. rewrite <- Ek in I. now apply Nst in I.
          -- rewrite Ar. split; [now right|]. intros [I|I]; [|exact I]. exfalso. apply Ej.
             injection I as _ I. rewrite Ek in I. nia.
        * intros id st I. apply Estarts in I. destruct I as [I|I]; [|eapply Dv; exact I].
          injection I as _ ->. exact V.
      + destruct (build_ok (g_width s) ps Hpos Etot) as (i' & E' & O'); [lia|].
        rewrite E'. cbn [bind].
        assert (X : i_arr i' (map_index (i_how i') (total pre + off)) = Some (g_next s)).
        { destruct O' as (U' & _ & Ar' & Dv'). apply Ar'. unfold map_index.
          assert (I : In (g_next s, total pre + off) (starts 0 ps)) by (apply Estarts; now left).
          destruct (Dv' _ _ I) as [q Hq]. rewrite Hq in *. rewrite Nat.div_mul by lia. exact I. }
        rewrite X. cbn [opt_eqb]. rewrite Nat.eqb_refl. eexists. split; [reflexivity|exact O'].
    - destruct (8 <=? length ps); [|eexists; split; [reflexivity|exact I]].
      destruct (build_ok (g_width s) ps Hpos Etot) as (i' & E' & O'); [lia|].
      rewrite E'. cbn [bind]. eexists. split; [reflexivity|exact O']. }
  destruct IX as (ix & Eix & Oix). rewrite Est. cbn [p_id new]. subst new. cbn [p_id] in *. rewrite Eix. cbn [bind].
  set (new := Piece (g_next s) (p_width p - off) (p_size p) (p_off p + off * p_size p) (p_attr p) (p_sens p) sn) in *.
  eexists. exists ev, old, new. split; [reflexivity|].
  split.
  { split; cbn [g_size g_width g_pieces g_index g_next].
    - exact Hsz.
    - exact Elay.
    - exact Etot.
    - subst ps. rewrite map_app. cbn [map]. subst old new. cbn [p_id].
      rewrite Eps, map_app in Hids. cbn [map] in Hids.
      assert (Nn : ~ In (g_next s) (map p_id pre ++ p_id p :: map p_id post)).
      { intros I. rewrite Forall_forall in Hnext.
        change (p_id p :: map p_id post) with (map p_id (p :: post)) in I. rewrite <- map_app, <- Eps in I.
        apply in_map_iff in I. destruct I as (q & Eq & Iq). apply Hnext in Iq. lia. }
      assert (PM : Permutation (g_next s :: map p_id pre ++ p_id p :: map p_id post)
                     (map p_id pre ++ p_id p :: g_next s :: map p_id post)).
      { change (p_id p :: g_next s :: map p_id post) with ([p_id p] ++ g_next s :: map p_id post).
        change (p_id p :: map p_id post) with ([p_id p] ++ map p_id post).
        rewrite !app_assoc. apply Permutation_middle. }
      eapply Permutation_NoDup; [exact PM|]. constructor; assumption.
    - subst ps. rewrite Eps in Hnext. apply Forall_app in Hnext. destruct Hnext as [N1 N2].
      apply Forall_app. split.
      + eapply Forall_impl; [|exact N1]. cbn. intros; lia.
      + pose proof (Forall_inv N2). pose proof (Forall_inv_tail N2) as N3. cbn beta in *.
        constructor; [subst old; cbn; lia|]. constructor; [subst new; cbn; lia|].
        eapply Forall_impl; [|exact N3]. cbn. intros; lia.
    - subst ps. rewrite Eps in Hsrc. apply Forall_app in Hsrc. destruct Hsrc as [N1 N2].
      apply Forall_app. split; [exact N1|].
      constructor; [subst old; cbn; rewrite HS; exact P2|].
      constructor; [subst new; cbn; rewrite HS; exact P1|]. exact (Forall_inv_tail N2).
    - exact Oix.
    - subst ps. destruct pre; discriminate. }
  cbn [g_pieces g_width g_size].
  split; [reflexivity|]. split; [reflexivity|]. split; [reflexivity|]. split; [reflexivity|]. split; [reflexivity|].
  split.
  - intros i. unfold view. cbn [g_pieces]. subst ps. rewrite Eps, !locate_app.
    destruct (Nat.ltb_spec i (total pre)) as [L|L]; [reflexivity|].
    set (j := i - total pre). cbn [locate]. subst old new. cbn [p_width].
    destruct (Nat.ltb_spec j off) as [Lo|Lo].
    + replace (j <? p_width p) with true by (symmetry; apply Nat.ltb_lt; lia).
      cbn [p_off p_size p_attr p_sens p_srcs p_width]. rewrite HS. rewrite (V2 j Lo). reflexivity.
    + destruct (Nat.ltb_spec (j - off) (p_width p - off)) as [Ln|Ln].
      * replace (j <? p_width p) with true by (symmetry; apply Nat.ltb_lt; lia).
        cbn [p_off p_size p_attr p_sens p_srcs p_width]. rewrite HS.
        rewrite (V1 (j - off)). replace (off + (j - off)) with j by lia.
        replace (p_off p + off * g_size s + (j - off) * g_size s) with (p_off p + j * g_size s) by nia.
        reflexivity.
      * replace (j <? p_width p) with false by (symmetry; apply Nat.ltb_ge; lia).
        replace (j - off - (p_width p - off)) with (j - p_width p) by lia. reflexivity.
  - unfold pending_times. cbn [g_pieces]. subst ps. rewrite Eps, !map_app, !concat_app. cbn [map concat].
    change (concat (map (fun o => map fst (s_pend o)) (p_srcs old))) with (times so).
    change (concat (map (fun o => map fst (s_pend o)) (p_srcs new))) with (times sn).
    change (concat (map (fun o => map fst (s_pend o)) (p_srcs p))) with (times (p_srcs p)).
    rewrite T1, T2. rewrite <- !app_assoc. apply Permutation_app_head. apply Permutation_app_head.
    apply Permutation_app_comm.
Qed.

Lemma view_index mem (s : signal A) ix i :
  view mem (Signal (g_size s) (g_width s) (g_pieces s) ix (g_next s)) i = view mem s i.
Proof. reflexivity. Qed.

(* ---- lookup ---- *)

Lemma find_down_ok arr : forall k, (exists id, arr 0 = Some id) ->
  exists j id, find_down arr k = Some (j, id) /\ j <= k /\ arr j = Some id.
Proof.
  induction k as [|k IH]; intros Z; cbn [find_down].
  - destruct Z as [id Z]. rewrite Z. exists 0, id. auto.
  - destruct (arr (S k)) as [id|] eqn:E; [exists (S k), id; auto|].
    destruct (IH Z) as (j & id & H1 & H2 & H3). exists j, id. split; [exact H1|]. split; [lia|exact H3].
Qed.

Lemma lookup_ok now (s : signal A) off : ginv now s -> off < g_width s ->
  exists pos off' ix, lookup_index s off = Ok (pos, off', ix) /\
    pos < length (g_pieces s) /\ total (firstn pos (g_pieces s)) + off' = off /\
    ginv now (Signal (g_size s) (g_width s) (g_pieces s) ix (g_next s)) /\
    (ix = g_index s \/ ix = None).
Proof.
  intros G L. pose proof G as G0. destruct G as [Hsz Hlay Htot Hids Hnext Hsrc Hix Hne].
  assert (Lg : 0 < length (g_pieces s)) by (destruct (g_pieces s); [congruence|cbn; lia]).
  assert (NoIx : ginv now (Signal (g_size s) (g_width s) (g_pieces s) None (g_next s))).
  { split; cbn; auto. }
  unfold lookup_index. destruct (g_index s) as [i|] eqn:Ei.
  - destruct Hix as (U & Cn & Ar & Dv).
    assert (Same : ginv now (Signal (g_size s) (g_width s) (g_pieces s) (Some i) (g_next s))).
    { split; cbn; auto. unfold ix_ok. auto. }
    destruct (index_valid (i_how i) off) eqn:V.
    + apply (index_valid_div _ _ U) in V. unfold map_index. set (key := off / unit_of (i_how i)).
      assert (Ek : off = key * unit_of (i_how i)).
      { destruct V as [q Hq]. subst key. rewrite Hq, Nat.div_mul by lia. reflexivity. }
      replace (key <? i_count i) with true by (symmetry; apply Nat.ltb_lt; now apply Cn).
      destruct (find_down_ok (i_arr i) key) as (j & id & F1 & F2 & F3).
      { destruct (g_pieces s) as [|p ps] eqn:Ep; [congruence|]. exists (p_id p). apply Ar. cbn. now left. }
      rewrite F1. apply Ar in F3.
      destruct (position_starts _ _ _ _ Hids F3) as (pos & H1 & H2 & H3). rewrite H1.
      exists pos, (unmap_index (i_how i) (key - j)), (Some i).
      split; [reflexivity|]. split; [exact H2|]. split.
      * cbn in H3. rewrite H3. unfold unmap_index. rewrite Ek, <- Nat.mul_add_distr_r. f_equal. lia.
      * split; [exact Same|now left].
    + exists 0, off, None. split; [reflexivity|]. split; [exact Lg|]. split; [reflexivity|]. split; [exact NoIx|now right].
  - exists 0, off, None. split; [reflexivity|]. split; [exact Lg|]. split; [reflexivity|]. split; [exact NoIx|now left].
Qed.

(* ---- the loop ---- *)

Lemma total_firstn_S (ps : list (piece A)) pos p : nth_error ps pos = Some p ->
  total (firstn (S pos) ps) = total (firstn pos ps) + p_width p.
Proof.
  revert ps. induction pos as [|pos IH]; intros [|q ps] H; try discriminate; cbn [nth_error] in H.
  - injection H as ->. unfold total. cbn. lia.
  - change (total (q :: firstn (S pos) ps) = total (q :: firstn pos ps) + p_width p).
    rewrite !total_cons, (IH ps H). lia.
Qed.

Definition same_prefix (pos : nat) (a b : list (piece A)) : Prop :=
  forall k, k <= pos -> total (firstn k a) = total (firstn k b).

Lemma clone_prefix (ps : list (piece A)) pos p o n : nth_error ps pos = Some p ->
  let ps' := firstn pos ps ++ o :: n :: skipn (S pos) ps in
  same_prefix pos ps' ps /\ length ps' = S (length ps) /\
  nth_error ps' pos = Some o /\ nth_error ps' (S pos) = Some n.
Proof.
  intros H ps'. destruct (nth_split_pieces _ _ _ H) as [E L]. subst ps'. repeat split.
  - intros k K. rewrite firstn_app, L. replace (k - pos) with 0 by lia. rewrite firstn_O, app_nil_r.
    rewrite firstn_firstn. now replace (Nat.min k pos) with k by lia.
  - assert (X : length ps = length (firstn pos ps ++ p :: skipn (S pos) ps)) by now rewrite <- E.
    rewrite X, !app_length. cbn [length]. lia.
  - rewrite nth_error_app2 by lia. now rewrite L, Nat.sub_diag.
  - rewrite nth_error_app2 by lia. rewrite L. replace (S pos - pos) with 1 by lia. reflexivity.
Qed.

Lemma loop_ok mem junk now : length junk = 8 -> forall fuel (s : signal A) pos off count result evs,
  ginv now s -> pos <= length (g_pieces s) ->
  total (firstn pos (g_pieces s)) + off + count <= g_width s ->
  length (g_pieces s) - pos + (if 0 <? off then 1 else 0) <= fuel ->
  exists s' result' ev, split_loop fuel mem junk now s pos off count result evs = Ok (s', result', evs ++ ev) /\
    ginv now s' /\ g_width s' = g_width s /\ g_size s' = g_size s /\
    (forall i, view mem s' i = view mem s i) /\
    Permutation (pending_times s') (pending_times s ++ map (fun d => now + d) ev) /\
    same_prefix pos (g_pieces s') (g_pieces s) /\
    (0 < count -> match result with
                  | Some r => result' = Some r /\
                      (off = 0 -> exists r', pos <= r' <= length (g_pieces s') /\
                         total (firstn r' (g_pieces s')) = total (firstn pos (g_pieces s)) + count)
                  | None => exists r, result' = Some r /\
                      covers s' r (total (firstn pos (g_pieces s)) + off) count
                  end).
Proof.
  intros J. induction fuel as [|fuel IH]; intros s pos off count result evs G Hpos Hw Hf.
  - assert (C0 : count = 0).
    { assert (pos = length (g_pieces s)) by lia. subst pos. rewrite firstn_all, (gi_tot _ _ G) in Hw. lia. }
    subst count. exists s, result, []. cbn. rewrite !app_nil_r.
    do 5 (split; [auto|]). split; [reflexivity|]. split; [intros k _; reflexivity|]. lia.
  - cbn [split_loop]. destruct (Nat.eqb_spec count 0) as [C0|C0].
    { subst count. exists s, result, []. cbn. rewrite !app_nil_r.
      do 5 (split; [auto|]). split; [reflexivity|]. split; [intros k _; reflexivity|]. lia. }
    destruct (nth_error (g_pieces s) pos) as [it|] eqn:NE.
    2:{ apply nth_error_None in NE. assert (pos = length (g_pieces s)) by lia. subst pos.
        rewrite firstn_all, (gi_tot _ _ G) in Hw. lia. }
    assert (Hlt : pos < length (g_pieces s)) by (apply nth_error_Some; congruence).
    pose proof (total_firstn_S _ _ _ NE) as TS.
    assert (Wp : 0 < p_width it).
    { pose proof (laid_pos _ _ _ (gi_lay _ _ G)) as F. rewrite Forall_forall in F. apply F.
      eapply nth_error_In. exact NE. }
    destruct (Nat.leb_spec (p_width it) off) as [Lo|Lo].
    + (* skip *)
      destruct (IH s (S pos) (off - p_width it) count result evs G) as (s' & r' & ev & E & G' & W' & S' & V' & P' & SP & R).
      { lia. } { rewrite TS. lia. }
      { destruct (0 <? off) eqn:X; [|apply Nat.ltb_ge in X; lia]. destruct (0 <? off - p_width it); lia. }
      exists s', r', ev. split; [exact E|]. do 5 (split; [assumption|]). split.
      { intros k K. apply SP. lia. }
      intros Cp. specialize (R Cp). destruct result as [r|].
      * destruct R as [R1 R2]. split; [exact R1|]. intros ->. lia.
      * destruct R as (r & R1 & R2). exists r. split; [exact R1|]. rewrite TS in R2.
        replace (total (firstn pos (g_pieces s)) + off) with
          (total (firstn pos (g_pieces s)) + p_width it + (off - p_width it)) by lia. exact R2.
    + destruct (Nat.ltb_spec 0 off) as [Po|Po] in Hf |- *.
      * (* cut at the start of the range *)
        destruct (clone_ok mem junk now s pos it off J G NE ltac:(lia))
          as (s1 & ev1 & o & n & E1 & G1 & Ps1 & Wo & Wn & W1 & S1 & V1 & P1).
        rewrite E1. cbn [bind].
        destruct (clone_prefix (g_pieces s) pos it o n NE) as (CP & CL & CN & CN2). rewrite <- Ps1 in *.
        pose proof (total_firstn_S _ _ _ CN) as TS1. rewrite (CP pos (Nat.le_refl _)) in TS1.
        destruct (IH s1 (S pos) 0 count result (evs ++ ev1) G1) as (s' & r' & ev & E & G' & W' & S' & V' & P' & SP & R).
        { lia. } { rewrite TS1. lia. } { change (if 0 <? 0 then 1 else 0) with 0. lia. }
        exists s', r', (ev1 ++ ev). rewrite E, app_assoc. split; [reflexivity|].
        split; [exact G'|]. split; [congruence|]. split; [congruence|].
        split; [intros i; now rewrite V', V1|].
        split. { rewrite map_app, app_assoc. eapply perm_trans; [exact P'|]. now apply Permutation_app_tail. }
        split. { intros k K. rewrite SP by lia. now apply CP. }
        intros Cp. specialize (R Cp). destruct result as [r|].
        -- destruct R as [R1 R2]. split; [exact R1|]. intros ->. lia.
        -- destruct R as (r & R1 & R2). exists r. split; [exact R1|]. rewrite TS1, Wo, Nat.add_0_r in R2. exact R2.
      * assert (off = 0) by lia. subst off.
        destruct (Nat.ltb_spec count (p_width it)) as [Lc|Lc].
        -- (* cut at the end of the range *)
           destruct (clone_ok mem junk now s pos it count J G NE ltac:(lia))
             as (s1 & ev1 & o & n & E1 & G1 & Ps1 & Wo & Wn & W1 & S1 & V1 & P1).
           rewrite E1. cbn [bind]. replace (count - Nat.min count (p_width it)) with 0 by lia.
           destruct (clone_prefix (g_pieces s) pos it o n NE) as (CP & CL & CN & CN2). rewrite <- Ps1 in *.
           pose proof (total_firstn_S _ _ _ CN) as TS1. rewrite (CP pos (Nat.le_refl _)) in TS1.
           assert (E0 : forall r e, split_loop fuel mem junk now s1 (S pos) 0 0 r e = Ok (s1, r, e)).
           { intros r e. destruct fuel; reflexivity. }
           rewrite E0. exists s1, (match result with None => Some pos | Some r => Some r end), ev1.
           split; [reflexivity|]. split; [exact G1|]. split; [exact W1|]. split; [exact S1|]. split; [exact V1|].
           split; [exact P1|]. split; [exact CP|]. intros Cp.
           destruct result as [r|].
           ++ split; [reflexivity|]. intros _. exists (S pos). split; [lia|]. rewrite TS1. lia.
           ++ exists pos. split; [reflexivity|]. exists (S pos). split; [lia|].
              rewrite TS1, (CP pos (Nat.le_refl _)). split; lia.
        -- (* a whole piece *)
           cbn [bind]. replace (Nat.min count (p_width it)) with (p_width it) by lia.
           destruct (IH s (S pos) 0 (count - p_width it) (match result with None => Some pos | Some r => Some r end)
                       (evs ++ []) G) as (s' & r' & ev & E & G' & W' & S' & V' & P' & SP & R).
           { lia. } { rewrite TS. lia. } { change (if 0 <? 0 then 1 else 0) with 0. lia. }
           exists s', r', ev. rewrite E, app_nil_r. split; [reflexivity|].
           do 5 (split; [assumption|]).
           split. { intros k K. apply SP. lia. }
           intros Cp.
           assert (L' : S pos <= length (g_pieces s')).
           { (* the prefix up to S pos still exists *)
             destruct (Nat.le_gt_cases (S pos) (length (g_pieces s'))) as [X|X]; [exact X|].
             assert (Y : total (firstn pos (g_pieces s')) = total (firstn (S pos) (g_pieces s'))).
             { rewrite !firstn_all2 by lia. reflexivity. }
             rewrite (SP pos), (SP (S pos)) in Y by lia. lia. }
           destruct (Nat.eq_dec count (p_width it)) as [Ec|Ec].
           ++ assert (Hr : r' = match result with None => Some pos | Some r => Some r end).
              { rewrite Ec, Nat.sub_diag in E. destruct fuel; cbn [split_loop] in E; injection E as _ -> _; reflexivity. }
              destruct result as [r|].
              ** split; [exact Hr|]. intros _. exists (S pos). split; [lia|]. rewrite SP by lia. lia.
              ** exists pos. split; [exact Hr|]. exists (S pos). split; [lia|].
                 rewrite (SP pos), (SP (S pos)) by lia. split; lia.
           ++ assert (R0 := R ltac:(lia)). clear R. destruct result as [r|].
              ** destruct R0 as [R1 R2]. split; [exact R1|]. intros _.
                 destruct (R2 eq_refl) as (rr & Q1 & Q2). exists rr. split; [lia|]. rewrite Q2, TS. lia.
              ** destruct R0 as [R1 R2]. exists pos. split; [exact R1|].
                 destruct (R2 eq_refl) as (rr & Q1 & Q2). exists rr. split; [lia|].
                 rewrite (SP pos) by lia. split; [lia|]. rewrite Q2, TS. lia.
Qed.

Lemma split_ok mem junk now (s : signal A) off count :
  length junk = 8 -> ginv now s -> 0 < count -> off + count <= g_width s ->
  exists s' r ev, split_nexus mem junk now s off count = Ok (s', Some r, ev) /\
    ginv now s' /\ g_width s' = g_width s /\ g_size s' = g_size s /\
    (forall i, view mem s' i = view mem s i) /\
    covers s' r off count /\
    Permutation (pending_times s') (pending_times s ++ map (fun d => now + d) ev).
Proof.
  intros J G Hc Hw. unfold split_nexus.
  pose proof (gi_ne _ _ G) as NE. pose proof (gi_tot _ _ G) as T.
  destruct (g_pieces s) as [|n0 ps] eqn:Ep; [congruence|].
  destruct ((off =? 0) && (p_width n0 =? count)) eqn:F1.
  { apply andb_prop in F1. destruct F1 as [E1 E2]. apply Nat.eqb_eq in E1, E2. subst off.
    exists s, 0, []. rewrite app_nil_r. do 5 (split; [auto|]).
    split; [|reflexivity]. exists 1. rewrite Ep. cbn. unfold total. cbn. repeat split; lia. }
  destruct ((off =? 0) && (count =? g_width s)) eqn:F2.
  { apply andb_prop in F2. destruct F2 as [E1 E2]. apply Nat.eqb_eq in E1, E2. subst off.
    exists s, 0, []. rewrite app_nil_r. do 5 (split; [auto|]).
    split; [|reflexivity]. exists (length (n0 :: ps)). rewrite Ep, firstn_all, T. cbn. repeat split; lia. }
  destruct (lookup_ok now s off G ltac:(lia)) as (pos & off' & ix & E & Hp & Ht & G1 & _).
  rewrite E. cbn [bind]. rewrite <- Ep.
  set (s1 := Signal (g_size s) (g_width s) (g_pieces s) ix (g_next s)) in *.
  destruct (loop_ok mem junk now J (S (S (length (g_pieces s1)))) s1 pos off' count None [] G1)
    as (s' & r & ev & E' & G' & W' & S' & V' & P' & _ & R).
  { subst s1. cbn [g_pieces]. lia. }
  { subst s1. cbn [g_pieces g_width]. lia. }
  { subst s1. cbn [g_pieces]. destruct (0 <? off'); lia. }
  destruct (R Hc) as (r0 & -> & C). exists s', r0, ev. split; [exact E'|].
  split; [exact G'|]. split; [exact W'|]. split; [exact S'|]. split; [exact V'|].
  split; [|exact P']. subst s1. cbn [g_pieces] in C. rewrite Ht in C. exact C.
Qed.

Lemma fresh_inv now size width (attr : A) sens srcs :
  0 < size -> 0 < width -> Forall (plain now (width * size)) srcs ->
  ginv now (fresh_signal size width attr sens srcs).
Proof.
  intros S W F. split; cbn [fresh_signal g_size g_width g_pieces g_index g_next].
  - exact S.
  - cbn. repeat split. exact W.
  - unfold total. cbn. lia.
  - repeat constructor. easy.
  - repeat constructor.
  - constructor; [exact F|constructor].
  - exact I.
  - discriminate.
Qed.

Lemma simulate_inv now now' (s : signal A) contents : ginv now s ->
  (forall p, In p (g_pieces s) -> Forall (plain now' (p_width p * p_size p)) (snd (contents (p_id p)))) ->
  ginv now' (simulate contents s).
Proof.
  intros G F. destruct G as [Hsz Hlay Htot Hids Hnext Hsrc Hix Hne].
  set (f := fun p : piece A => let '(a, sn, l) := contents (p_id p) in
                   Piece (p_id p) (p_width p) (p_size p) (p_off p) a sn l).
  assert (Fid : forall p, p_id (f p) = p_id p) by (intros p; unfold f; now destruct (contents (p_id p)) as [[a b] c]).
  assert (Fw : forall p, p_width (f p) = p_width p) by (intros p; unfold f; now destruct (contents (p_id p)) as [[a b] c]).
  assert (Fs : forall p, p_size (f p) = p_size p) by (intros p; unfold f; now destruct (contents (p_id p)) as [[a b] c]).
  assert (Fo : forall p, p_off (f p) = p_off p) by (intros p; unfold f; now destruct (contents (p_id p)) as [[a b] c]).
  assert (Fl : forall p, p_srcs (f p) = snd (contents (p_id p))) by (intros p; unfold f; now destruct (contents (p_id p)) as [[a b] c]).
  assert (St : forall ps off, starts off (map f ps) = starts off ps).
  { induction ps as [|p ps IH]; intros off; cbn [map starts]; [reflexivity|]. now rewrite Fid, Fw, IH. }
  assert (Lay : forall ps off, laid_out (g_size s) off ps -> laid_out (g_size s) off (map f ps)).
  { induction ps as [|p ps IH]; intros off L; cbn [map laid_out] in *; [exact I|].
    rewrite Fw, Fs, Fo. destruct L as (L1 & L2 & L3 & L4). repeat split; auto. }
  split; cbn [simulate g_size g_width g_pieces g_index g_next]; fold f.
  - exact Hsz.
  - now apply Lay.
  - rewrite <- Htot. unfold total. rewrite map_map. f_equal. apply map_ext. exact Fw.
  - rewrite map_map. erewrite map_ext; [exact Hids|exact Fid].
  - apply Forall_map. eapply Forall_impl; [|exact Hnext]. cbn. intros p. now rewrite Fid.
  - apply Forall_map, Forall_forall. intros p Ip. rewrite Fw, Fs, Fl. now apply F.
  - destruct (g_index s) as [i|]; [|exact I]. unfold ix_ok in *. rewrite St. exact Hix.
  - destruct (g_pieces s); [congruence|discriminate].
Qed.

Lemma reachable_inv now (s : signal A) : reachable now s -> ginv now s.
Proof.
  induction 1 as [now size width attr sens srcs S W F|now now' s contents R IH F|now s mem junk off count s' r ev R IH J C W E].
  - now apply fresh_inv.
  - eapply simulate_inv; eassumption.
  - destruct (split_ok mem junk now s off count J IH C W) as (s1 & r1 & ev1 & E1 & G1 & _).
    rewrite E1 in E. injection E as <- _ _. exact G1.
Qed.

(* ---- with and without the index ---- *)

Definition same (s t : signal A) : Prop :=
  g_size s = g_size t /\ g_width s = g_width t /\ g_pieces s = g_pieces t /\ g_next s = g_next t.

Lemma clone_same mem junk now s t pos off s' t' e e' : same s t ->
  clone_nexus mem junk now s pos off = Ok (s', e) -> clone_nexus mem junk now t pos off = Ok (t', e') ->
  same s' t' /\ e = e'.
Proof.
  intros (S1 & S2 & S3 & S4). unfold clone_nexus. rewrite S3, S4, S1, S2.
  destruct (nth_error (g_pieces t) pos) as [p|]; [|discriminate].
  destruct (off <? p_width p); [|discriminate]. cbn zeta.
  destruct (clone_sources _ _ _ _ _ _ _) as [[[a b] c]|]; [|discriminate]. cbn [bind].
  destruct (reindex _ _ (g_index s) _ _) as [x|]; [|discriminate]. cbn [bind].
  destruct (reindex _ _ (g_index t) _ _) as [y|]; [|discriminate]. cbn [bind].
  intros [= <- <-] [= <- <-]. repeat split.
Qed.

Lemma loop_same mem junk now : forall fuel s t pos off count r evs s' t' r1 r2 e1 e2, same s t ->
  split_loop fuel mem junk now s pos off count r evs = Ok (s', r1, e1) ->
  split_loop fuel mem junk now t pos off count r evs = Ok (t', r2, e2) ->
  same s' t' /\ r1 = r2 /\ e1 = e2.
Proof.
  induction fuel as [|fuel IH]; intros s t pos off count r evs s' t' r1 r2 e1 e2 S H1 H2; cbn [split_loop] in *.
  - destruct (count =? 0); [|discriminate]. injection H1 as <- <- <-. injection H2 as <- <- <-. auto.
  - destruct (count =? 0).
    { injection H1 as <- <- <-. injection H2 as <- <- <-. auto. }
    pose proof S as (_ & _ & S3 & _). rewrite S3 in H1.
    destruct (nth_error (g_pieces t) pos) as [it|]; [|discriminate].
    destruct (p_width it <=? off); [eapply IH; eassumption|].
    destruct (0 <? off).
    + destruct (clone_nexus mem junk now s pos off) as [[s1 ev1]|] eqn:C1; [|discriminate].
      destruct (clone_nexus mem junk now t pos off) as [[t1 ev2]|] eqn:C2; [|discriminate].
      cbn [bind] in *. destruct (clone_same _ _ _ _ _ _ _ _ _ _ _ S C1 C2) as [S' <-].
      eapply IH; eassumption.
    + destruct (count <? p_width it).
      * destruct (clone_nexus mem junk now s pos count) as [[s1 ev1]|] eqn:C1; [|discriminate].
        destruct (clone_nexus mem junk now t pos count) as [[t1 ev2]|] eqn:C2; [|discriminate].
        cbn [bind] in *. destruct (clone_same _ _ _ _ _ _ _ _ _ _ _ S C1 C2) as [S' <-].
        eapply IH; eassumption.
      * cbn [bind] in *. eapply IH; eassumption.
Qed.

Lemma loop_more mem junk now : forall fuel (s : signal A) pos off count r evs x k,
  split_loop fuel mem junk now s pos off count r evs = Ok x ->
  split_loop (fuel + k) mem junk now s pos off count r evs = Ok x.
Proof.
  induction fuel as [|fuel IH]; intros s pos off count r evs x k H; cbn [split_loop Nat.add] in *.
  - destruct (count =? 0) eqn:C; [|discriminate]. destruct k; cbn [split_loop]; now rewrite C.
  - destruct (count =? 0); [exact H|].
    destruct (nth_error (g_pieces s) pos) as [it|]; [|discriminate].
    destruct (p_width it <=? off); [now apply IH|].
    destruct (0 <? off).
    + destruct (clone_nexus mem junk now s pos off) as [[s1 ev1]|]; [|discriminate].
      cbn [bind] in *. now apply IH.
    + destruct (if count <? p_width it then clone_nexus mem junk now s pos count else Ok (s, [])) as [[s1 ev1]|];
        [|discriminate].
      cbn [bind] in *. now apply IH.
Qed.

Lemma loop_skip mem junk now (s : signal A) count r evs : 0 < count -> forall pos fuel off,
  pos <= length (g_pieces s) ->
  forall n, n <= pos ->
  split_loop (n + fuel) mem junk now s (pos - n) (total (firstn pos (g_pieces s)) - total (firstn (pos - n) (g_pieces s)) + off)
    count r evs = split_loop fuel mem junk now s pos off count r evs.
Proof.
  intros C pos fuel off L. induction n as [|n IH]; intros N.
  - rewrite Nat.sub_0_r, Nat.sub_diag. reflexivity.
  - rewrite <- IH by lia. change (S n + fuel) with (S (n + fuel)). cbn [split_loop].
    replace (count =? 0) with false by (symmetry; apply Nat.eqb_neq; lia).
    destruct (nth_error (g_pieces s) (pos - S n)) as [it|] eqn:NE.
    2:{ apply nth_error_None in NE. lia. }
    pose proof (total_firstn_S _ _ _ NE) as TS. replace (S (pos - S n)) with (pos - n) in * by lia.
    assert (M : total (firstn (pos - n) (g_pieces s)) <= total (firstn pos (g_pieces s))).
    { pose proof (firstn_skipn (pos - n) (firstn pos (g_pieces s))) as X.
      rewrite firstn_firstn in X. replace (Nat.min (pos - n) pos) with (pos - n) in X by lia.
      rewrite <- X, total_app. lia. }
    match goal with |- context [p_width it <=? ?e] => replace (p_width it <=? e) with true by (symmetry; apply Nat.leb_le; lia) end.
    f_equal. lia.
Qed.

Lemma split_same mem junk now (s : signal A) off count :
  length junk = 8 -> ginv now s -> 0 < count -> off + count <= g_width s ->
  exists s1 s2 r ev, split_nexus mem junk now s off count = Ok (s1, Some r, ev) /\
    split_nexus mem junk now (drop_index s) off count = Ok (s2, Some r, ev) /\
    g_pieces s1 = g_pieces s2.
Proof.
  intros J G C W.
  assert (Gd : ginv now (drop_index s)) by (destruct G; split; cbn; auto).
  destruct (split_ok mem junk now s off count J G C W) as (s1 & r1 & ev1 & E1 & _).
  destruct (split_ok mem junk now (drop_index s) off count J Gd C W) as (s2 & r2 & ev2 & E2 & _).
  rewrite E1, E2. exists s1, s2, r1, ev1. split; [reflexivity|].
  enough (same s1 s2 /\ Some r1 = Some r2 /\ ev1 = ev2) as ((_ & _ & X & _) & Y & Z).
  { split; [congruence|exact X]. }
  unfold split_nexus in E1, E2. cbn [drop_index g_pieces g_width g_size g_next] in E2.
  destruct (g_pieces s) as [|n0 ps] eqn:Ep; [discriminate|].
  destruct ((off =? 0) && (p_width n0 =? count)).
  { injection E1 as <- <- <-. injection E2 as <- <- <-. repeat split; auto. }
  destruct ((off =? 0) && (count =? g_width s)).
  { injection E1 as <- <- <-. injection E2 as <- <- <-. repeat split; auto. }
  destruct (lookup_ok now s off G ltac:(lia)) as (pos & off' & ix & E & Hp & Ht & G1 & _).
  rewrite E in E1. unfold lookup_index in E2. cbn [g_index bind drop_index] in *. rewrite <- Ep in *.
  set (t := Signal (g_size s) (g_width s) (g_pieces s) None (g_next s)) in *.
  set (u := Signal (g_size s) (g_width s) (g_pieces s) ix (g_next s)) in *.
  assert (SM : same u t) by (repeat split).
  pose proof (loop_skip mem junk now t count None [] C pos (S (S (length (g_pieces s)))) off' ltac:(cbn; lia) pos
                (Nat.le_refl _)) as SK.
  rewrite Nat.sub_diag in SK. cbn [firstn] in SK. change (total []) with 0 in SK. rewrite Nat.sub_0_r in SK.
  cbn [g_pieces t] in SK. rewrite Ht in SK. rewrite Nat.add_comm in SK.
  rewrite (loop_more _ _ _ _ _ _ _ _ _ _ _ pos E2) in SK. symmetry in SK.
  eapply loop_same; [exact SM|exact E1|exact SK].
Qed.
End Sig.
