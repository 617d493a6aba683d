(* Invariants of the concurrent identifier table. *)
From Coq Require Import List NArith Arith Bool Lia ZifyNat ZifyN ZifyBool.
From Verif Require Import Base InternModel InternSpec.
Import ListNotations.

Definition content (st : sys) (c s : nat) : option nat := fst (tslot (tabs st c) s).
Definition moved (st : sys) (c s : nat) : bool := snd (tslot (tabs st c) s).
Definition size (st : sys) (c : nat) : nat := tsize (tabs st c).

Lemma opt_eqb_spec a b : reflect (a = b) (opt_eqb a b).
Proof.
  destruct a as [x|], b as [y|]; cbn; try (constructor; congruence).
  destruct (Nat.eqb_spec x y); constructor; congruence.
Qed.
Lemma beq_spec a b : reflect (a = b) (beq a b).
Proof. unfold beq. destruct (list_eq_dec N.eq_dec a b); constructor; assumption. Qed.

Section Proofs.
Variable hash : bytes -> N.

(* The probe sequence. *)
Fixpoint chain (b : bytes) (sz k : nat) : nat :=
  match k with O => first_slot hash b sz | S k' => (chain b sz k' + S k') mod sz end.

Lemma chain_lt b sz k : 0 < sz -> chain b sz k < sz.
Proof.
  intros H. destruct k; cbn [chain].
  - unfold first_slot. assert (hash b mod N.of_nat sz < N.of_nat sz)%N by (apply N.mod_lt; lia). lia.
  - apply Nat.mod_upper_bound. lia.
Qed.

Definition tabgood (st : sys) (c : nat) : Prop :=
  0 < size st c /\
  (forall s x, s < size st c -> content st c s = Some x -> x < length (ids st)) /\
  (forall s s' x x', s < size st c -> s' < size st c ->
    content st c s = Some x -> content st c s' = Some x' -> bytes_of st x = bytes_of st x' -> s = s') /\
  (forall s x, s < size st c -> content st c s = Some x ->
    exists k, chain (bytes_of st x) (size st c) k = s /\
      forall j, j < k -> content st c (chain (bytes_of st x) (size st c) j) <> None).

Lemma tg_pos st c : tabgood st c -> 0 < size st c.
Proof. intros H. apply H. Qed.
Lemma tg_ids st c : tabgood st c -> forall s x, s < size st c -> content st c s = Some x -> x < length (ids st).
Proof. intros H. apply H. Qed.
Lemma tg_inj st c : tabgood st c -> forall s s' x x', s < size st c -> s' < size st c ->
    content st c s = Some x -> content st c s' = Some x' -> bytes_of st x = bytes_of st x' -> s = s'.
Proof. intros H. apply H. Qed.
Lemma tg_chain st c : tabgood st c -> forall s x, s < size st c -> content st c s = Some x ->
    exists k, chain (bytes_of st x) (size st c) k = s /\
      forall j, j < k -> content st c (chain (bytes_of st x) (size st c) j) <> None.
Proof. intros H. apply H. Qed.

Definition unmoved (st : sys) (c : nat) : Prop := forall s, s < size st c -> moved st c s = false.
Definition stale (st : sys) (c : nat) : Prop := forall s, s < size st c -> moved st c s = true.
Definition pub (st : sys) (c : nat) : Prop :=
  c < ntabs st /\ 0 < size st c /\ (table st = Some c \/ stale st c).

(* The first [k] slots of the chain hold other identifiers. *)
Definition clear (st : sys) (b : bytes) (c k : nat) : Prop :=
  forall j, j < k -> exists x, content st c (chain b (size st c) j) = Some x /\
    x < length (ids st) /\ bytes_of st x <> b.

Definition tinv (st : sys) (p : pc) : Prop :=
  match p with
  | Probe b u c i s => pub st c /\ 1 <= i /\ s = chain b (size st c) (i - 1) /\ clear st b c (i - 1)
  | Install b u c s => pub st c /\ exists k, s = chain b (size st c) k /\ clear st b c k
  | GrowCas b u c => pub st c
  | _ => True
  end.

Definition copier (p : pc) : Prop :=
  match p with
  | InitFin _ _ _ | CopyLoad _ _ _ _ _ | CopyProbe _ _ _ _ _ _ _ _ | CopyCas _ _ _ _ _ _ | Finish _ _ _ _ => True
  | _ => False
  end.
Definition only (st : sys) (t : nat) : Prop := forall t', t' <> t -> ~ copier (pcs st t').

(* Table [n] holds what the first [k] slots of [c] hold. *)
Definition copied (st : sys) (c n k : nat) : Prop :=
  forall x, (exists s, s < size st n /\ content st n s = Some x) <-> (exists s, s < k /\ content st c s = Some x).

Definition cpc (st : sys) (c n i : nat) (p : pc) : Prop :=
  match p with
  | CopyLoad _ _ c' n' i' => c' = c /\ n' = n /\ i' = i /\ copied st c n i
  | CopyProbe _ _ c' n' i' x s j =>
      c' = c /\ n' = n /\ i' = i /\ i < size st c /\ content st c i = Some x /\ 1 <= j /\
      s = chain (bytes_of st x) (size st n) (j - 1) /\
      (forall k, k < j - 1 -> content st n (chain (bytes_of st x) (size st n) k) <> None) /\ copied st c n i
  | CopyCas _ _ c' n' i' ov =>
      c' = c /\ n' = n /\ i' = i /\ i < size st c /\
      match ov with Some x => content st c i = Some x /\ copied st c n (S i) | None => copied st c n i end
  | Finish _ _ c' n' => c' = c /\ n' = n /\ i = size st c /\ copied st c n i
  | _ => False
  end.

Inductive mode (st : sys) : Prop :=
| Quiet : table st = resizing st -> (forall t, ~ copier (pcs st t)) ->
    (forall c, table st = Some c -> c < ntabs st /\ tabgood st c /\ unmoved st c) -> mode st
| Initing t b u n : table st = None -> resizing st = Some n -> pcs st t = InitFin b u n -> only st t ->
    n < ntabs st -> 0 < size st n -> (forall s, tslot (tabs st n) s = (None, false)) -> mode st
| Copying t c n i : table st = Some c -> resizing st = Some n -> c <> n -> c < ntabs st -> n < ntabs st ->
    only st t -> tabgood st c -> tabgood st n -> unmoved st n -> i <= size st c ->
    (forall s, s < size st c -> moved st c s = (s <? i)) -> cpc st c n i (pcs st t) -> mode st.

Definition loginv (st : sys) : Prop :=
  uniq_fresh (log st) /\
  forall e x, In e (log st) -> e_result e = Some x ->
    bytes_of st x = e_bytes e /\ x < length (ids st) /\
    exists c s, table st = Some c /\ s < size st c /\ content st c s = Some x.

Record inv (st : sys) : Prop := {
  i_t : forall t, tinv st (pcs st t);
  i_m : mode st;
  i_l : loginv st }.

(* ---- monotonicity ---- *)

Record ext (st st' : sys) : Prop := {
  x_tabs : ntabs st <= ntabs st';
  x_size : forall c, c < ntabs st -> size st' c = size st c;
  x_content : forall c s x, c < ntabs st -> content st c s = Some x -> content st' c s = Some x;
  x_ids : exists l, ids st' = ids st ++ l }.

Lemma bytes_ext st st' x : ext st st' -> x < length (ids st) -> bytes_of st' x = bytes_of st x.
Proof. intros [_ _ _ [l E]] H. unfold bytes_of. rewrite E, app_nth1 by exact H. reflexivity. Qed.

Lemma tinv_ext st st' p : ext st st' -> (forall c, pub st c -> pub st' c) -> tinv st p -> tinv st' p.
Proof.
  intros X P. assert (C : forall b c k, pub st c -> clear st b c k -> clear st' b c k).
  { intros b c k Hc H j Hj. destruct (H j Hj) as (x & E & L & N). exists x.
    rewrite (x_size _ _ X) by apply Hc. split; [apply (x_content _ _ X); [apply Hc|exact E]|].
    rewrite (bytes_ext _ _ _ X L). split; [|exact N]. destruct (x_ids _ _ X) as [l ->]. rewrite app_length. lia. }
  destruct p; cbn [tinv]; auto.
  - intros (H1 & H2 & -> & H4). rewrite (x_size _ _ X) by apply H1. auto 6.
  - intros (H1 & k & -> & H4). split; [auto|]. exists k. rewrite (x_size _ _ X) by apply H1. auto.
Qed.

Lemma ext_refl st st' : tabs st' = tabs st -> ntabs st' = ntabs st -> ids st' = ids st -> ext st st'.
Proof.
  intros E1 E2 E3. constructor; intros; unfold size, content in *; try rewrite E1; try rewrite E2; auto.
  exists []. now rewrite app_nil_r.
Qed.

(* Steps that only change thread [t], which is not copying. *)
Lemma inv_pc st t p : inv st -> ~ copier (pcs st t) -> ~ copier p -> tinv st p -> inv (set_pc st t p).
Proof.
  intros [It Im Il] N N' Hp. set (st' := set_pc st t p).
  assert (X : ext st st') by (apply ext_refl; reflexivity).
  assert (P : forall c, pub st c -> pub st' c) by (intros c H; exact H).
  constructor.
  - intros t'. cbn. unfold upd. destruct (Nat.eqb_spec t' t) as [->|D]; eapply tinv_ext; eauto.
  - assert (Ot : forall t', ~ copier (pcs st t') -> ~ copier (pcs st' t')).
    { intros t' H. cbn. unfold upd. destruct (Nat.eqb_spec t' t); auto. }
    destruct Im as [E C T|t0 b u n Et Er Ep O L S F|t0 c n i Et Er Ne Lc Ln O Gc Gn Un Li Mc Cp].
    + apply Quiet; auto. 
    + assert (D : t0 <> t) by (intros ->; rewrite Ep in N; apply N; exact I).
      apply (Initing st' t0 b u n); auto.
      * cbn. now rewrite upd_other.
      * intros t' H. auto.
    + assert (D : t0 <> t) by (intros ->; apply N; destruct (pcs st t); cbn in Cp; try contradiction; exact I).
      apply (Copying st' t0 c n i); auto.
      * intros t' H. auto.
      * cbn. rewrite upd_other by exact D. exact Cp.
  - exact Il.
Qed.

(* ---- storing an identifier in a free slot ---- *)

Lemma slot_same st c s v : tslot (tabs (set_slot st c s v) c) s = v.
Proof. cbn. rewrite upd_same. cbn. apply upd_same. Qed.
Lemma slot_other st c s v s' : s' <> s -> tslot (tabs (set_slot st c s v) c) s' = tslot (tabs st c) s'.
Proof. intros H. cbn. rewrite upd_same. cbn. now apply upd_other. Qed.
Lemma slot_tab st c s v c' s' : c' <> c -> tslot (tabs (set_slot st c s v) c') s' = tslot (tabs st c') s'.
Proof. intros H. cbn. now rewrite upd_other. Qed.
Lemma size_slot st c s v c' : size (set_slot st c s v) c' = size st c'.
Proof. unfold size. cbn. unfold upd. destruct (Nat.eqb_spec c' c) as [->|]; reflexivity. Qed.

(* The table with a new identifier at the end of its chain. *)
Lemma tabgood_store st st' c s x k :
  tabgood st c -> ext st st' -> c < ntabs st -> size st' c = size st c ->
  s < size st c -> content st' c s = Some x -> content st c s = None ->
  (forall s', s' <> s -> content st' c s' = content st c s') ->
  x < length (ids st') -> chain (bytes_of st' x) (size st c) k = s ->
  (forall j, j < k -> content st c (chain (bytes_of st' x) (size st c) j) <> None) ->
  (forall s' y, s' < size st c -> content st c s' = Some y -> bytes_of st y <> bytes_of st' x) ->
  tabgood st' c.
Proof.
  intros G X Lc Sz Ls E E0 O Lx Ck Cj Nw.
  assert (B : forall s' y, s' < size st c -> content st c s' = Some y -> bytes_of st' y = bytes_of st y).
  { intros s' y H1 H2. apply (bytes_ext _ _ _ X). exact (tg_ids _ _ G s' y H1 H2). }
  assert (Cs : forall s' y, content st' c s' = Some y -> s' = s /\ y = x \/ s' <> s /\ content st c s' = Some y).
  { intros s' y H. destruct (Nat.eq_dec s' s) as [->|D]; [left; split; congruence|right]. rewrite O in H by exact D. auto. }
  assert (M : forall s', content st c s' <> None -> content st' c s' <> None).
  { intros s' H. destruct (Nat.eq_dec s' s) as [->|D]; [congruence|]. now rewrite O. }
  unfold tabgood. rewrite Sz. split; [|split; [|split]].
  - apply G.
  - intros s' y H1 H2. destruct (Cs s' y H2) as [[-> ->]|[D H]]; [exact Lx|].
    pose proof (tg_ids _ _ G s' y H1 H). destruct (x_ids _ _ X) as [l ->]. rewrite app_length. lia.
  - intros s1 s2 y1 y2 L1 L2 H1 H2 Eb. destruct (Cs _ _ H1) as [[-> ->]|[D1 K1]]; destruct (Cs _ _ H2) as [[-> ->]|[D2 K2]]; auto.
    + exfalso. rewrite (B s2 y2 L2 K2) in Eb. exact (Nw s2 y2 L2 K2 (eq_sym Eb)).
    + exfalso. rewrite (B s1 y1 L1 K1) in Eb. exact (Nw s1 y1 L1 K1 Eb).
    + rewrite (B s1 y1 L1 K1), (B s2 y2 L2 K2) in Eb. eapply (tg_inj _ _ G); eauto.
  - intros s' y L H. destruct (Cs _ _ H) as [[-> ->]|[D K]].
    + exists k. split; [exact Ck|]. intros j Hj. apply M, Cj, Hj.
    + rewrite (B s' y L K). destruct (tg_chain _ _ G s' y L K) as (k' & E1 & E2). exists k'. split; [exact E1|].
      intros j Hj. apply M, E2, Hj.
Qed.

Lemma tabgood_same st st' c : tabgood st c -> ext st st' -> c < ntabs st ->
  (forall s, content st' c s = content st c s) -> tabgood st' c.
Proof.
  intros G X Lc E. pose proof (x_size _ _ X c Lc) as Sz.
  assert (B : forall s' y, s' < size st c -> content st c s' = Some y -> bytes_of st' y = bytes_of st y).
  { intros s' y H1 H2. apply (bytes_ext _ _ _ X). exact (tg_ids _ _ G s' y H1 H2). }
  unfold tabgood. rewrite Sz. split; [|split; [|split]].
  - apply G.
  - intros s x L H. rewrite E in H. pose proof (tg_ids _ _ G s x L H). destruct (x_ids _ _ X) as [l ->]. rewrite app_length. lia.
  - intros s s' x x' L L' H H' Eb. rewrite E in H, H'. rewrite (B s x L H), (B s' x' L' H') in Eb. eapply (tg_inj _ _ G); eauto.
  - intros s x L H. rewrite E in H. rewrite (B s x L H). destruct (tg_chain _ _ G s x L H) as (k & E1 & E2). exists k.
    split; [exact E1|]. intros j Hj. rewrite E. apply E2, Hj.
Qed.

(* ---- the steps ---- *)

Lemma pub_new st c sz r : pub st c -> pub (set_resizing (new_tab st sz) r) c.
Proof.
  intros (H1 & H2 & H3). unfold pub, stale, size, moved in *. cbn. rewrite upd_other by lia. auto.
Qed.
Lemma ext_new st sz r : ext st (set_resizing (new_tab st sz) r).
Proof.
  constructor; cbn; [lia| | |exists []; now rewrite app_nil_r]; intros c; unfold size, content; cbn.
  - intros L. now rewrite upd_other by lia.
  - intros s x L. now rewrite upd_other by lia.
Qed.

Lemma tinv_pc st t p t' : (forall t, tinv st (pcs st t)) -> tinv st p -> tinv st (upd (pcs st) t p t').
Proof. intros H Hp. unfold upd. destruct (t' =? t); auto. Qed.

Lemma step_init st t b u : inv st -> pcs st t = InitCas b u -> resizing st = None ->
  inv (set_pc (set_resizing (new_tab st INITIAL_SIZE) (Some (ntabs st))) t (InitFin b u (ntabs st))).
Proof.
  intros [It Im Il] Ep Er. set (st1 := set_resizing (new_tab st INITIAL_SIZE) (Some (ntabs st))).
  assert (X : ext st st1) by apply ext_new.
  assert (P : forall c, pub st c -> pub st1 c) by (intros; now apply pub_new).
  destruct Im as [E C T|t0 b0 u0 n Et Er' _ _ _ _ _|t0 c n i Et Er' Ne Lc Ln O Gc Gn Un Li Mc Cp]; [|congruence|congruence].
  constructor.
  - intros t'. cbn. unfold upd at 1. destruct (Nat.eqb_spec t' t); [exact I|].
    apply (tinv_ext st st1); auto.
  - apply (Initing _ t b u (ntabs st)); cbn; auto.
    + congruence.
    + apply upd_same.
    + intros t' D. cbn. rewrite upd_other by exact D. apply C.
    + unfold size. cbn. rewrite upd_same. apply Nat.ltb_lt. vm_compute. reflexivity.
    + intros s. rewrite upd_same. reflexivity.
  - split; [apply Il|]. cbn. intros e x Hin Hr. destruct Il as [_ Il]. destruct (Il e x Hin Hr) as (_ & _ & c & s & Ht & _).
    rewrite E, Er in Ht. discriminate.
Qed.

Lemma tabgood_fresh st c : 0 < size st c -> (forall s, tslot (tabs st c) s = (None, false)) -> tabgood st c.
Proof.
  intros P F. assert (N : forall s x, content st c s <> Some x) by (intros s x H; unfold content in H; rewrite F in H; discriminate).
  split; [exact P|]. split; [|split]; intros; exfalso; eapply N; eauto.
Qed.

Lemma step_initfin st t b u n : inv st -> pcs st t = InitFin b u n ->
  resizing st = Some n /\ table st = None /\
  inv (set_pc (set_table st (Some n)) t (Probe b u n 1 (first_slot hash b (tsize (tabs st n))))).
Proof.
  intros [It Im Il] Ep.
  destruct Im as [E C T|t0 b0 u0 n0 Et Er Ep0 O L S F|t0 c n0 i Et Er Ne Lc Ln O Gc Gn Un Li Mc Cp].
  { exfalso. apply (C t). rewrite Ep. exact I. }
  2:{ exfalso. destruct (Nat.eq_dec t t0) as [->|D]; [rewrite Ep in Cp; exact Cp|]. apply (O t D). rewrite Ep. exact I. }
  destruct (Nat.eq_dec t t0) as [<-|D]; [|exfalso; apply (O t D); rewrite Ep; exact I].
  rewrite Ep0 in Ep. injection Ep as -> -> ->. split; [exact Er|]. split; [exact Et|].
  set (st1 := set_table st (Some n)). assert (X : ext st st1) by (apply ext_refl; reflexivity).
  assert (P : forall c, pub st c -> pub st1 c).
  { intros c (H1 & H2 & H3). split; [exact H1|]. split; [exact H2|]. right. destruct H3 as [H3|H3]; [congruence|exact H3]. }
  assert (Pn : pub st1 n) by (split; [exact L|]; split; [exact S|now left]).
  constructor.
  - intros t'. cbn. unfold upd. destruct (Nat.eqb_spec t' t) as [_|D].
    + cbn [tinv]. split; [exact Pn|]. split; [lia|]. split; [reflexivity|]. intros j Hj. lia.
    + apply (tinv_ext st st1); auto.
  - apply Quiet; cbn.
    + now symmetry.
    + intros t'. unfold upd. destruct (Nat.eqb_spec t' t) as [_|D]; [intros []|]. apply O, D.
    + intros c [= <-]. split; [exact L|]. split.
      * apply tabgood_fresh; [exact S|exact F].
      * intros s Hs. unfold moved. cbn. rewrite F. reflexivity.
  - split; [apply Il|]. cbn. intros e x Hin Hr. destruct Il as [_ Il]. destruct (Il e x Hin Hr) as (_ & _ & c & s & Ht & _). congruence.
Qed.

Lemma in_table st c s : inv st -> pub st c -> s < size st c -> moved st c s = false -> table st = Some c /\ tabgood st c.
Proof.
  intros [It Im Il] (L & S & [T|St]) Ls M.
  - split; [exact T|]. destruct Im as [E C Tg|t0 b0 u0 n0 Et Er Ep0 O L' S' F|t0 c0 n0 i Et Er Ne Lc Ln O Gc Gn Un Li Mc Cp].
    + now apply Tg.
    + congruence.
    + rewrite Et in T. injection T as <-. exact Gc.
  - rewrite (St s Ls) in M. discriminate.
Qed.

Lemma mode_log st t b u r : mode (set_pc st t Idle) -> mode (finish_req st t b u r).
Proof.
  intros [E C T|t0 b0 u0 n0 Et Er Ep0 O L S F|t0 c0 n0 i Et Er Ne Lc Ln O Gc Gn Un Li Mc Cp].
  - apply Quiet; assumption.
  - apply (Initing _ t0 b0 u0 n0); assumption.
  - apply (Copying _ t0 c0 n0 i); assumption.
Qed.

(* An identifier that is found. *)
Lemma step_found st t b u c i s x : inv st -> pcs st t = Probe b u c i s ->
  tslot (tabs st c) s = (Some x, false) -> bytes_of st x = b ->
  inv (finish_req st t b u (if u then None else Some x)).
Proof.
  intros I Ep Es Eb. pose proof (i_t _ I t) as H. rewrite Ep in H. destruct H as (P & Hi & Hs & Cl).
  assert (Ls : s < size st c) by (rewrite Hs; apply chain_lt, P).
  destruct (in_table st c s I P Ls) as [T G]; [unfold moved; now rewrite Es|].
  assert (I1 : inv (set_pc st t Idle)) by (apply inv_pc; [exact I|rewrite Ep; intros []|intros []|exact Logic.I]).
  destruct I1 as [It Im [Lf Il]]. constructor; [exact It|exact (mode_log _ _ _ _ _ Im)|].
  split.
  - cbn. split; [|split; [|exact Lf]].
    + intros ->. intros y e' [=].
    + intros ->. discriminate.
  - cbn. intros e y [<-|Hin] Hr.
    + cbn in Hr |- *. destruct u; [discriminate|]. injection Hr as <-. split; [exact Eb|].
      assert (Ec : content st c s = Some x) by (unfold content; now rewrite Es).
      split; [exact (tg_ids _ _ G s x Ls Ec)|]. exists c, s. auto.
    + exact (Il e y Hin Hr).
Qed.

(* An identifier that is installed. *)
Lemma step_install st t b u c s : inv st -> pcs st t = Install b u c s ->
  tslot (tabs st c) s = (None, false) ->
  inv (finish_req (set_slot (add_id st b) c s (Some (length (ids st)), false)) t b u (Some (length (ids st)))).
Proof.
  intros I Ep Es. pose proof (i_t _ I t) as H. rewrite Ep in H. destruct H as (P & k & Hs & Cl).
  assert (Ls : s < size st c) by (rewrite Hs; apply chain_lt, P).
  destruct (in_table st c s I P Ls) as [T G]; [unfold moved; now rewrite Es|].
  assert (Ec : content st c s = None) by (unfold content; now rewrite Es).
  set (x := length (ids st)). set (st1 := set_slot (add_id st b) c s (Some x, false)).
  assert (Cs : forall c' s', content st1 c' s' = if (c' =? c) && (s' =? s) then Some x else content st c' s').
  { intros c' s'. unfold content. destruct (Nat.eqb_spec c' c) as [->|D]; cbn [andb].
    - destruct (Nat.eqb_spec s' s) as [->|D'].
      + unfold st1. now rewrite slot_same.
      + unfold st1. now rewrite slot_other.
    - unfold st1. now rewrite slot_tab. }
  assert (Ms : forall c' s', moved st1 c' s' = moved st c' s').
  { intros c' s'. unfold moved. destruct (Nat.eq_dec c' c) as [->|D].
    - destruct (Nat.eq_dec s' s) as [->|D'].
      + unfold st1. rewrite slot_same. now rewrite Es.
      + unfold st1. now rewrite slot_other.
    - unfold st1. now rewrite slot_tab. }
  assert (Sz : forall c', size st1 c' = size st c') by (intros; unfold st1; rewrite size_slot; reflexivity).
  assert (X : ext st st1).
  { constructor; cbn; [lia|auto| |exists [b]; reflexivity]. intros c' s' y Lc' H. rewrite Cs.
    destruct (Nat.eqb_spec c' c) as [->|D]; cbn [andb]; [|exact H]. destruct (Nat.eqb_spec s' s) as [->|D]; [congruence|exact H]. }
  assert (Pb : forall c', pub st c' -> pub st1 c').
  { intros c' (H1 & H2 & H3). split; [exact H1|]. split; [now rewrite Sz|]. destruct H3 as [H3|H3]; [now left|right].
    intros s' Hs'. rewrite Ms. apply H3. now rewrite Sz in Hs'. }
  assert (Bx : bytes_of st1 x = b). { unfold bytes_of, st1. cbn. rewrite app_nth2 by (unfold x; lia). unfold x. now rewrite Nat.sub_diag. }
  assert (G1 : tabgood st1 c).
  { apply (tabgood_store st st1 c s x k); auto.
    - apply P.
    - rewrite Cs, !Nat.eqb_refl. reflexivity.
    - intros s' D. rewrite Cs. apply Nat.eqb_neq in D. rewrite D, andb_false_r. reflexivity.
    - unfold st1. cbn. rewrite app_length. cbn. unfold x. lia.
    - rewrite Bx. auto.
    - rewrite Bx. intros j Hj. destruct (Cl j Hj) as (y & -> & _). discriminate.
    - rewrite Bx. intros s' y Ls' Hy Eb. destruct (tg_chain _ _ G s' y Ls' Hy) as (k' & E1 & E2). rewrite Eb in E1, E2.
      destruct (Nat.lt_trichotomy k' k) as [H|[H|H]].
      + destruct (Cl k' H) as (z & Hz & _ & Nz). rewrite E1 in Hz. rewrite Hy in Hz. injection Hz as <-. contradiction.
      + subst k'. rewrite <- Hs in E1. subst s'. congruence.
      + apply (E2 k H). rewrite <- Hs. exact Ec. }
  assert (Ot : forall t', ~ copier (pcs st t') -> ~ copier (upd (pcs st) t Idle t')).
  { intros t' Ht. unfold upd. destruct (t' =? t); [intros []|exact Ht]. }
  destruct I as [It Im [Lf Il]]. constructor.
  - intros t'. cbn. unfold upd. destruct (Nat.eqb_spec t' t); [exact Logic.I|].
    change (tinv st1 (pcs st t')). apply (tinv_ext st); auto.
  - destruct Im as [E C Tg|t0 b0 u0 n0 Et Er Ep0 O L' S' F|t0 c0 n0 i Et Er Ne Lc Ln O Gc Gn Un Li Mc Cp].
    + apply Quiet; cbn; auto. intros c' Hc'. rewrite T in Hc'. injection Hc' as <-. split; [apply P|]. split; [exact G1|].
      intros s' Hs'. change (moved st1 c s' = false). rewrite Ms. apply (Tg c T). change (s' < size st1 c) in Hs'. now rewrite Sz in Hs'.
    + congruence.
    + assert (c0 = c) by congruence. subst c0.
      assert (D : t0 <> t). { intros ->. rewrite Ep in Cp. exact Cp. }
      assert (Hsi : i <= s). { assert (Hm : moved st c s = false) by (unfold moved; now rewrite Es). rewrite Mc in Hm by exact Ls. destruct (Nat.ltb_spec s i); [discriminate|lia]. }
      assert (Cn : forall s', content st1 n0 s' = content st n0 s') by (intros; rewrite Cs; destruct (Nat.eqb_spec n0 c); [congruence|reflexivity]).
      assert (Co : forall s', s' <> s -> content st1 c s' = content st c s').
      { intros s' Ds. rewrite Cs. apply Nat.eqb_neq in Ds. rewrite Ds, andb_false_r. reflexivity. }
      assert (Gn1 : tabgood st1 n0) by (apply (tabgood_same st st1); auto).
      assert (Cp' : forall m, m <= s -> copied st c n0 m -> copied st1 c n0 m).
      { intros m Hm H y. rewrite Sz. split.
        - intros (s' & H1 & H2). rewrite Cn in H2. destruct (proj1 (H y)) as (s2 & H3 & H4); [eauto|].
          exists s2. split; [exact H3|]. rewrite Co by lia. exact H4.
        - intros (s' & H1 & H2). rewrite Co in H2 by lia. destruct (proj2 (H y)) as (s2 & H3 & H4); [eauto|].
          exists s2. rewrite Cn. auto. }
      apply (Copying _ t0 c n0 i); cbn; auto.
      * intros t' D'. apply Ot, O, D'.
      * intros s' Hs'. change (moved st1 n0 s' = false). rewrite Ms. apply Un. change (s' < size st1 n0) in Hs'. now rewrite Sz in Hs'.
      * change (i <= size st1 c). now rewrite Sz.
      * intros s' Hs'. change (moved st1 c s' = (s' <? i)). rewrite Ms. apply Mc. change (s' < size st1 c) in Hs'. now rewrite Sz in Hs'.
      * rewrite upd_other by exact D. change (cpc st1 c n0 i (pcs st t0)).
        destruct (pcs st t0) as [ | | | | | | |b' u' c' n' i'|b' u' c' n' i' y s' j|b' u' c' n' i' ov|b' u' c' n'| | ] eqn:Epc; cbn [cpc] in Cp |- *; try contradiction.
        -- destruct Cp as (H1 & H2 & H3 & H4). auto.
        -- destruct Cp as (H1 & H2 & H3 & H4 & H5 & H6 & H7 & H8 & H9).
           assert (Ly : y < length (ids st)) by exact (tg_ids _ _ Gc i y H4 H5).
           rewrite !Sz, (bytes_ext _ _ _ X Ly). do 4 (split; [auto|]).
           assert (Nis : i <> s) by (intros ->; congruence). rewrite Co by exact Nis.
           do 3 (split; [auto|]). split; [|auto]. intros m Hm. rewrite Cn. auto.
        -- destruct Cp as (H1 & H2 & H3 & H4 & H5). rewrite Sz. do 4 (split; [auto|]). destruct ov as [y|].
           ++ destruct H5 as [H5 H6]. assert (Nis : i <> s) by (intros ->; congruence). rewrite Co by exact Nis.
              split; [auto|]. apply Cp'; [lia|exact H6].
           ++ auto.
        -- destruct Cp as (H1 & H2 & H3 & H4). rewrite Sz. auto.
  - split.
    + cbn. split; [|split; [discriminate|exact Lf]]. intros _ y e' [= <-] Hin Hr.
      destruct (Il e' _ Hin Hr) as (_ & Hl & _). unfold x in Hl. lia.
    + cbn. intros e y [<-|Hin] Hr.
      * cbn in Hr |- *. injection Hr as <-. split; [exact Bx|]. split; [rewrite app_length; cbn; unfold x; lia|].
        exists c, s. split; [exact T|]. split.
        -- change (s < size st1 c). now rewrite Sz.
        -- change (content st1 c s = Some x). rewrite Cs, !Nat.eqb_refl. reflexivity.
      * destruct (Il e y Hin Hr) as (H1 & H2 & c' & s' & H3 & H4 & H5).
        split; [change (bytes_of st1 y = e_bytes e); now rewrite (bytes_ext _ _ _ X H2)|].
        split; [rewrite app_length; lia|]. exists c', s'. split; [exact H3|]. split.
        -- change (s' < size st1 c'). now rewrite Sz.
        -- apply (x_content _ _ X); [|exact H5]. assert (c' = c) by congruence. subst c'. apply P.
Qed.

(* Starting to copy. *)
Lemma step_grow st t b u c : inv st -> pcs st t = GrowCas b u c -> resizing st = Some c ->
  inv (set_pc (set_resizing (new_tab st (2 * tsize (tabs st c))) (Some (ntabs st))) t (CopyLoad b u c (ntabs st) 0)).
Proof.
  intros I0 Ep Er. pose proof (i_t _ I0 t) as P. rewrite Ep in P. cbn [tinv] in P.
  destruct I0 as [It Im [Lf Il]]. set (n := ntabs st).
  set (st1 := set_resizing (new_tab st (2 * tsize (tabs st c))) (Some n)).
  assert (X : ext st st1) by apply ext_new.
  assert (Pb : forall c, pub st c -> pub st1 c) by (intros; now apply pub_new).
  destruct Im as [E C Tg|t0 b0 u0 n0 Et Er' Ep0 O L' S' F|t0 c0 n0 i Et Er' Ne Lc Ln O Gc Gn Un Li Mc Cp].
  2:{ exfalso. assert (n0 = c) by congruence. subst n0. destruct P as (_ & _ & [P|P]); [congruence|].
      specialize (P 0 S'). unfold moved in P. rewrite F in P. discriminate. }
  2:{ exfalso. assert (n0 = c) by congruence. subst n0. destruct P as (_ & Pz & [P|P]); [congruence|].
      specialize (P 0 Pz). rewrite (Un 0 Pz) in P. discriminate. }
  rewrite Er in E. destruct (Tg c E) as (Lc & Gc & Uc).
  assert (Nc : c <> n) by (unfold n; lia).
  assert (Sn : size st1 n = 2 * size st c) by (unfold size; cbn; fold n; now rewrite upd_same).
  assert (Fn : forall s, tslot (tabs st1 n) s = (None, false)) by (intros s; cbn; fold n; now rewrite upd_same).
  assert (Gn : tabgood st1 n) by (apply tabgood_fresh; [rewrite Sn; destruct Gc; lia|exact Fn]).
  assert (Sc : tslot (tabs st1 c) = tslot (tabs st c)) by (cbn; fold n; now rewrite upd_other).
  constructor.
  - intros t'. cbn. unfold upd at 1. destruct (Nat.eqb_spec t' t); [exact I|]. apply (tinv_ext st st1); auto.
  - apply (Copying _ t c n 0); auto.
    + cbn. lia.
    + intros t' D. cbn. rewrite upd_other by exact D. apply C.
    + apply (tabgood_same st st1); auto. intros s. unfold content. now rewrite Sc.
    + intros s Hs. unfold moved. cbn -[st1]. change (snd (tslot (tabs st1 n) s) = false). now rewrite Fn.
    + lia.
    + intros s Hs. change (snd (tslot (tabs st1 c) s) = false). rewrite Sc. apply Uc.
      change (s < size st1 c) in Hs. now rewrite (x_size _ _ X) in Hs.
    + cbn. rewrite upd_same. do 3 (split; [auto|]). intros x. split.
      * intros (s & H1 & H2). change (fst (tslot (tabs st1 n) s) = Some x) in H2. rewrite Fn in H2. discriminate.
      * intros (s & H1 & _). lia.
  - split; [exact Lf|]. cbn. intros e x Hin Hr. destruct (Il e x Hin Hr) as (H1 & H2 & c' & s' & H3 & H4 & H5).
    split; [exact H1|]. split; [exact H2|]. assert (c' = c) by congruence. subst c'. exists c, s'. split; [exact H3|].
    split; [change (s' < size st1 c); now rewrite (x_size _ _ X)|]. change (content st1 c s' = Some x).
    now apply (x_content _ _ X).
Qed.

(* The copying thread. *)
Lemma copier_is st t : inv st -> copier (pcs st t) -> (forall b u n, pcs st t <> InitFin b u n) ->
  exists c n i, table st = Some c /\ resizing st = Some n /\ c <> n /\ c < ntabs st /\ n < ntabs st /\
    only st t /\ tabgood st c /\ tabgood st n /\ unmoved st n /\ i <= size st c /\
    (forall s, s < size st c -> moved st c s = (s <? i)) /\ cpc st c n i (pcs st t).
Proof.
  intros [It Im Il] K NI. destruct Im as [E C Tg|t0 b0 u0 n0 Et Er Ep0 O L' S' F|t0 c0 n0 i Et Er Ne Lc Ln O Gc Gn Un Li Mc Cp].
  - exfalso. apply (C t K).
  - exfalso. destruct (Nat.eq_dec t t0) as [->|D]; [eapply NI; eauto|apply (O t D K)].
  - destruct (Nat.eq_dec t t0) as [->|D]; [|exfalso; apply (O t D K)]. exists c0, n0, i. tauto.
Qed.

Lemma inv_copy_pc st t p c n i : inv st -> table st = Some c -> resizing st = Some n -> c <> n -> c < ntabs st -> n < ntabs st ->
  only st t -> tabgood st c -> tabgood st n -> unmoved st n -> i <= size st c ->
  (forall s, s < size st c -> moved st c s = (s <? i)) -> cpc st c n i p -> copier p -> inv (set_pc st t p).
Proof.
  intros [It Im Il] Et Er Ne Lc Ln O Gc Gn Un Li Mc Cp K. constructor.
  - intros t'. cbn. unfold upd. destruct (Nat.eqb_spec t' t).
    + destruct p; cbn in Cp; try contradiction; exact I.
    + exact (It t').
  - apply (Copying _ t c n i); auto.
    + intros t' D. cbn. rewrite upd_other by exact D. apply O, D.
    + cbn. rewrite upd_same. exact Cp.
  - exact Il.
Qed.

Lemma step_copyload st t b u c n i : inv st -> pcs st t = CopyLoad b u c n i ->
  if i =? size st c then inv (set_pc st t (Finish b u c n))
  else moved st c i = false /\
    match content st c i with
    | None => inv (set_pc st t (CopyCas b u c n i None))
    | Some x => inv (set_pc st t (CopyProbe b u c n i x (first_slot hash (bytes_of st x) (size st n)) 1))
    end.
Proof.
  intros I0 Ep. destruct (copier_is st t I0) as (c0 & n0 & i0 & Et & Er & Ne & Lc & Ln & O & Gc & Gn & Un & Li & Mc & Cp);
    [rewrite Ep; exact I|intros; congruence|].
  rewrite Ep in Cp. destruct Cp as (<- & <- & <- & Cp). destruct (Nat.eqb_spec i (size st c)) as [E|E].
  - apply (inv_copy_pc st t _ c n i); auto; [cbn; auto|exact I].
  - assert (Li' : i < size st c) by lia. split; [rewrite Mc by exact Li'; apply Nat.ltb_ge; lia|].
    destruct (content st c i) as [x|] eqn:Ec; apply (inv_copy_pc st t _ c n i); auto; try exact I; cbn [cpc].
    + do 6 (split; [auto|]). split; [reflexivity|]. split; [intros k Hk; lia|exact Cp].
    + auto 6.
Qed.

Lemma step_copyprobe st t b u c n i x s j : inv st -> pcs st t = CopyProbe b u c n i x s j ->
  moved st n s = false /\ content st n s <> Some x /\
  match content st n s with
  | None => inv (set_pc (set_slot st n s (Some x, false)) t (CopyCas b u c n i (Some x)))
  | Some _ => inv (set_pc st t (CopyProbe b u c n i x ((s + j) mod size st n) (S j)))
  end.
Proof.
  intros I0 Ep. destruct (copier_is st t I0) as (c0 & n0 & i0 & Et & Er & Ne & Lc & Ln & O & Gc & Gn & Un & Li & Mc & Cp);
    [rewrite Ep; exact I|intros; congruence|].
  rewrite Ep in Cp. destruct Cp as (<- & <- & <- & Li' & Ec & Hj & Hs & Cl & Cp).
  assert (Ls : s < size st n) by (rewrite Hs; apply chain_lt, Gn).
  assert (Nx : forall s', s' < size st n -> content st n s' <> Some x).
  { intros s' Hs' H. destruct (proj1 (Cp x)) as (s2 & H1 & H2); [eauto|].
    assert (s2 = i) by (eapply (tg_inj _ _ Gc); eauto; lia). lia. }
  split; [apply Un; exact Ls|]. split; [apply Nx, Ls|].
  destruct (content st n s) as [y|] eqn:En.
  - apply (inv_copy_pc st t _ c n i); auto; try exact I. cbn [cpc]. do 5 (split; [auto|]). split; [lia|].
    replace (S j - 1) with (S (j - 1)) by lia. cbn [chain]. rewrite <- Hs. replace (S (j - 1)) with j by lia.
    split; [reflexivity|]. split; [|exact Cp]. intros k Hk. destruct (Nat.eq_dec k (j - 1)) as [->|D].
    + rewrite <- Hs, En. discriminate.
    + apply Cl. lia.
  - set (st1 := set_slot st n s (Some x, false)).
    assert (Cn : forall s', content st1 n s' = if s' =? s then Some x else content st n s').
    { intros s'. unfold content. destruct (Nat.eqb_spec s' s) as [->|D]; unfold st1; [now rewrite slot_same|now rewrite slot_other]. }
    assert (Co : forall c' s', c' <> n -> tslot (tabs st1 c') s' = tslot (tabs st c') s') by (intros; unfold st1; now apply slot_tab).
    assert (Sz : forall c', size st1 c' = size st c') by (intros; unfold st1; apply size_slot).
    assert (Mn : forall s', s' < size st n -> moved st1 n s' = false).
    { intros s' Hs'. unfold moved. destruct (Nat.eq_dec s' s) as [->|D]; unfold st1; [now rewrite slot_same|rewrite slot_other by exact D; now apply Un]. }
    assert (X : ext st st1).
    { constructor; cbn; [lia|auto| |exists []; now rewrite app_nil_r]. intros c' s' y Lc' H.
      destruct (Nat.eq_dec c' n) as [->|D].
      - rewrite Cn. destruct (Nat.eqb_spec s' s) as [->|]; [congruence|exact H].
      - unfold content. now rewrite Co. }
    assert (Lx : x < length (ids st)) by exact (tg_ids _ _ Gc i x Li' Ec).
    assert (Bx : forall y, bytes_of st1 y = bytes_of st y) by reflexivity.
    assert (Gn1 : tabgood st1 n).
    { apply (tabgood_store st st1 n s x (j - 1)); auto.
      - rewrite Cn, Nat.eqb_refl. reflexivity.
      - intros s' D. rewrite Cn. apply Nat.eqb_neq in D. now rewrite D.
      - intros s' y Hs' Hy Eb. rewrite Bx in Eb. destruct (proj1 (Cp y)) as (s2 & H1 & H2); [eauto|].
        assert (s2 = i) by (eapply (tg_inj _ _ Gc); eauto; lia). lia. }
    assert (Gc1 : tabgood st1 c) by (apply (tabgood_same st st1); auto; intros s'; unfold content; now rewrite Co).
    assert (Cc : forall s', content st1 c s' = content st c s') by (intros; unfold content; now rewrite Co).
    assert (Pb : forall c', pub st c' -> pub st1 c').
    { intros c' (H1 & H2 & H3). split; [exact H1|]. split; [now rewrite Sz|]. destruct H3 as [H3|H3]; [now left|].
      destruct (Nat.eq_dec c' n) as [->|D].
      - exfalso. specialize (H3 0 H2). rewrite (Un 0 H2) in H3. discriminate.
      - right. intros s' Hs'. rewrite Sz in Hs'. unfold moved. rewrite Co by exact D. apply H3, Hs'. }
    destruct I0 as [It Im [Lf Il]]. constructor.
    + intros t'. cbn. unfold upd at 1. destruct (Nat.eqb_spec t' t); [exact I|]. apply (tinv_ext st st1); auto.
    + apply (Copying _ t c n i); auto.
      * intros t' D. cbn. rewrite upd_other by exact D. apply O, D.
      * intros s' Hs'. apply (Mn s'). change (s' < size st1 n) in Hs'. now rewrite Sz in Hs'.
      * change (i <= size st1 c). now rewrite Sz.
      * intros s' Hs'. change (snd (tslot (tabs st1 c) s') = (s' <? i)). rewrite Co by exact Ne. apply Mc. change (s' < size st1 c) in Hs'. now rewrite Sz in Hs'.
      * cbn -[st1]. rewrite upd_same. do 3 (split; [auto|]).
        split; [change (i < size st1 c); now rewrite Sz|]. split; [change (content st1 c i = Some x); now rewrite Cc|].
        intros y. change ((exists s', s' < size st1 n /\ content st1 n s' = Some y) <-> (exists s', s' < S i /\ content st1 c s' = Some y)).
        rewrite Sz. split.
        -- intros (s' & H1 & H2). rewrite Cn in H2. destruct (Nat.eqb_spec s' s) as [->|D].
           ++ exists i. rewrite Cc. injection H2 as <-. auto.
           ++ destruct (proj1 (Cp y)) as (s2 & H3 & H4); [eauto|]. exists s2. rewrite Cc. auto.
        -- intros (s' & H1 & H2). rewrite Cc in H2. destruct (Nat.eq_dec s' i) as [->|D].
           ++ exists s. rewrite Cn, Nat.eqb_refl. split; [exact Ls|congruence].
           ++ destruct (proj2 (Cp y)) as (s2 & H3 & H4); [exists s'; split; [lia|exact H2]|]. exists s2. split; [exact H3|].
              rewrite Cn. destruct (Nat.eqb_spec s2 s) as [->|]; [congruence|exact H4].
    + split; [exact Lf|]. cbn. intros e y Hin Hr. destruct (Il e y Hin Hr) as (H1 & H2 & c' & s' & H3 & H4 & H5).
      split; [exact H1|]. split; [exact H2|]. assert (c' = c) by congruence. subst c'. exists c, s'. split; [exact H3|].
      split; [change (s' < size st1 c); now rewrite Sz|]. change (content st1 c s' = Some y). now rewrite Cc.
Qed.

Lemma step_copycas st t b u c n i ov : inv st -> pcs st t = CopyCas b u c n i ov ->
  moved st c i = false /\
  (content st c i = ov -> inv (set_pc (set_slot st c i (content st c i, true)) t (CopyLoad b u c n (S i)))) /\
  (content st c i <> ov -> inv (set_pc st t (CopyLoad b u c n i))).
Proof.
  intros I0 Ep. destruct (copier_is st t I0) as (c0 & n0 & i0 & Et & Er & Ne & Lc & Ln & O & Gc & Gn & Un & Li & Mc & Cp);
    [rewrite Ep; exact I|intros; congruence|].
  rewrite Ep in Cp. destruct Cp as (<- & <- & <- & Li' & Cp).
  split; [rewrite Mc by exact Li'; apply Nat.ltb_ge; lia|]. split.
  - intros Eo. set (st1 := set_slot st c i (content st c i, true)).
    assert (Cc : forall s', content st1 c s' = content st c s').
    { intros s'. unfold content. destruct (Nat.eq_dec s' i) as [->|D]; unfold st1; [now rewrite slot_same|now rewrite slot_other]. }
    assert (Co : forall c' s', c' <> c -> tslot (tabs st1 c') s' = tslot (tabs st c') s') by (intros; unfold st1; now apply slot_tab).
    assert (Sz : forall c', size st1 c' = size st c') by (intros; unfold st1; apply size_slot).
    assert (Ca : forall c' s', content st1 c' s' = content st c' s').
    { intros c' s'. destruct (Nat.eq_dec c' c) as [->|D]; [apply Cc|]. unfold content. now rewrite Co. }
    assert (Mm : forall c' s', moved st c' s' = true -> moved st1 c' s' = true).
    { intros c' s' H. unfold moved. destruct (Nat.eq_dec c' c) as [->|D]; [|now rewrite Co].
      destruct (Nat.eq_dec s' i) as [->|D]; unfold st1; [now rewrite slot_same|now rewrite slot_other]. }
    assert (X : ext st st1).
    { constructor; cbn; [lia|auto| |exists []; now rewrite app_nil_r]. intros c' s' y Lc' H. now rewrite Ca. }
    assert (Pb : forall c', pub st c' -> pub st1 c').
    { intros c' (H1 & H2 & H3). split; [exact H1|]. split; [now rewrite Sz|]. destruct H3 as [H3|H3]; [now left|right].
      intros s' Hs'. rewrite Sz in Hs'. apply Mm, H3, Hs'. }
    assert (Cp1 : copied st c n (S i)).
    { destruct ov as [x|]; [apply Cp|]. intros y. rewrite (Cp y). split; intros (s' & H1 & H2).
      - exists s'. auto.
      - exists s'. split; [|exact H2]. destruct (Nat.eq_dec s' i) as [->|]; [congruence|lia]. }
    destruct I0 as [It Im [Lf Il]]. constructor.
    + intros t'. cbn. unfold upd at 1. destruct (Nat.eqb_spec t' t); [exact I|]. apply (tinv_ext st st1); auto.
    + apply (Copying _ t c n (S i)); auto.
      * intros t' D. cbn. rewrite upd_other by exact D. apply O, D.
      * apply (tabgood_same st st1); auto.
      * apply (tabgood_same st st1); auto.
      * intros s' Hs'. change (snd (tslot (tabs st1 n) s') = false). rewrite Co by auto. apply Un. change (s' < size st1 n) in Hs'. now rewrite Sz in Hs'.
      * change (S i <= size st1 c). now rewrite Sz.
      * intros s' Hs'. change (s' < size st1 c) in Hs'. rewrite Sz in Hs'. change (snd (tslot (tabs st1 c) s') = (s' <? S i)).
        unfold st1. destruct (Nat.eq_dec s' i) as [->|D].
        -- rewrite slot_same. cbn [snd]. symmetry. apply Nat.ltb_lt. lia.
        -- rewrite slot_other by exact D. fold (moved st c s'). rewrite Mc by exact Hs'.
           destruct (Nat.ltb_spec s' i), (Nat.ltb_spec s' (S i)); lia.
      * cbn -[st1]. rewrite upd_same. do 3 (split; [auto|]).
        intros y. change ((exists s', s' < size st1 n /\ content st1 n s' = Some y) <-> (exists s', s' < S i /\ content st1 c s' = Some y)).
        rewrite Sz. split.
        -- intros (s' & H1 & H2). rewrite Ca in H2. destruct (proj1 (Cp1 y)) as (s2 & H3 & H4); [eauto|]. exists s2. rewrite Ca. auto.
        -- intros (s' & H1 & H2). rewrite Ca in H2. destruct (proj2 (Cp1 y)) as (s2 & H3 & H4); [eauto|]. exists s2. rewrite Ca. auto.
    + split; [exact Lf|]. cbn. intros e y Hin Hr. destruct (Il e y Hin Hr) as (H1 & H2 & c' & s' & H3 & H4 & H5).
      split; [exact H1|]. split; [exact H2|]. exists c', s'. split; [exact H3|].
      split; [change (s' < size st1 c'); now rewrite Sz|]. change (content st1 c' s' = Some y). now rewrite Ca.
  - intros No. destruct ov as [x|]; [destruct Cp; contradiction|].
    apply (inv_copy_pc st t _ c n i); auto; [cbn; auto|exact I].
Qed.

Lemma step_finish st t b u c n : inv st -> pcs st t = Finish b u c n ->
  resizing st = Some n /\ table st = Some c /\ inv (set_pc (set_table st (Some n)) t (GetTab b u)).
Proof.
  intros I0 Ep. destruct (copier_is st t I0) as (c0 & n0 & i0 & Et & Er & Ne & Lc & Ln & O & Gc & Gn & Un & Li & Mc & Cp);
    [rewrite Ep; exact I|intros; congruence|].
  rewrite Ep in Cp. destruct Cp as (<- & <- & -> & Cp). split; [exact Er|]. split; [exact Et|].
  set (st1 := set_table st (Some n)). assert (X : ext st st1) by (apply ext_refl; reflexivity).
  assert (Pb : forall c', pub st c' -> pub st1 c').
  { intros c' (H1 & H2 & H3). split; [exact H1|]. split; [exact H2|]. right. destruct H3 as [H3|H3]; [|exact H3].
    assert (c' = c) by congruence. subst c'. intros s Hs. change (moved st c s = true). change (s < size st c) in Hs. rewrite Mc by exact Hs. now apply Nat.ltb_lt. }
  destruct I0 as [It Im [Lf Il]]. constructor.
  - intros t'. cbn. unfold upd at 1. destruct (Nat.eqb_spec t' t); [exact I|]. apply (tinv_ext st st1); auto.
  - apply Quiet; cbn.
    + now symmetry.
    + intros t'. unfold upd. destruct (Nat.eqb_spec t' t) as [_|D]; [intros []|]. apply O, D.
    + intros c' [= <-]. split; [exact Ln|]. split; [|exact Un]. apply (tabgood_same st st1); auto.
  - split; [exact Lf|]. cbn. intros e y Hin Hr. destruct (Il e y Hin Hr) as (H1 & H2 & c' & s' & H3 & H4 & H5).
    split; [exact H1|]. split; [exact H2|]. assert (c' = c) by congruence. subst c'.
    destruct (proj2 (Cp y)) as (s2 & H6 & H7); [eauto|]. exists n, s2. auto.
Qed.

(* ---- every step keeps the invariant and is defined ---- *)

Lemma step_inv st t : inv st -> exists st', step hash st t = Ok st' /\ inv st'.
Proof.
  intros I0. unfold step. destruct (pcs st t) as [|b u|b u|b u n|b u c i s|b u c s|b u c|b u c n i|b u c n i x s j|b u c n i ov|b u c n|b u|b u fr] eqn:Ep.
  - eauto.
  - destruct (table st) as [c|] eqn:Et.
    + eexists. split; [reflexivity|]. apply inv_pc; [exact I0|rewrite Ep; intros []|intros []|].
      assert (P : pub st c).
      { destruct I0 as [It Im Il]. destruct Im as [E C Tg|t0 b0 u0 n0 Et' Er Ep0 O L' S' F|t0 c0 n0 i Et' Er Ne Lc Ln O Gc Gn Un Li Mc Cp].
        - destruct (Tg c Et) as (L & G & _). split; [exact L|]. split; [apply G|now left].
        - congruence.
        - assert (c0 = c) by congruence. subst c0. split; [exact Lc|]. split; [apply Gc|now left]. }
      cbn [tinv]. split; [exact P|]. split; [lia|]. split; [reflexivity|]. intros j Hj. lia.
    + eexists. split; [reflexivity|]. apply inv_pc; [exact I0|rewrite Ep; intros []|intros []|exact I].
  - destruct (opt_eqb_spec (resizing st) None) as [E|E].
    + eexists. split; [reflexivity|]. now apply step_init.
    + eexists. split; [reflexivity|]. apply inv_pc; [exact I0|rewrite Ep; intros []|intros []|exact I].
  - destruct (step_initfin st t b u n I0 Ep) as (Er & Et & I1). rewrite Er, Et. cbn. rewrite Nat.eqb_refl. cbn. eauto.
  - pose proof (i_t _ I0 t) as H. rewrite Ep in H. destruct H as (P & Hi & Hs & Cl).
    destruct (tslot (tabs st c) s) as [[x|] [|]] eqn:Es.
    + eexists. split; [reflexivity|]. apply inv_pc; [exact I0|rewrite Ep; intros []|intros []|exact I].
    + destruct (beq_spec (bytes_of st x) b) as [Eb|Eb].
      * eexists. split; [reflexivity|]. eapply step_found; eauto.
      * assert (Ls : s < size st c) by (rewrite Hs; apply chain_lt, P).
        destruct (in_table st c s I0 P Ls) as [T G]; [unfold moved; now rewrite Es|].
        assert (Ec : content st c s = Some x) by (unfold content; now rewrite Es).
        destruct (i =? REPROBE_LIMIT).
        -- eexists. split; [reflexivity|]. apply inv_pc; [exact I0|rewrite Ep; intros []|intros []|exact P].
        -- eexists. split; [reflexivity|]. apply inv_pc; [exact I0|rewrite Ep; intros []|intros []|].
           cbn [tinv]. split; [exact P|]. split; [lia|]. replace (S i - 1) with (S (i - 1)) by lia. cbn [chain].
           rewrite <- Hs. replace (S (i - 1)) with i by lia. split; [reflexivity|]. intros j Hj.
           destruct (Nat.eq_dec j (i - 1)) as [->|D]; [|apply Cl; lia]. rewrite <- Hs. exists x.
           split; [exact Ec|]. split; [exact (tg_ids _ _ G s x Ls Ec)|exact Eb].
    + eexists. split; [reflexivity|]. apply inv_pc; [exact I0|rewrite Ep; intros []|intros []|exact I].
    + eexists. split; [reflexivity|]. apply inv_pc; [exact I0|rewrite Ep; intros []|intros []|].
      cbn [tinv]. split; [exact P|]. eauto.
  - destruct (tslot (tabs st c) s) as [[x|] [|]] eqn:Es; try (eexists; split; [reflexivity|]; apply inv_pc; [exact I0|rewrite Ep; intros []|intros []|exact I]).
    eexists. split; [reflexivity|]. now apply step_install.
  - destruct (opt_eqb_spec (resizing st) (Some c)) as [E|E].
    + eexists. split; [reflexivity|]. now apply step_grow.
    + eexists. split; [reflexivity|]. apply inv_pc; [exact I0|rewrite Ep; intros []|intros []|exact I].
  - pose proof (step_copyload st t b u c n i I0 Ep) as H. unfold size in H at 1. destruct (i =? tsize (tabs st c)); [eauto|].
    destruct H as [M H]. unfold moved, content in *. destruct (tslot (tabs st c) i) as [[x|] [|]]; cbn in *; try discriminate; eauto.
  - destruct (step_copyprobe st t b u c n i x s j I0 Ep) as (M & Nx & H). unfold moved, content in *.
    destruct (tslot (tabs st n) s) as [[y|] [|]]; cbn in *; try discriminate; [|eauto].
    destruct (Nat.eqb_spec y x) as [->|]; [congruence|]. eauto.
  - destruct (step_copycas st t b u c n i ov I0 Ep) as (M & H1 & H2). unfold moved, content in *.
    destruct (tslot (tabs st c) i) as [v [|]]; cbn [fst snd] in *; [discriminate|].
    destruct (opt_eqb_spec v ov) as [E|E]; eauto.
  - destruct (step_finish st t b u c n I0 Ep) as (Er & Et & I1). rewrite Er, Et. cbn. rewrite !Nat.eqb_refl. cbn. eauto.
  - eexists. split; [reflexivity|]. apply inv_pc; [exact I0|rewrite Ep; intros []|intros []|exact I].
  - destruct (opt_eqb fr (resizing st)); eexists; (split; [reflexivity|]); (apply inv_pc; [exact I0|rewrite Ep; intros []|intros []|exact I]).
Qed.

Lemma event_inv st e : inv st -> exists st', do_event hash st e = Ok st' /\ inv st'.
Proof.
  intros I0. destruct e as [t b u|t]; cbn [do_event]; [|now apply step_inv].
  destruct (pcs st t) eqn:Ep; eauto. eexists. split; [reflexivity|].
  apply inv_pc; [exact I0|rewrite Ep; intros []|intros []|exact I].
Qed.

Lemma init_inv : inv init.
Proof.
  constructor.
  - intros t. exact I.
  - apply Quiet; cbn; auto. intros c [=].
  - split; [exact I|]. intros e x [].
Qed.

Lemma run_inv : forall es st, inv st -> exists st', run hash st es = Ok st' /\ inv st'.
Proof.
  induction es as [|e es IH]; intros st H; cbn [run]; [eauto|].
  destruct (event_inv st e H) as (st1 & -> & H1). cbn [bind]. apply IH, H1.
Qed.

Lemma inv_unique st : inv st -> unique (log st).
Proof.
  intros [It Im [Lf Il]] e e' x x' Hin Hin' Hr Hr'.
  destruct (Il e x Hin Hr) as (B & L & c & s & T & Ls & C).
  destruct (Il e' x' Hin' Hr') as (B' & L' & c' & s' & T' & Ls' & C'). assert (c' = c) by congruence. subst c'.
  assert (G : tabgood st c).
  { destruct Im as [E K Tg|t0 b0 u0 n0 Et Er Ep0 O Ln S F|t0 c0 n0 i Et Er Ne Lc Ln O Gc Gn Un Li Mc Cp].
    - now apply Tg.
    - congruence.
    - assert (c0 = c) by congruence. now subst. }
  split; intros H.
  - subst x'. congruence.
  - assert (s = s') by (eapply (tg_inj _ _ G); eauto; congruence). subst s'. congruence.
Qed.
End Proofs.
