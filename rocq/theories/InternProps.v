(* C19, C48: identifiers are unique; creating them may not terminate. *)
From Coq Require Import List NArith Arith Bool Lia ZifyNat ZifyN ZifyBool.
From Verif Require Import Base InternModel InternSpec InternProofs.
Import ListNotations.

(* For every hash function and every schedule of any number of threads: no
   assertion of the protocol fails, two requests return the same handle exactly
   when they asked for the same characters, a handle keeps its characters, and a
   request for a new identifier gets one that nobody has. *)
Theorem C19_handles_unique : forall hash schedule,
  exists st, run hash init schedule = Ok st /\ unique (log st) /\ uniq_fresh (log st) /\
    forall e x, In e (log st) -> e_result e = Some x -> bytes_of st x = e_bytes e.
Proof.
  intros hash es. destruct (run_inv hash es init (init_inv hash)) as (st & E & I). exists st.
  split; [exact E|]. split; [eapply inv_unique; eauto|]. destruct I as [_ _ [Lf Il]]. split; [exact Lf|].
  intros e x Hin Hr. now destruct (Il e x Hin Hr).
Qed.
Print Assumptions C19_handles_unique.

(* A handle means the same characters in every later state. *)
Theorem C19_handles_stable : forall hash before after st st',
  run hash init before = Ok st -> run hash st after = Ok st' ->
  (exists new, log st' = new ++ log st) /\ unique (log st') /\
  forall e x, In e (log st) -> e_result e = Some x -> bytes_of st' x = e_bytes e.
Proof.
  intros hash es es' st st' R R'.
  assert (H : forall es st st', run hash st es = Ok st' -> exists new, log st' = new ++ log st).
  { clear. induction es as [|e es IH]; intros st st' R; cbn [run] in R.
    - injection R as <-. now exists [].
    - apply bind_ok in R. destruct R as (st1 & E & R). destruct (IH st1 st' R) as [new ->].
      assert (K : exists m, log st1 = m ++ log st).
      { destruct e as [t b u|t]; cbn [do_event] in E.
        - destruct (pcs st t); injection E as <-; now exists [].
        - unfold step in E. destruct (pcs st t);
            repeat match type of E with context [match ?x with _ => _ end] => destruct x end;
            try discriminate E; injection E as <-; (now exists []) || (eexists [_]; reflexivity). }
      destruct K as [m ->]. exists (new ++ m). now rewrite app_assoc. }
  destruct (run_inv hash es init (init_inv hash)) as (st0 & E0 & I0). rewrite R in E0. injection E0 as <-.
  destruct (run_inv hash es' st I0) as (st1 & E1 & I1). rewrite R' in E1. injection E1 as <-.
  destruct (H _ _ _ R') as [new En]. split; [now exists new|]. split; [eapply inv_unique; eauto|].
  intros e x Hin Hr. destruct I1 as [_ _ [_ Il]]. destruct (Il e x) as [B _]; [rewrite En; apply in_or_app; now right|exact Hr|exact B].
Qed.
Print Assumptions C19_handles_stable.

(* The hash that joining identifiers computes piece by piece is the hash of the
   joined characters, so joining finds the identifier that was made in one go;
   none of the pieces may hold a NUL. *)
Theorem C19_pieces_hash : forall pieces, Forall (Forall (fun b => b <> 0%N)) pieces ->
  mix_bits_32 (fold_left hash_update pieces 5381%N) = djb2 (concat pieces).
Proof.
  intros ps F. unfold djb2. f_equal. generalize 5381%N as h.
  induction ps as [|p ps IH]; intros h; [reflexivity|]. cbn [fold_left concat].
  rewrite (IH (Forall_inv_tail F)). pose proof (Forall_inv F) as Fp. clear IH F. revert h.
  induction p as [|b p IHp]; intros h; [reflexivity|]. cbn [hash_update app].
  pose proof (Forall_inv Fp) as Hb. cbn beta in Hb. apply N.eqb_neq in Hb. rewrite Hb. apply IHp, (Forall_inv_tail Fp).
Qed.
Print Assumptions C19_pieces_hash.

(* With a NUL the hash covers only what comes before it, *)
Theorem C19_nul_stops : forall h a b, Forall (fun x => x <> 0%N) a ->
  hash_update h (a ++ 0%N :: b) = hash_update h a.
Proof.
  intros h a b F. revert h. induction F as [|x a Hx F IH]; intros h; cbn [app hash_update]; [reflexivity|].
  apply N.eqb_neq in Hx. rewrite Hx. apply IH.
Qed.
Print Assumptions C19_nul_stops.

(* and then joining does not find the identifier made in one go: it is looked for
   in another place. *)
Theorem C19_nul_refuted : exists a b, a <> [] /\ b <> [] /\
  mix_bits_32 (fold_left hash_update [a; b] 5381%N) <> djb2 (a ++ b) /\
  N.modulo (mix_bits_32 (fold_left hash_update [a; b] 5381%N)) 1024 <> N.modulo (djb2 (a ++ b)) 1024.
Proof. exists [65%N; 0%N], [66%N]. split; [discriminate|]. split; [discriminate|]. split; vm_compute; discriminate. Qed.
Print Assumptions C19_nul_refuted.

(* Two threads ask for the same characters, and both see the free slot before
   either stores: one handle.  A third request differs. *)
Example C19_race :
  let a := [65%N; 66%N] in
  match run djb2 init ([Start 0 a false; Step 0; Step 0; Step 0; Start 1 a false; Step 1; Step 0; Step 1; Step 1; Step 0;
                        Step 1; Step 1; Start 2 [66%N] true; Step 2; Step 2; Step 2; Step 0; Step 0; Start 0 [66%N] true; Step 0; Step 0]) with
  | Ok st => map (fun e => (e_thread e, e_result e)) (log st) = [(0, None); (0, Some 0); (2, Some 1); (1, Some 0)]
  | Fault => False
  end.
Proof. vm_compute. reflexivity. Qed.

(* ---- collisions ---- *)

Section Collisions.
Variables (hash : bytes -> N) (h0 : N).

Definition kinv (st : sys) : Prop :=
  (forall t b, wants (pcs st t) = Some b -> hash b = h0) /\
  (forall t, match pcs st t with
             | Probe b _ c i s => 1 <= i <= REPROBE_LIMIT
             | Install b _ c s => exists k, k < REPROBE_LIMIT /\ s = chain hash b (size st c) k
             | _ => True end) /\
  (forall b, In b (ids st) -> hash b = h0) /\
  (forall x, x < length (ids st) -> exists e, In e (log st) /\ e_result e = Some x) /\
  length (ids st) <= REPROBE_LIMIT.

Lemma chain_hash b b' sz k : hash b = hash b' -> chain hash b sz k = chain hash b' sz k.
Proof. intros H. induction k as [|k IH]; cbn [chain]; [unfold first_slot; now rewrite H|now rewrite IH]. Qed.

(* A free slot among the first of the chain: few identifiers. *)
Lemma free_few st b c k : tabgood hash st c -> (forall x, x < length (ids st) -> exists s, s < size st c /\ content st c s = Some x) ->
  (forall b', In b' (ids st) -> hash b' = hash b) -> content st c (chain hash b (size st c) k) = None -> length (ids st) <= k.
Proof.
  intros G All Hh Free.
  assert (F : forall x, x < length (ids st) -> exists j, j < k /\ content st c (chain hash b (size st c) j) = Some x).
  { intros x Hx. destruct (All x Hx) as (s & Ls & Cx). destruct (tg_chain hash st c G s x Ls Cx) as (j & E1 & E2).
    assert (Eh : hash (bytes_of st x) = hash b) by (apply Hh; unfold bytes_of; now apply nth_In).
    exists j. rewrite (chain_hash _ _ _ _ Eh) in E1. split; [|now rewrite E1].
    destruct (Nat.lt_trichotomy j k) as [H|[H|H]]; [exact H| |].
    - subst j. congruence.
    - exfalso. apply (E2 k H). now rewrite (chain_hash _ _ _ _ Eh). }
  set (pos := fun x => content st c (chain hash b (size st c) x)).
  assert (P : incl (map Some (seq 0 (length (ids st)))) (map pos (seq 0 k))).
  { intros o Ho. apply in_map_iff in Ho. destruct Ho as (x & <- & Hx). apply in_seq in Hx.
    destruct (F x) as (j & Hj & E); [lia|]. apply in_map_iff. exists j. split; [exact E|apply in_seq; lia]. }
  apply NoDup_incl_length in P.
  - rewrite !map_length, !seq_length in P. exact P.
  - apply FinFun.Injective_map_NoDup; [intros x y [=]; assumption|apply seq_NoDup].
Qed.

Lemma kinv_pc st t p : kinv st -> (forall b, wants p = Some b -> hash b = h0) ->
  match p with
  | Probe b _ c i s => 1 <= i <= REPROBE_LIMIT
  | Install b _ c s => exists k, k < REPROBE_LIMIT /\ s = chain hash b (size st c) k
  | _ => True end -> kinv (set_pc st t p).
Proof.
  intros (K1 & K2 & K3 & K4 & K5) W P. split; [|split; [|auto]].
  - intros t' b. cbn. unfold upd. destruct (t' =? t); [apply W|apply K1].
  - intros t'. cbn. unfold upd. destruct (t' =? t); [exact P|exact (K2 t')].
Qed.

Lemma kinv_shared st st' : kinv st -> pcs st' = pcs st -> ids st' = ids st -> log st' = log st ->
  (forall c, c < ntabs st -> size st' c = size st c) ->
  (forall t b u c s, pcs st t = Install b u c s -> c < ntabs st) -> kinv st'.
Proof.
  intros (K1 & K2 & K3 & K4 & K5) E1 E2 E3 Sz L. unfold kinv. rewrite E1, E2, E3. split; [exact K1|]. split; [|auto].
  intros t. specialize (K2 t). specialize (L t). destruct (pcs st t); auto. now rewrite Sz by eauto.
Qed.

Lemma kinv_log st t b u r : kinv (set_pc st t Idle) -> kinv (finish_req st t b u r).
Proof.
  intros (K1 & K2 & K3 & K4 & K5). split; [exact K1|]. split; [exact K2|]. split; [exact K3|]. split; [|exact K5].
  intros x Hx. destruct (K4 x Hx) as (e & Hin & Hr). exists e. split; [now right|exact Hr].
Qed.

Lemma kinv_step st t st' : inv hash st -> kinv st -> step hash st t = Ok st' -> kinv st'.
Proof.
  intros I0 K E. pose proof K as (K1 & K2 & K3 & K4 & K5). specialize (K1 t). specialize (K2 t).
  pose proof (i_t _ _ I0 t) as T0.
  assert (Li : forall t b u c s, pcs st t = Install b u c s -> c < ntabs st).
  { intros t' b u c s Ep. pose proof (i_t _ _ I0 t') as T. rewrite Ep in T. apply T. }
  assert (Lt : forall c, table st = Some c -> tabgood hash st c).
  { intros c Hc. destruct I0 as [It Im Il]. destruct Im as [Eq C Tg|t0 b0 u0 n0 Et' Er Ep0 O L' S' F|t0 c0 n0 i Et' Er Ne Lc Ln O Gc Gn Un Lim Mc Cp].
    - now apply Tg.
    - congruence.
    - assert (c0 = c) by congruence. now subst. }
  unfold step in E. destruct (pcs st t) as [|b u|b u|b u n|b u c i s|b u c s|b u c|b u c n i|b u c n i x s j|b u c n i ov|b u c n|b u|b u fr] eqn:Ep;
    cbn [wants] in K1; try (specialize (K1 b eq_refl)).
  - injection E as <-. exact K.
  - destruct (table st); injection E as <-; (apply kinv_pc; [exact K|intros b' [= <-]; exact K1|]); [unfold REPROBE_LIMIT; lia|exact I].
  - destruct (opt_eqb (resizing st) None); injection E as <-; (apply kinv_pc; [|intros b' [= <-]; exact K1|exact I]); [|exact K].
    apply (kinv_shared st); auto. intros c Lc. exact (x_size _ _ (ext_new st INITIAL_SIZE (Some (ntabs st))) c Lc).
  - destruct (negb _); [discriminate|]. destruct (opt_eqb _ _); [|discriminate]. injection E as <-.
    apply kinv_pc; [|intros b' [= <-]; exact K1|unfold REPROBE_LIMIT; lia]. now apply (kinv_shared st).
  - destruct (tslot (tabs st c) s) as [[x|] [|]] eqn:Es.
    + injection E as <-. apply kinv_pc; [exact K|intros b' [= <-]; exact K1|exact I].
    + destruct (beq _ _).
      * injection E as <-. apply kinv_log. apply kinv_pc; [exact K|discriminate|exact I].
      * destruct (Nat.eqb_spec i REPROBE_LIMIT) as [Ei|Ei]; injection E as <-; (apply kinv_pc; [exact K|intros b' [= <-]; exact K1|]); [exact I|lia].
    + injection E as <-. apply kinv_pc; [exact K|intros b' [= <-]; exact K1|exact I].
    + injection E as <-. apply kinv_pc; [exact K|intros b' [= <-]; exact K1|]. exists (i - 1). split; [lia|]. apply T0.
  - destruct (tslot (tabs st c) s) as [[x|] [|]] eqn:Es; try (injection E as <-; apply kinv_pc; [exact K|intros b' [= <-]; exact K1|exact I]).
    injection E as <-. destruct K2 as (k & Hk & Hs). destruct T0 as (P & _).
    assert (Ls : s < size st c) by (rewrite Hs; apply chain_lt, P).
    destruct (in_table hash st c s I0 P Ls) as [T G]; [unfold moved; now rewrite Es|].
    assert (Few : length (ids st) <= k).
    { apply (free_few st b c k G).
      - intros x Hx. destruct (K4 x Hx) as (e & Hin & Hr). destruct I0 as [_ _ [_ Il]].
        destruct (Il e x Hin Hr) as (_ & _ & c' & s' & H1 & H2 & H3). assert (c' = c) by congruence. subst c'. eauto.
      - intros b' Hb'. rewrite K1. now apply K3.
      - rewrite <- Hs. unfold content. now rewrite Es. }
    destruct K as (J1 & J2 & J3 & J4 & J5). split; [|split; [|split; [|split]]].
    + intros t' b'. cbn. unfold upd. destruct (t' =? t); [discriminate|apply J1].
    + intros t'. cbn. unfold upd at 1. destruct (t' =? t); [exact I|]. specialize (J2 t').
      destruct (pcs st t'); auto. destruct J2 as (k' & H1 & H2). exists k'. split; [exact H1|].
      unfold size. cbn. unfold upd. destruct (Nat.eqb_spec c0 c) as [->|]; exact H2.
    + cbn. intros b' Hb'. apply in_app_or in Hb'. destruct Hb' as [Hb'|[<-|[]]]; [now apply J3|exact K1].
    + cbn. intros x Hx. rewrite app_length in Hx. cbn in Hx. destruct (Nat.eq_dec x (length (ids st))) as [->|D].
      * eexists. split; [left; reflexivity|reflexivity].
      * destruct (J4 x) as (e & H1 & H2); [lia|]. exists e. split; [now right|exact H2].
    + cbn. rewrite app_length. cbn. lia.
  - destruct (opt_eqb _ _); injection E as <-; (apply kinv_pc; [|intros b' [= <-]; exact K1|exact I]); [|exact K].
    apply (kinv_shared st); auto. intros c' Lc. exact (x_size _ _ (ext_new st _ (Some (ntabs st))) c' Lc).
  - destruct (i =? _).
    + injection E as <-. apply kinv_pc; [exact K|intros b' [= <-]; exact K1|exact I].
    + destruct (tslot (tabs st c) i) as [[x|] [|]]; try discriminate E; injection E as <-;
        (apply kinv_pc; [exact K|intros b' [= <-]; exact K1|exact I]).
  - destruct (tslot (tabs st n) s) as [[y|] [|]]; try (destruct (opt_eqb _ _); [discriminate E|]); injection E as <-;
      (apply kinv_pc; [|intros b' [= <-]; exact K1|exact I]); try exact K.
    apply (kinv_shared st); auto. intros c' _. apply size_slot.
  - destruct (tslot (tabs st c) i) as [v [|]]; [|destruct (opt_eqb _ _)]; injection E as <-;
      (apply kinv_pc; [|intros b' [= <-]; exact K1|exact I]); try exact K.
    apply (kinv_shared st); auto. intros c' _. apply size_slot.
  - destruct (negb _); [discriminate|]. destruct (opt_eqb _ _); [|discriminate]. injection E as <-.
    apply kinv_pc; [|intros b' [= <-]; exact K1|exact I]. now apply (kinv_shared st).
  - injection E as <-. apply kinv_pc; [exact K|intros b' [= <-]; exact K1|exact I].
  - destruct (opt_eqb _ _); injection E as <-; (apply kinv_pc; [exact K|intros b' [= <-]; exact K1|exact I]).
Qed.

Lemma kinv_run : forall es st st', inv hash st -> kinv st ->
  (forall t b u, In (Start t b u) es -> hash b = h0) -> run hash st es = Ok st' -> kinv st' /\ inv hash st'.
Proof.
  induction es as [|e es IH]; intros st st' I0 K S R; cbn [run] in R.
  - injection R as <-. auto.
  - destruct (event_inv hash st e I0) as (st1 & E & I1). rewrite E in R. cbn [bind] in R.
    apply (IH st1 st'); auto.
    + destruct e as [t b u|t]; cbn [do_event] in E.
      * destruct (pcs st t); injection E as <-; auto. apply kinv_pc; [exact K| |exact I].
        intros b' [= <-]. eapply S. now left.
      * exact (kinv_step st t st1 I0 K E).
    + intros t b u Hin. eapply S. right. exact Hin.
Qed.
End Collisions.

(* Identifiers whose 32-bit hashes are all equal: no schedule creates more than
   twenty of them.  Whoever asks for another grows the table again and again and
   never returns. *)
Theorem C48_at_most_twenty_collide : forall hash h0 schedule st returned,
  (forall t b u, In (Start t b u) schedule -> hash b = h0) ->
  run hash init schedule = Ok st -> NoDup returned ->
  (forall b, In b returned -> exists e, In e (log st) /\ e_bytes e = b /\ e_result e <> None) ->
  length returned <= 20.
Proof.
  intros hash h0 es st bs S R ND Hb.
  destruct (kinv_run hash h0 es init st (init_inv hash)) as [K I0]; auto.
  { split; [discriminate|]. split; [intros; exact I|]. split; [intros b []|]. split; [cbn; lia|]. cbn. lia. }
  destruct K as (_ & _ & _ & _ & K5). etransitivity; [|exact K5].
  assert (P : incl bs (ids st)).
  { intros b Hin. destruct (Hb b Hin) as (e & He & <- & Hr). destruct (e_result e) as [x|] eqn:Ex; [|congruence].
    destruct I0 as [_ _ [_ Il]]. destruct (Il e x He Ex) as (<- & Lx & _). unfold bytes_of. now apply nth_In. }
  now apply NoDup_incl_length.
Qed.
Print Assumptions C48_at_most_twenty_collide.

(* Legal VHDL identifiers with the same hash: AQ and B0 can replace each other
   anywhere. *)
Definition pieces5 : list bytes :=
  let two := [[65; 81]; [66; 48]]%N in
  let add l := flat_map (fun p => map (app p) l) two in
  add (add (add (add (add [[]])))).
Definition letter (b : N) : bool := ((65 <=? b) && (b <=? 90))%N.
Definition digit (b : N) : bool := ((48 <=? b) && (b <=? 57))%N.
Definition legal_identifier (b : bytes) : bool :=
  match b with [] => false | c :: _ => letter c && forallb (fun c => letter c || digit c) b end.

(* So a design with 21 such names cannot be analysed: whatever the schedule, one
   of the requests never completes. *)
Theorem C48_progress_refuted :
  exists names, length names = 21 /\ NoDup names /\ forallb legal_identifier names = true /\
    forall schedule st, (forall t b u, In (Start t b u) schedule -> In b names) ->
      run djb2 init schedule = Ok st ->
      ~ (forall b, In b names -> exists e, In e (log st) /\ e_bytes e = b /\ e_result e <> None).
Proof.
  exists (firstn 21 pieces5).
  assert (ND : NoDup (firstn 21 pieces5)).
  { assert (D : forall l : list bytes, (fix nd l := match l with [] => true | b :: l' => negb (existsb (beq b) l') && nd l' end) l = true -> NoDup l).
    { induction l as [|b l IH]; intros H; [constructor|]. apply andb_prop in H. destruct H as [H1 H2]. constructor; [|now apply IH].
      intros Hin. apply negb_true_iff in H1. assert (existsb (beq b) l = true); [|congruence].
      apply existsb_exists. exists b. split; [exact Hin|]. destruct (beq_spec b b); congruence. }
    apply D. vm_compute. reflexivity. }
  split; [vm_compute; reflexivity|]. split; [exact ND|]. split; [vm_compute; reflexivity|].
  intros es st S R All. assert (L : length (firstn 21 pieces5) <= 20); [|revert L; vm_compute; lia].
  apply (C48_at_most_twenty_collide djb2 (djb2 (nth 0 pieces5 [])) es st _); auto.
  intros t b u Hin. specialize (S t b u Hin).
  assert (F : forallb (fun b => (djb2 b =? djb2 (nth 0 pieces5 []))%N) (firstn 21 pieces5) = true) by (vm_compute; reflexivity).
  apply N.eqb_eq. exact (proj1 (forallb_forall _ _) F b S).
Qed.
Print Assumptions C48_progress_refuted.
