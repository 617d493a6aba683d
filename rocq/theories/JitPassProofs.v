From Coq Require Import List ZArith Arith Bool Lia.
From Verif Require Import Base JitModel JitPassModel JitSpec.
Import ListNotations.

(* Case analysis on what an effect depends on. *)
Ltac split_match E :=
  match type of E with
  | match ?x with _ => _ end = _ =>
    let T := type of x in
    lazymatch T with
    | option (_ * _ * _ * _)%type => destruct x as [[[[? ?] ?] ?]|] eqn:?
    | option (_ * option _)%type => destruct x as [[? [?|]]|] eqn:?
    | _ => destruct x eqn:?
    end
  end.

Section P.
Variable W : Type.
Variable cpool_base : Z.
Variable cover_addr : Z -> Z.
Variable prim : opcode -> size -> ccode -> Z -> Z -> Z -> bool -> (nat -> Z) -> W ->
                option (Z * bool * (nat -> Z) * W).
Notation run := (run W cpool_base cover_addr prim).
Notation step := (step W cpool_base cover_addr prim).
Notation exec := (exec W prim).
Notation fetch := (fetch cpool_base cover_addr).
Notation pc := (pc W).
Notation regs := (regs W).
Notation flag := (flag W).
Notation args := (args W).
Notation outside := (outside W).

Lemma fetch_accepts m rg v : fetch m rg v = None <-> accepts m v = false.
Proof. destruct m, v; cbn; split; congruence. Qed.

Lemma fetch_scalar m rg v a b :
  m <> MNone -> fetch m rg v = Some a -> fetch MScalar rg v = Some b -> a = b.
Proof. destruct m, v; cbn; congruence. Qed.

(* ---------- copy propagation ---------- *)

Definition copies_ok (rg : nat -> Z) (map : copies) : Prop :=
  forall j, map j <> VInvalid ->
    fetch MScalar rg (map j) = Some (rg j) /\
    (forall k, map j = VReg k -> map k = VReg k) /\
    (forall k d, map j <> VAddrReg k d).

Lemma no_copies_ok rg : copies_ok rg no_copies.
Proof. intros j H. now elim H. Qed.

Lemma subst_fetch m rg map v a :
  copies_ok rg map -> fetch m rg v = Some a -> accepts m (subst_copy map v) = true ->
  fetch m rg (subst_copy map v) = Some a.
Proof.
  intros C F A.
  destruct (fetch m rg (subst_copy map v)) as [b|] eqn:E.
  2:{ apply fetch_accepts in E. congruence. }
  f_equal. revert E A. unfold subst_copy. destruct v; intros E A; try congruence.
  destruct (is_invalid (map r)) eqn:I; [congruence|].
  destruct (C r) as (C1 & _).
  { intros X. rewrite X in I. discriminate. }
  destruct m; try (cbn in F, E; congruence);
  match type of E with fetch ?m _ _ = _ => apply (fetch_scalar m rg (map r)) end;
   try discriminate; try assumption;
   cbn in F; try discriminate; injection F as <-; exact C1.
Qed.

(* The copies known before instruction [n]. *)
Fixpoint cp_at (nregs : nat) (f : prog) (n : nat) : copies :=
  match n with
  | O => no_copies
  | S m =>
    match nth_error f m, nth_error f n with
    | Some i, Some j =>
      if is_terminator f m || target j then no_copies else snd (cprop_one nregs (cp_at nregs f m) i)
    | _, _ => no_copies
    end
  end.

Lemma nth_skipn {A} (l : list A) n x t : skipn n l = x :: t -> nth_error l n = Some x /\ skipn (S n) l = t.
Proof.
  revert l. induction n as [|n IH]; intros [|y l] H; try discriminate.
  - cbn in H. injection H as <- <-. now split.
  - cbn in H. apply IH in H. exact H.
Qed.

Lemma cprop_from_nth nregs f : forall l n reset map k,
  skipn n f = l ->
  (forall i, nth_error f n = Some i -> (if reset || target i then no_copies else map) = cp_at nregs f n) ->
  nth_error (cprop_from nregs f n reset map l) k =
  option_map (fun i => fst (cprop_one nregs (cp_at nregs f (n + k)) i)) (nth_error f (n + k)).
Proof.
  induction l as [|i l IH]; intros n reset map k E M.
  - assert (length f <= n) by (destruct (Nat.le_gt_cases (length f) n); [easy|];
      apply (f_equal (@length ir)) in E; rewrite skipn_length in E; cbn in E; lia).
    cbn. rewrite (proj2 (nth_error_None f (n + k))) by lia. now destruct k.
  - destruct (nth_skipn _ _ _ _ E) as (N & E2). specialize (M i N).
    cbn [cprop_from]. rewrite M. destruct (cprop_one nregs (cp_at nregs f n) i) as [i' map'] eqn:O.
    destruct k as [|k].
    + cbn. rewrite Nat.add_0_r, N. cbn. now rewrite O.
    + cbn [nth_error]. rewrite IH with (k := k); [|exact E2|].
      * now rewrite Nat.add_succ_r.
      * intros j J. cbn [cp_at]. rewrite N, J, O. reflexivity.
Qed.

Lemma cprop_nth nregs f n :
  nth_error (cprop nregs f) n =
  option_map (fun i => fst (cprop_one nregs (cp_at nregs f n) i)) (nth_error f n).
Proof.
  unfold cprop. rewrite (cprop_from_nth nregs f f 0); [reflexivity..|]. intros i _. reflexivity.
Qed.

Lemma cprop_one_fst nregs map i :
  fst (cprop_one nregs map i) =
  Ir (op i) (sz i) (target i) (cc i) (result i) (subst_copy map (arg1 i)) (subst_copy map (arg2 i)).
Proof. unfold cprop_one. destruct (result i); [|reflexivity]. destruct (op i); reflexivity. Qed.

Lemma drop_spec nregs map r j :
  (forall j, map j <> VInvalid -> j < nregs) ->
  (forall j, map j = VReg r -> map r = VReg r) ->
  drop_copies nregs map r j = VInvalid \/ (drop_copies nregs map r j = map j /\ map j <> VReg r).
Proof.
  intros B T. unfold drop_copies. destruct (is_invalid (map r)) eqn:I.
  - right. split; [reflexivity|]. intros E. rewrite (T j E) in I. discriminate.
  - destruct (map j) eqn:E; try (right; split; [|discriminate]; destruct (j <? nregs); reflexivity).
    cbn [is_reg]. destruct (Nat.eqb_spec r0 r) as [->|D].
    + left. rewrite (proj2 (Nat.ltb_lt _ _) (B j ltac:(congruence))). reflexivity.
    + right. split; [|congruence]. rewrite andb_false_r. reflexivity.
Qed.

Lemma fetch_upd rg r x v :
  v <> VReg r -> (forall d, v <> VAddrReg r d) -> fetch MScalar (upd rg r x) v = fetch MScalar rg v.
Proof.
  intros A B. destruct v; cbn; try reflexivity; rewrite upd_other; try reflexivity; intros ->; try (now elim A).
  now elim (B disp).
Qed.

(* What is left of the copies after a register was written. *)
Lemma drop_ok nregs rg map r x :
  (forall j, map j <> VInvalid -> j < nregs) ->
  copies_ok rg map ->
  copies_ok (upd rg r x) (upd (drop_copies nregs map r) r VInvalid) /\
  (forall j, upd (drop_copies nregs map r) r VInvalid j <> VReg r).
Proof.
  intros B C.
  assert (T : forall j, map j = VReg r -> map r = VReg r).
  { intros j E. destruct (C j) as (_ & C2 & _); [congruence|]. exact (C2 r E). }
  split.
  - intros j. unfold upd at 1. destruct (Nat.eqb_spec j r) as [->|D]; [now intros X|]. intros V.
    destruct (drop_spec nregs map r j B T) as [E|(E & NE)]; [congruence|].
    assert (Vj : map j <> VInvalid) by congruence.
    destruct (C j Vj) as (C1 & C2 & C3).
    rewrite !upd_other by exact D. rewrite E. repeat apply conj.
    + rewrite fetch_upd; [exact C1|exact NE|]. intros d. apply C3.
    + intros k Ek. rewrite upd_other by congruence.
      pose proof (C2 k Ek) as Kk.
      destruct (drop_spec nregs map r k B T) as [E'|(E' & NE')]; [|congruence].
      exfalso. revert E'. unfold drop_copies. destruct (is_invalid (map r)); [congruence|].
      rewrite Kk. cbn. destruct (Nat.eqb_spec k r); [congruence|]. rewrite andb_false_r. discriminate.
    + intros k d. apply C3.
  - intros j. unfold upd. destruct (Nat.eqb_spec j r) as [->|D]; [discriminate|].
    destruct (drop_spec nregs map r j B T) as [E|(E & NE)]; congruence.
Qed.

(* Registers with a copy are those of the function. *)
Lemma cp_below nregs f n : regs_below nregs f -> forall j, cp_at nregs f n j <> VInvalid -> j < nregs.
Proof.
  intros RB. induction n as [|m IH]; intros j V; [now elim V|].
  cbn [cp_at] in V. destruct (nth_error f m) as [i|] eqn:E; [|now elim V].
  destruct (nth_error f (S m)) as [i2|]; [|now elim V].
  destruct (is_terminator f m || target i2); [now elim V|].
  pose proof (nth_error_In _ _ E) as Hin.
  assert (D : forall r, result i = Some r -> forall k, drop_copies nregs (cp_at nregs f m) r k <> VInvalid -> k < nregs).
  { intros r _ k. unfold drop_copies. destruct (is_invalid _); [apply IH|].
    destruct ((k <? nregs) && is_reg (cp_at nregs f m k) r); [congruence|apply IH]. }
  assert (RR : forall r, result i = Some r -> r < nregs).
  { intros r Er. apply (RB i r Hin). unfold ir_regs. rewrite Er, !in_app_iff. right; right. now left. }
  assert (R1 : forall r, subst_copy (cp_at nregs f m) (arg1 i) = VReg r -> r < nregs).
  { intros r. unfold subst_copy. destruct (arg1 i) eqn:A; try discriminate.
    assert (H0 : r0 < nregs).
    { apply (RB i r0 Hin). unfold ir_regs. rewrite A. now left. }
    destruct (is_invalid (cp_at nregs f m r0)) eqn:Iv.
    - intros X. congruence.
    - intros X.
      (* a copy of a register refers to a register with a copy *)
      clear - X IH RB H0.
      enough (forall n r0 r, cp_at nregs f n r0 = VReg r -> r < nregs) by eauto.
      clear - RB. induction n as [|m IH]; intros r0 r X; [discriminate|].
      cbn [cp_at] in X. destruct (nth_error f m) as [i|] eqn:E; [|discriminate].
      destruct (nth_error f (S m)) as [i2|]; [|discriminate].
      destruct (is_terminator f m || target i2); [discriminate|].
      pose proof (nth_error_In _ _ E) as Hin.
      assert (D : forall r1 k, drop_copies nregs (cp_at nregs f m) r1 k = VReg r -> r < nregs).
      { intros r1 k. unfold drop_copies. destruct (is_invalid _); [apply IH|].
        destruct ((k <? nregs) && is_reg (cp_at nregs f m k) r1); [discriminate|apply IH]. }
      assert (S1 : forall q, subst_copy (cp_at nregs f m) (arg1 i) = VReg q -> q < nregs).
      { intros q. unfold subst_copy. destruct (arg1 i) eqn:A; try discriminate.
        destruct (is_invalid (cp_at nregs f m r1)); [|apply IH].
        intros Y. injection Y as <-. apply (RB i r1 Hin). unfold ir_regs. rewrite A. now left. }
      unfold cprop_one in X. destruct (result i) as [r1|] eqn:Er; [|now apply (IH r0)].
      destruct (op i); cbn [snd fst arg1] in X; try (now apply (IH r0));
        try (revert X; unfold upd; destruct (r0 =? r1); [discriminate|apply D]).
      assert (Z : upd (drop_copies nregs (cp_at nregs f m) r1) r1 (subst_copy (cp_at nregs f m) (arg1 i)) r0 = VReg r
                  -> r < nregs).
      { unfold upd. destruct (r0 =? r1); [apply S1|apply D]. }
      destruct (subst_copy (cp_at nregs f m) (arg1 i)) as [|q| | | | | | | | | | | ]; try (now apply Z).
      revert X. unfold upd at 1. destruct (r0 =? q); [|exact Z].
      intros Y. injection Y as <-. now apply S1. }
  revert V. unfold cprop_one. destruct (result i) as [r|] eqn:Er; [|now apply IH].
  destruct (op i); cbn [snd fst arg1]; try (now apply IH);
    try (unfold upd; destruct (Nat.eqb_spec j r) as [->|]; [intros _; now apply RR|now apply D]).
  assert (Z : upd (drop_copies nregs (cp_at nregs f m) r) r (subst_copy (cp_at nregs f m) (arg1 i)) j <> VInvalid
              -> j < nregs).
  { unfold upd. destruct (Nat.eqb_spec j r) as [->|]; [intros _; now apply RR|now apply D]. }
  destruct (subst_copy (cp_at nregs f m) (arg1 i)) as [|q| | | | | | | | | | | ]; try exact Z.
  unfold upd at 1. destruct (Nat.eqb_spec j q) as [->|]; [intros _; now apply R1|exact Z].
Qed.

Lemma copies_ext rg rg' map map' :
  (forall j, rg' j = rg j) -> (forall j, map' j = map j) -> copies_ok rg map -> copies_ok rg' map'.
Proof.
  intros ER EM C j V. rewrite EM in *. destruct (C j V) as (C1 & C2 & C3). repeat apply conj.
  - rewrite <- ER in C1. rewrite <- C1. destruct (map j); cbn; try reflexivity; now rewrite ER.
  - intros k E. rewrite EM. auto.
  - intros k d. apply C3.
Qed.

Lemma mov_ok rg D r v :
  copies_ok rg D -> (forall j, D j <> VReg r) -> fetch MScalar rg v = Some (rg r) ->
  (forall k d, v <> VAddrReg k d) ->
  copies_ok rg (match v with VReg k => upd (upd D r v) k v | _ => upd D r v end).
Proof.
  intros C NR F NA.
  assert (G : forall M, (forall j, M j = D j \/ (M j = v /\ (j = r \/ v = VReg j))) ->
              (forall k, v = VReg k -> M k = v) -> (forall k, k <> r -> M k = D k \/ M k = VReg k) ->
              copies_ok rg M).
  { intros M HM HK HO j V. destruct (HM j) as [E|(E & J)].
    - rewrite E in *. destruct (C j V) as (C1 & C2 & C3). repeat apply conj; [exact C1| |exact C3].
      intros k Ek. destruct (Nat.eq_dec k r) as [->|NE]; [now elim (NR j)|].
      destruct (HO k NE) as [->| ->]; [now apply C2|reflexivity].
    - rewrite E in *. repeat apply conj; [|intros k Ek; rewrite (HK k Ek); exact Ek|exact NA].
      destruct J as [->|J]; [exact F|]. rewrite J. reflexivity. }
  assert (G1 : (forall k, v <> VReg k) -> copies_ok rg (upd D r v)).
  { intros NV. apply G.
    - intros j. unfold upd. destruct (Nat.eqb_spec j r); auto.
    - intros k Ek. now elim (NV k).
    - intros k NE. left. now rewrite upd_other. }
  destruct v as [|k| | | | | | | | | | | ]; try (apply G1; discriminate).
  apply G.
  - intros j. unfold upd. destruct (Nat.eqb_spec j k) as [->|]; [now auto|]. destruct (Nat.eqb_spec j r); auto.
  - intros k' [= <-]. now rewrite upd_same.
  - intros k' NE. unfold upd. destruct (Nat.eqb_spec k' k) as [->|]; [now auto|].
    destruct (Nat.eqb_spec k' r); [contradiction|]. now left.
Qed.

(* What an instruction can do besides its effect on the outside. *)
Lemma exec_jump o s c a b rv fl ar w e t :
  exec o s c a b rv fl ar w = Some e -> e_jump W e = Some t ->
  (o = J_JUMP /\ t = Z.to_nat a) \/ (o = MACRO_CASE /\ t = Z.to_nat b).
Proof.
  intros E J. destruct o; cbn in E;
    repeat split_match E; try discriminate; cbn in E; unfold setr, jump in E; try (injection E as <-; cbn in J); try discriminate;
    repeat match type of J with (if ?x then _ else _) = _ => destruct x end; try discriminate; injection J as <-; auto.
Qed.

Lemma exec_res o s c a b rv fl ar w e :
  exec o s c a b rv fl ar w = Some e ->
  match e_res W e with Some v => produces o = true /\ e_jump W e = None | None => produces o = false end.
Proof.
  intros E. destruct o; cbn in E;
    repeat split_match E; try discriminate; cbn in E; unfold setr, jump in E; injection E as <-; cbn; auto.
Qed.

Lemma exec_mov s c a b rv fl ar w e :
  exec J_MOV s c a b rv fl ar w = Some e -> e = Effect W (Some a) fl ar w None false.
Proof. cbn. unfold setr. congruence. Qed.

Section Cprop.
Variable nregs : nat.
Variable f : prog.
Hypothesis RB : regs_below nregs f.
Hypothesis LM : labels_marked f.
Hypothesis PM : plain_moves f.
Hypothesis KO : kinds_ok (cprop nregs f).

Lemma cp_not_addr n r k d : cp_at nregs f n r <> VAddrReg k d.
Proof.
  revert r. induction n as [|m IH]; intros r; [discriminate|].
  cbn [cp_at]. destruct (nth_error f m) as [i|] eqn:E; [|discriminate].
  destruct (nth_error f (S m)) as [i2|]; [|discriminate].
  destruct (is_terminator f m || target i2); [discriminate|].
  pose proof (nth_error_In _ _ E) as Hin.
  assert (D : forall r1 j, drop_copies nregs (cp_at nregs f m) r1 j <> VAddrReg k d).
  { intros r1 j. unfold drop_copies. destruct (is_invalid _); [apply IH|].
    destruct ((j <? nregs) && is_reg (cp_at nregs f m j) r1); [discriminate|apply IH]. }
  unfold cprop_one. destruct (result i) as [r1|] eqn:Er; [|apply IH].
  destruct (op i) eqn:O; cbn [snd fst arg1]; try apply IH;
    try (unfold upd; destruct (r =? r1); [discriminate|apply D]).
  assert (V : subst_copy (cp_at nregs f m) (arg1 i) <> VAddrReg k d).
  { unfold subst_copy. pose proof (PM i k d Hin O) as P. destruct (arg1 i); try discriminate; try exact P.
    destruct (is_invalid _); [discriminate|apply IH]. }
  assert (Z : upd (drop_copies nregs (cp_at nregs f m) r1) r1 (subst_copy (cp_at nregs f m) (arg1 i)) r
              <> VAddrReg k d).
  { unfold upd. destruct (r =? r1); [exact V|apply D]. }
  destruct (subst_copy (cp_at nregs f m) (arg1 i)); try exact Z.
  unfold upd at 1. destruct (r =? r0); [discriminate|exact Z].
Qed.

(* The copies known after an instruction are copies. *)
Lemma after_ok i n s e a b :
  nth_error f n = Some i ->
  copies_ok (regs s) (cp_at nregs f n) ->
  fetch (mode1 (op i)) (regs s) (arg1 i) = Some a ->
  fetch (mode2 (op i)) (regs s) (arg2 i) = Some b ->
  forall rv, exec (op i) (sz i) (cc i) a b rv (flag s) (args s) (outside s) = Some e ->
  forall s', apply W i s e = Next W s' ->
  copies_ok (regs s') (snd (cprop_one nregs (cp_at nregs f n) i)).
Proof.
  intros N C F1 F2 rv X s' A.
  pose proof (exec_res _ _ _ _ _ _ _ _ _ _ X) as R.
  pose proof (cp_below nregs f n RB) as B.
  unfold apply in A. destruct (e_done W e); [discriminate|].
  assert (RG : regs s' = match e_res W e, result i with Some v, Some r => upd (regs s) r v | _, _ => regs s end).
  { destruct (e_res W e); [destruct (result i); [|discriminate]|]; injection A as <-; reflexivity. }
  rewrite RG. clear RG.
  assert (NR : e_res W e <> None -> result i <> None).
  { destruct (e_res W e); [|congruence]. destruct (result i); congruence. }
  unfold cprop_one. destruct (result i) as [r|] eqn:Er.
  2:{ destruct (e_res W e); [elim NR; congruence|]. exact C. }
  assert (OTHER : copies_ok (match e_res W e with Some v => upd (regs s) r v | None => regs s end)
                            (upd (drop_copies nregs (cp_at nregs f n) r) r VInvalid)).
  { destruct (e_res W e) as [v|].
    - apply drop_ok; assumption.
    - eapply copies_ext; [|reflexivity|apply (drop_ok nregs (regs s) (cp_at nregs f n) r (regs s r) B C)].
      intros j. unfold upd. destruct (Nat.eqb_spec j r); congruence. }
  destruct (op i) eqn:O; cbn [snd fst arg1]; try exact OTHER;
    try (destruct (e_res W e); [destruct R; discriminate|exact C]).
  (* a move *)
  apply exec_mov in X. subst e. cbn [e_res].
  set (v := subst_copy (cp_at nregs f n) (arg1 i)).
  destruct (drop_ok nregs (regs s) (cp_at nregs f n) r a B C) as (D1 & D2).
  assert (FV : fetch MScalar (regs s) v = Some a).
  { apply subst_fetch; [exact C|exact F1|].
    pose proof (cprop_nth nregs f n) as CN. rewrite N in CN. cbn [option_map] in CN.
    rewrite cprop_one_fst in CN. apply nth_error_In in CN. apply KO in CN.
    cbn [op arg1] in CN. rewrite O in CN. apply CN. }
  assert (NA : forall k d, v <> VAddrReg k d).
  { intros k d. unfold v, subst_copy. pose proof (PM i k d (nth_error_In _ _ N) O) as P.
    destruct (arg1 i); try discriminate; try exact P.
    destruct (is_invalid _); [discriminate|apply cp_not_addr]. }
  assert (FV' : fetch MScalar (upd (regs s) r a) v = Some (upd (regs s) r a r)).
  { rewrite upd_same. destruct v as [|k| | | |k0| | | | | | | ] eqn:Ev; cbn in FV |- *; try exact FV;
      try (now elim (NA r0 disp)).
    unfold upd. destruct (k =? r); [reflexivity|exact FV]. }
  pose proof (mov_ok _ _ r v D1 D2 FV' NA) as G.
  eapply copies_ext; [reflexivity| |exact G].
  intros j. destruct v as [|k| | | | | | | | | | | ]; unfold upd;
    repeat match goal with |- context [?x =? ?y] => destruct (x =? y) end; reflexivity.
Qed.

Definition cp_rel (s : state W) : Prop := copies_ok (regs s) (cp_at nregs f (pc s)).

Lemma cp_target t i : nth_error f t = Some i -> target i = true -> cp_at nregs f t = no_copies.
Proof.
  intros N T. destruct t; [reflexivity|]. cbn [cp_at]. rewrite N. destruct (nth_error f t); [|reflexivity].
  rewrite T, orb_true_r. reflexivity.
Qed.

Lemma cprop_step_ok s : cp_rel s -> step f s <> Crash W ->
  step (cprop nregs f) s = step f s /\ (forall s', step f s = Next W s' -> cp_rel s').
Proof.
  intros C NC. unfold JitModel.step in *. rewrite cprop_nth.
  destruct (nth_error f (pc s)) as [i|] eqn:N; [|congruence]. cbn [option_map].
  pose proof (cprop_nth nregs f (pc s)) as CN. rewrite N in CN. cbn [option_map] in CN.
  pose proof (KO _ (nth_error_In _ _ CN)) as (K1 & K2). rewrite cprop_one_fst in *. cbn [op arg1 arg2 sz cc result] in *.
  unfold reads_result. cbn [op]. fold (reads_result i).
  destruct (fetch (mode1 (op i)) (regs s) (arg1 i)) as [a|] eqn:F1; [|congruence].
  destruct (fetch (mode2 (op i)) (regs s) (arg2 i)) as [b|] eqn:F2; [|congruence].
  rewrite (subst_fetch _ _ _ _ _ C F1 K1), (subst_fetch _ _ _ _ _ C F2 K2).
  destruct (if reads_result i then option_map (regs s) (result i) else Some 0%Z) as [rv|]; [|congruence].
  destruct (exec _ _ _ _ _ _ _ _ _) as [e|] eqn:X; [|congruence].
  split; [reflexivity|]. intros s' A.
  assert (PC : pc s' = match e_jump W e with Some t => t | None => S (pc s) end).
  { unfold apply in A. destruct (e_done W e); [discriminate|].
    destruct (e_res W e); [destruct (result i); [|discriminate]|]; injection A as <-; reflexivity. }
  unfold cp_rel. rewrite PC. destruct (e_jump W e) as [t|] eqn:J.
  - assert (exists j, nth_error f t = Some j /\ target j = true) as (j & Nj & Tj).
    { destruct (exec_jump _ _ _ _ _ _ _ _ _ _ _ X J) as [(O & ->)|(O & ->)].
      - rewrite O in F1. cbn in F1. destruct (arg1 i) eqn:E1; try discriminate. injection F1 as <-.
        rewrite Nat2Z.id. apply (LM i); [now apply nth_error_In in N|now left].
      - rewrite O in F2. cbn in F2. destruct (arg2 i) eqn:E2; try discriminate. injection F2 as <-.
        rewrite Nat2Z.id. apply (LM i); [now apply nth_error_In in N|now right]. }
    rewrite (cp_target t j Nj Tj). apply no_copies_ok.
  - cbn [cp_at]. rewrite N. destruct (nth_error f (S (pc s))) as [i2|]; [|apply no_copies_ok].
    destruct (is_terminator f (pc s) || target i2); [apply no_copies_ok|].
    eapply after_ok; eassumption.
Qed.

Lemma cprop_run n : forall s, cp_rel s -> run n f s <> Crash W -> run n (cprop nregs f) s = run n f s.
Proof.
  induction n as [|n IH]; intros s C NC; [reflexivity|]. cbn [JitModel.run] in *.
  destruct (cprop_step_ok s C) as (E & P).
  { intros X. now rewrite X in NC. }
  rewrite E. destruct (step f s) as [s'| |]; try reflexivity. apply IH; auto.
Qed.
End Cprop.
End P.
