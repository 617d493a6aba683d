(* Local value numbering: the rewritten code takes the same steps. *)
From Coq Require Import List ZArith NArith Arith Bool Lia.
From Verif Require Import Base JitModel JitPassModel JitSpec LvnSpec LvnModel LvnProofs LvnOps.
Import ListNotations.
Local Open Scope Z_scope.

Section Run.
Variable W : Type.
Variable cpool_base : Z.
Variable cover_addr : Z -> Z.
Variable prim : opcode -> size -> ccode -> Z -> Z -> Z -> bool -> (nat -> Z) -> W ->
                option (Z * bool * (nat -> Z) * W).
Variable nregs tabsz : nat.
Variable cpool_load : size -> Z -> Z.
Notation fetch := (fetch cpool_base cover_addr).
Notation ieval := (ieval cpool_base cover_addr).
Notation sinv := (sinv nregs).
Notation dinv := (dinv nregs cpool_base cover_addr).
Notation exec := (exec W prim).
Notation step := (step W cpool_base cover_addr prim).
Notation run := (run W cpool_base cover_addr prim).
Notation State := (State W). Notation Next := (Next W). Notation Done := (Done W). Notation Crash := (Crash W).
Notation state := (state W). Notation outcome := (outcome W).
Notation pc := (pc W). Notation regs := (regs W). Notation flag := (flag W).
Notation args := (args W). Notation outside := (outside W).
Notation alike := (alike W).
Notation lvn_one := (lvn_one nregs tabsz cpool_load).
Notation lvn_loop := (lvn_loop nregs tabsz cpool_load).

(* One instruction. *)
Definition sstep (i : ir) (s : state) : outcome :=
  match fetch (mode1 (op i)) (regs s) (arg1 i), fetch (mode2 (op i)) (regs s) (arg2 i) with
  | Some a, Some b =>
    match (if reads_result i then option_map (regs s) (result i) else Some 0) with
    | None => Crash
    | Some rv =>
      match exec (op i) (sz i) (cc i) a b rv (flag s) (args s) (outside s) with
      | None => Crash
      | Some e => apply W i s e
      end
    end
  | _, _ => Crash
  end.
Lemma step_sstep f s : step f s = match nth_error f (pc s) with None => Crash | Some i => sstep i s end.
Proof. reflexivity. Qed.

(* ---- states that look alike ---- *)

Lemma alike_refl o : alike o o.
Proof. destruct o; cbn; auto. Qed.
Lemma alike_trans a b c : alike a b -> alike b c -> alike a c.
Proof.
  destruct a, b, c; cbn; try tauto.
  - intros (A1 & A2 & A3 & A4 & A5) (B1 & B2 & B3 & B4 & B5).
    split; [congruence|]. split; [intros r; now rewrite B2, A2|]. split; [congruence|].
    split; [intros n; now rewrite B4, A4|congruence].
  - intros (A1 & A2) (B1 & B2). split; [intros n; now rewrite B1, A1|congruence].
Qed.

Hypothesis PS : prim_slots W prim.

Lemma fetch_ext m rg rg' v : (forall r, rg' r = rg r) -> fetch m rg' v = fetch m rg v.
Proof. intros H. destruct m, v; cbn; try reflexivity; now rewrite H. Qed.

Definition ealike (e e' : option (effect W)) : Prop :=
  match e, e' with
  | Some e, Some e' =>
    e_res W e' = e_res W e /\ e_flag W e' = e_flag W e /\ (forall n, e_args W e' n = e_args W e n) /\
    e_w W e' = e_w W e /\ e_jump W e' = e_jump W e /\ e_done W e' = e_done W e
  | None, None => True
  | _, _ => False
  end.

Ltac prim_case ar ar' E :=
  match goal with
  | |- context [prim ?o ?s ?c ?a ?b ?rv ?fl ar ?w] =>
    let X := fresh in
    pose proof (PS o s c a b rv fl ar ar' w E) as X;
    destruct (prim o s c a b rv fl ar w) as [[[[? ?] ?] ?]|];
    destruct (prim o s c a b rv fl ar' w) as [[[[? ?] ?] ?]|];
    try contradiction; [destruct X as (-> & -> & X & ->)|]
  end.

Lemma exec_ext o s c a b rv fl ar ar' w : (forall n, ar' n = ar n) ->
  ealike (exec o s c a b rv fl ar w) (exec o s c a b rv fl ar' w).
Proof.
  intros E.
  destruct o; cbn [JitModel.exec]; unfold setr, jump;
    try (prim_case ar ar' E); cbn [ealike e_res e_flag e_args e_w e_jump e_done];
    repeat match goal with
           | |- context [checked ?f ?s ?c ?a ?b] => destruct (checked f s c a b) as [[? [?|]]|]
           | |- context [if ?x then _ else _] => destruct x
           | |- context [match ?c with CC_NONE => _ | _ => _ end] => destruct c
           end; cbn [ealike e_res e_flag e_args e_w e_jump e_done];
    try rewrite E; try tauto; try (repeat split; auto; fail).
  repeat split; auto. intros n. unfold upd. destruct (n =? Z.to_nat a)%nat; auto.
Qed.

Lemma sstep_ext i s s' : alike (Next s) (Next s') -> alike (sstep i s) (sstep i s').
Proof.
  intros (P & R & F & A & O). unfold sstep.
  rewrite !(fetch_ext _ (regs s) (regs s')) by exact R.
  destruct (fetch (mode1 (op i)) (regs s) (arg1 i)) as [a|]; [|exact Logic.I].
  destruct (fetch (mode2 (op i)) (regs s) (arg2 i)) as [b|]; [|exact Logic.I].
  assert (E : (if reads_result i then option_map (regs s') (result i) else Some 0) =
              (if reads_result i then option_map (regs s) (result i) else Some 0)).
  { destruct (reads_result i); [|reflexivity]. destruct (result i); cbn; [now rewrite R|reflexivity]. }
  rewrite E. destruct (if reads_result i then option_map (regs s) (result i) else Some 0) as [rv|];
    [|exact Logic.I].
  rewrite F, O. pose proof (exec_ext (op i) (sz i) (cc i) a b rv (flag s) (args s) (args s') (outside s) A) as X.
  destruct (exec (op i) (sz i) (cc i) a b rv (flag s) (args s) (outside s)) as [e|],
           (exec (op i) (sz i) (cc i) a b rv (flag s) (args s') (outside s)) as [e'|];
    cbn [ealike] in X; try contradiction; [|exact Logic.I].
  destruct X as (X1 & X2 & X3 & X4 & X5 & X6). unfold apply. rewrite X6, X5, X1, P.
  destruct (e_done W e); [split; [exact X3|exact X4]|].
  destruct (e_res W e) as [v|].
  - destruct (result i) as [r|]; [|exact Logic.I]. cbn. split; [reflexivity|].
    split; [intros x; unfold upd; destruct (x =? r)%nat; [reflexivity|apply R]|].
    split; [exact X2|]. split; [exact X3|exact X4].
  - cbn. split; [reflexivity|]. split; [exact R|]. split; [exact X2|]. split; [exact X3|exact X4].
Qed.

Lemma run_ext f n : forall s s', alike (Next s) (Next s') -> alike (run n f s) (run n f s').
Proof.
  induction n as [|n IH]; intros s s' H; [exact H|]. cbn [JitModel.run]. rewrite !step_sstep.
  destruct H as (P & H). rewrite P.
  destruct (nth_error f (pc s)) as [i|]; [|exact Logic.I].
  pose proof (sstep_ext i s s' (conj P H)) as X.
  destruct (sstep i s) as [t| |], (sstep i s') as [t'| |]; cbn [LvnSpec.alike] in X; try contradiction.
  - exact (IH t t' X).
  - exact X.
  - exact X.
Qed.

(* ---- numbers stay 64-bit ---- *)

Hypothesis PW : prim_words W prim.
Hypothesis CW : forall z, word (cover_addr z).

Lemma word_in64 z : word z <-> in64 z.
Proof. reflexivity. Qed.
Lemma word_wrap z : word (wrap z).
Proof. apply word_in64, wrap_in64. Qed.

Lemma word_shiftr z : word z <-> (Z.shiftr z 63 = 0 \/ Z.shiftr z 63 = -1).
Proof.
  unfold word. rewrite Z.shiftr_div_pow2 by lia. change (2 ^ 63) with 9223372036854775808.
  split.
  - intros H. destruct (Z.lt_ge_cases z 0) as [L|L].
    + right. symmetry. apply (Z.div_unique z _ (-1) (z + 9223372036854775808)); lia.
    + left. apply Z.div_small. lia.
  - intros [H|H]; pose proof (Z.div_mod z 9223372036854775808 ltac:(lia)) as E; rewrite H in E;
      pose proof (Z.mod_pos_bound z 9223372036854775808 ltac:(lia)); lia.
Qed.
Lemma word_land a b : word a -> word b -> word (Z.land a b).
Proof.
  rewrite !word_shiftr, Z.shiftr_land. intros [-> | ->] [-> | ->]; auto.
Qed.
Lemma word_lor a b : word a -> word b -> word (Z.lor a b).
Proof. rewrite !word_shiftr, Z.shiftr_lor. intros [-> | ->] [-> | ->]; auto. Qed.
Lemma word_lxor a b : word a -> word b -> word (Z.lxor a b).
Proof. rewrite !word_shiftr, Z.shiftr_lxor. intros [-> | ->] [-> | ->]; auto. Qed.
Lemma word_asr a b : word a -> 0 <= b -> word (Z.shiftr a b).
Proof.
  intros H B. rewrite word_shiftr in *. rewrite Z.shiftr_shiftr by lia.
  rewrite Z.add_comm, <- Z.shiftr_shiftr by exact B.
  destruct H as [-> | ->]; [left; apply Z.shiftr_0_l|right].
  rewrite Z.shiftr_div_pow2 by exact B. pose proof (Z.pow_pos_nonneg 2 b ltac:(lia) B).
  symmetry. apply (Z.div_unique _ _ (-1) (2 ^ b - 1)); lia.
Qed.
Lemma word_quot a b : word a -> b <> 0 -> (a =? - M63) && (b =? -1) = false -> word (Z.quot a b).
Proof.
  unfold word. intros I1 BB1 BB2.
  assert (Q : Z.abs (Z.quot a b) <= Z.abs a).
  { rewrite <- Z.quot_abs by exact BB1. apply Z.quot_le_upper_bound; [lia|]. nia. }
  assert (a = - M63 \/ - M63 < a) as [E|E] by (unfold M63; lia); [|unfold M63 in *; lia].
  subst a. rewrite Z.eqb_refl in BB2. cbn [andb] in BB2. apply Z.eqb_neq in BB2.
  assert (Z.quot (- M63) b <> M63); [|unfold M63 in *; lia].
  intros Q1. pose proof (Z.quot_rem' (- M63) b) as QR. rewrite Q1 in QR.
  pose proof (Z.rem_bound_abs (- M63) b BB1) as RB. unfold M63 in *. lia.
Qed.
Lemma word_rem a b : word b -> b <> 0 -> word (a - Z.quot a b * b).
Proof.
  intros H B. pose proof (Z.quot_rem' a b). pose proof (Z.rem_bound_abs a b B).
  unfold word in *. lia.
Qed.
Lemma word_checked f s c a b v fo : checked f s c a b = Some (v, fo) -> word v.
Proof.
  unfold checked. destruct c; try (intros H; injection H as <- _; apply word_wrap).
  - destruct (spec_size s); [|discriminate]. intros H. injection H as <- _. apply word_in64, strunc_in64.
  - destruct (spec_size s); [|discriminate]. intros H. injection H as <- _. apply word_wrap.
Qed.

Lemma fetch_word m rg v z : (forall r, word (rg r)) -> value_word v -> fetch m rg v = Some z -> word z.
Proof.
  intros R V H. destruct m, v; cbn in *; try discriminate; injection H as <-;
    auto; try apply word_wrap; unfold word; lia.
Qed.

Lemma exec_word o s c a b rv fl ar w e :
  word a -> word b -> (forall n, word (ar n)) -> exec o s c a b rv fl ar w = Some e ->
  (forall v, e_res W e = Some v -> word v) /\ (forall n, word (e_args W e n)).
Proof.
  intros HA HB HR.
  assert (PWo : forall o s c a b rv fl w v g br x, prim o s c a b rv fl ar w = Some (v, g, br, x) ->
    word v /\ forall n, word (br n)) by (intros; eapply PW; eauto).
  assert (B2Z : forall x, word (b2z x)) by (intros []; cbn; unfold word; lia).
  destruct o; cbn [JitModel.exec]; unfold setr, jump; intros H;
    repeat match type of H with
    | context [match prim ?o ?s ?c ?a ?b ?rv ?fl ar ?w with _ => _ end] =>
      let X := fresh "PX" in
      pose proof (PWo o s c a b rv fl w) as X;
      destruct (prim o s c a b rv fl ar w) as [[[[? ?] ?] ?]|]; [|discriminate H];
      specialize (X _ _ _ _ eq_refl)
    | context [checked ?f ?s ?c ?a ?b] =>
      let X := fresh "CX" in
      destruct (checked f s c a b) as [[? [?|]]|] eqn:X; [| |discriminate H]; apply word_checked in X
    end;
    try (injection H as <-; cbn [e_res e_args];
         split; [intros v E; try discriminate E; injection E as <-; auto|auto];
         try solve [apply word_wrap | apply word_land; auto | apply word_lor; auto | apply word_lxor; auto
                   | destruct PX; auto]; fail).
  all: try (injection H as <-; cbn [e_res e_args]).
  all: try (split; [intros v E; try discriminate E; injection E as <-|]; try tauto; try (destruct PX; auto; fail)).
  all: try apply word_wrap.
  all: try (apply word_land; auto; fail).
  all: try (apply word_lor; auto; fail).
  all: try (apply word_lxor; auto; fail).
  all: try (apply B2Z).
  all: try apply HR.
  - intros n. unfold upd. destruct (n =? Z.to_nat a)%nat; auto.
  - discriminate.
  - destruct c; try discriminate; injection H as <-; split; auto; discriminate.
  - destruct fl; auto.
  - destruct ((b =? 0) || ((a =? - M63) && (b =? -1))) eqn:E; [discriminate|]. injection H as <-.
    apply orb_false_iff in E. destruct E as [E1 E2]. apply Z.eqb_neq in E1.
    cbn [e_res e_args]. split; [|exact HR]. intros v E. injection E as <-. now apply word_quot.
  - destruct ((b =? 0) || ((a =? - M63) && (b =? -1))) eqn:E; [discriminate|]. injection H as <-.
    apply orb_false_iff in E. destruct E as [E1 E2]. apply Z.eqb_neq in E1.
    cbn [e_res e_args]. split; [|exact HR]. intros v E. injection E as <-. now apply word_rem.
  - destruct ((0 <=? b) && (b <? 64)) eqn:E; [|discriminate]. injection H as <-.
    apply andb_true_iff in E. destruct E as [E1 E2]. apply Z.leb_le in E1.
    cbn [e_res e_args]. split; [|exact HR]. intros v E. injection E as <-. now apply word_asr.
  - destruct ((0 <=? b) && (b <? 64)) eqn:E; [|discriminate]. injection H as <-.
    cbn [e_res e_args]. split; [|exact HR]. intros v E'. injection E' as <-. apply word_wrap.
  - destruct (a <? 0); [unfold word; lia|exact HA].
Qed.

Definition ranged (s : state) : Prop := (forall r, word (regs s r)) /\ forall n, word (args s n).

Lemma sstep_ranged i s t : value_word (arg1 i) -> value_word (arg2 i) -> ranged s ->
  sstep i s = Next t -> ranged t.
Proof.
  intros V1 V2 [R A] H. unfold sstep in H.
  destruct (fetch (mode1 (op i)) (regs s) (arg1 i)) as [a|] eqn:F1; [|discriminate].
  destruct (fetch (mode2 (op i)) (regs s) (arg2 i)) as [b|] eqn:F2; [|discriminate].
  destruct (if reads_result i then option_map (regs s) (result i) else Some 0) as [rv|]; [|discriminate].
  destruct (exec (op i) (sz i) (cc i) a b rv (flag s) (args s) (outside s)) as [e|] eqn:X; [|discriminate].
  destruct (exec_word _ _ _ _ _ _ _ _ _ _ (fetch_word _ _ _ _ R V1 F1) (fetch_word _ _ _ _ R V2 F2) A X) as [E1 E2].
  unfold apply in H. destruct (e_done W e); [discriminate|].
  destruct (e_res W e) as [v|]; [destruct (result i) as [r|]; [|discriminate]|];
    injection H as <-; split; cbn [JitModel.regs JitModel.args]; auto.
  intros x. unfold upd. destruct (x =? r)%nat; auto.
Qed.

(* ---- frames ---- *)

Lemma exec_frame o s c a b rv fl ar w e : exec o s c a b rv fl ar w = Some e ->
  (o <> J_SEND -> o <> J_CALL -> o <> MACRO_EXIT -> o <> MACRO_REEXEC -> e_args W e = ar) /\
  (match o with
   | J_CMP | J_FCMP | J_CCMP | J_FCCMP => True
   | J_ADD | J_SUB | J_MUL | MACRO_EXP => c <> CC_NONE
   | _ => False
   end \/ e_flag W e = fl) /\
  (e_res W e <> None -> produces o = true) /\
  (produces o = true -> e_res W e <> None).
Proof.
  intros H.
  destruct o; cbn [JitModel.exec produces] in *; unfold setr, jump in H;
    repeat match type of H with
    | context [match prim ?o ?s ?c ?a ?b ?rv ?fl ar ?w with _ => _ end] =>
      destruct (prim o s c a b rv fl ar w) as [[[[? ?] ?] ?]|]; [|discriminate H]
    | context [checked ?f ?s ?c ?a ?b] =>
      let X := fresh "CX" in
      destruct (checked f s c a b) as [[? [?|]]|] eqn:X; [| |discriminate H]
    end;
    try (injection H as <-; cbn [e_res e_args e_flag]; repeat split; auto; try discriminate; try contradiction; fail).
  all: try (injection H as <-; cbn [e_res e_args e_flag]; repeat split; auto; try discriminate; left; intros ->;
            cbn in CX; congruence).
  all: try discriminate.
  - destruct c; try discriminate; injection H as <-; cbn [e_res e_args e_flag]; repeat split; auto; discriminate.
  - destruct ((b =? 0) || ((a =? - M63) && (b =? -1))); [discriminate|]. injection H as <-.
    cbn [e_res e_args e_flag]; repeat split; auto; discriminate.
  - destruct ((b =? 0) || ((a =? - M63) && (b =? -1))); [discriminate|]. injection H as <-.
    cbn [e_res e_args e_flag]; repeat split; auto; discriminate.
  - destruct ((0 <=? b) && (b <? 64)); [|discriminate]. injection H as <-.
    cbn [e_res e_args e_flag]; repeat split; auto; discriminate.
  - destruct ((0 <=? b) && (b <? 64)); [|discriminate]. injection H as <-.
    cbn [e_res e_args e_flag]; repeat split; auto; discriminate.
  - injection H as <-. cbn [e_res e_args e_flag]; repeat split; auto; try discriminate.
    destruct c; cbn; auto; left; discriminate.
Qed.

Lemma eval_sstep j s r v fo : ieval j (regs s) = Some (v, fo) -> result j = Some r ->
  sstep j s = Next (State (S (pc s)) (upd (regs s) r v) (match fo with Some f => f | None => flag s end)
                          (args s) (outside s)).
Proof.
  intros H R. unfold LvnProofs.ieval in H. unfold sstep.
  destruct (fetch (mode1 (op j)) (regs s) (arg1 j)) as [a|]; [|discriminate].
  destruct (fetch (mode2 (op j)) (regs s) (arg2 j)) as [b|]; [|discriminate].
  assert (RR : reads_result j = false).
  { unfold reads_result. destruct (op j); cbn in H; try discriminate; reflexivity. }
  rewrite RR. unfold apply. rewrite R.
  destruct (op j); cbn [peval] in H; try discriminate; cbn [JitModel.exec]; unfold setr;
    try (rewrite H; destruct fo; reflexivity);
    try (match type of H with context [if ?x then _ else _] => destruct x end; try discriminate);
    injection H as <- <-; reflexivity.
Qed.

Lemma pure_eval i s : pure (op i) = true -> sstep i s <> Crash -> exists v fo, ieval i (regs s) = Some (v, fo).
Proof.
  intros P N. unfold sstep in N. unfold LvnProofs.ieval.
  destruct (fetch (mode1 (op i)) (regs s) (arg1 i)) as [a|]; [|now destruct N].
  destruct (fetch (mode2 (op i)) (regs s) (arg2 i)) as [b|]; [|now destruct N].
  destruct (if reads_result i then option_map (regs s) (result i) else Some 0) as [rv|]; [|now destruct N].
  destruct (op i); cbn in P; try discriminate; cbn [JitModel.exec peval] in *;
    try (destruct (checked _ (sz i) (cc i) a b) as [[v fo]|]; [eauto|now destruct N]);
    try (match type of N with context [if ?x then None else _] => destruct x end; [now destruct N|eauto]);
    try (match type of N with context [if ?x then _ else None] => destruct x end; [eauto|now destruct N]);
    eauto.
Qed.

Lemma sstep_frame i s t : sstep i s = Next t ->
  (op i <> J_SEND -> op i <> J_CALL -> op i <> MACRO_EXIT -> args t = args s) /\
  (writes_flags i = false -> flag t = flag s) /\
  (produces (op i) = true /\ (exists r v, result i = Some r /\ regs t = upd (regs s) r v) \/
   produces (op i) = false /\ regs t = regs s).
Proof.
  intros H. unfold sstep in H.
  destruct (fetch (mode1 (op i)) (regs s) (arg1 i)) as [a|]; [|discriminate].
  destruct (fetch (mode2 (op i)) (regs s) (arg2 i)) as [b|]; [|discriminate].
  destruct (if reads_result i then option_map (regs s) (result i) else Some 0) as [rv|]; [|discriminate].
  destruct (exec (op i) (sz i) (cc i) a b rv (flag s) (args s) (outside s)) as [e|] eqn:X; [|discriminate].
  destruct (exec_frame _ _ _ _ _ _ _ _ _ _ X) as (E1 & E2 & E3 & E4).
  unfold apply in H. destruct (e_done W e) eqn:DN; [discriminate|].
  assert (NR : op i <> MACRO_REEXEC).
  { intros O. rewrite O in X. cbn [JitModel.exec] in X.
    destruct (prim MACRO_REEXEC (sz i) (cc i) 0 0 0 false (args s) (outside s)) as [[[[? ?] ?] ?]|]; [|discriminate].
    injection X as <-. discriminate. }
  assert (FL : writes_flags i = false -> e_flag W e = flag s).
  { intros WF. destruct E2 as [E2|E2]; [|exact E2]. exfalso. unfold writes_flags in WF.
    destruct (op i); try contradiction; try discriminate;
      apply negb_false_iff in WF; destruct (cc i); try discriminate; now destruct E2. }
  destruct (e_res W e) as [v|].
  - destruct (result i) as [r|]; [|discriminate]. injection H as <-. cbn [JitModel.args JitModel.flag JitModel.regs].
    split; [intros; now apply E1|]. split; [exact FL|]. left. split; [apply E3; discriminate|]. eauto.
  - injection H as <-. cbn [JitModel.args JitModel.flag JitModel.regs].
    split; [intros; now apply E1|]. split; [exact FL|]. right. split; [|reflexivity].
    destruct (produces (op i)); [|reflexivity]. now destruct (E4 eq_refl).
Qed.

(* ---- pieces of the invariant ---- *)

Lemma dinv_D val st rg fl ar (D D2 : nat -> Prop) : (forall a, D a -> D2 a) ->
  dinv val st rg fl ar D -> dinv val st rg fl ar D2.
Proof.
  intros H HD. constructor; try apply HD.
  intros a k Ha E. destruct (d_arg _ _ _ _ _ _ _ _ _ HD a k Ha E); auto.
Qed.

Lemma dinv_forget val st rg fl ar D r : (r < nregs)%nat ->
  dinv val st rg fl ar D -> dinv val (set_vn st r None) rg fl ar D.
Proof.
  intros Hr HD. constructor; cbn [set_vn regvn nextvn consts tab].
  - exact (d_const _ _ _ _ _ _ _ _ _ HD).
  - intros x k Hx E. unfold upd in E. destruct (Nat.eqb_spec x r) as [_|_]; [discriminate|].
    exact (d_reg _ _ _ _ _ _ _ _ _ HD _ _ Hx E).
  - intros k E. rewrite upd_other in E by lia. exact (d_flag _ _ _ _ _ _ _ _ _ HD _ E).
  - intros a k Ha E. rewrite upd_other in E by lia. exact (d_arg _ _ _ _ _ _ _ _ _ HD _ _ Ha E).
  - intros idx e k q T R E. unfold upd in E. destruct (Nat.eqb_spec q r) as [_|_]; [discriminate|].
    exact (d_tab _ _ _ _ _ _ _ _ _ HD _ _ _ _ T R E).
Qed.

Lemma dinv_kill_args val st rg fl ar ar' D D' : dinv val st rg fl ar D ->
  dinv val (kill_args nregs st) rg fl ar' D'.
Proof.
  intros HD. unfold kill_args. constructor; cbn [regvn nextvn consts tab].
  - exact (d_const _ _ _ _ _ _ _ _ _ HD).
  - intros x k Hx E. destruct (Nat.ltb_spec nregs x); [lia|].
    exact (d_reg _ _ _ _ _ _ _ _ _ HD _ _ Hx E).
  - intros k E. rewrite Nat.ltb_irrefl in E. exact (d_flag _ _ _ _ _ _ _ _ _ HD _ E).
  - intros a k Ha E. destruct (Nat.ltb_spec nregs (nregs + 1 + a)); [|lia].
    destruct (Nat.leb_spec (nregs + 1 + a) (nregs + TRACK_ARGS)); [discriminate|]. unfold TRACK_ARGS in *. lia.
  - intros idx e k q T R E.
    destruct ((nregs <? q)%nat && (q <=? nregs + TRACK_ARGS)%nat); [discriminate|].
    exact (d_tab _ _ _ _ _ _ _ _ _ HD _ _ _ _ T R E).
Qed.

Lemma sinv_kill_args M st : sinv M st -> sinv M (kill_args nregs st).
Proof.
  intros HS. constructor; cbn [kill_args regvn nextvn consts tab]; try apply HS.
  - intros r k. destruct ((nregs <? r)%nat && (r <=? nregs + TRACK_ARGS)%nat); [discriminate|]. apply HS.
  - intros r. destruct ((nregs <? r)%nat && (r <=? nregs + TRACK_ARGS)%nat); [congruence|]. apply HS.
Qed.

Lemma dinv_clobber M val st rg fl ar D r : sinv M st -> (r < nregs)%nat -> dinv val st rg fl ar D ->
  exists val', dinv val' (set_vn (snd (new_value st)) r (Some (nextvn st))) rg fl ar D.
Proof.
  intros HS Hr HD.
  destruct (dinv_fresh nregs cpool_base cover_addr val st _ rg fl ar D M (rg r) HS HD eq_refl) as (val' & HD' & A & V).
  exists val'. apply (dinv_number nregs cpool_base cover_addr M); auto.
  - exact (sinv_fresh nregs M st HS).
  - intros idx e T R. cbn [new_value snd tab] in T. destruct (s_tab _ _ _ HS _ _ _ T) as [K _].
    unfold known in K. pose proof (s_len _ _ _ HS). pose proof (s_next _ _ _ HS). lia.
Qed.

Lemma dinv_reset st rg fl ar D :
  dinv (fun k => match get_const st k with Some z => z | None => 0 end) (reset_vns st) rg fl ar D.
Proof.
  constructor; cbn [reset_vns regvn tab]; try discriminate.
  intros k z _ G. change (get_const (reset_vns st) k) with (get_const st k) in G. now rewrite G.
Qed.

Lemma sinv_reset M st : sinv M st -> sinv M (reset_vns st).
Proof. intros HS. constructor; cbn [reset_vns regvn nextvn consts tab]; try apply HS; try discriminate. congruence. Qed.

Lemma probe_shape lim : forall idx stale t0 t1 t2 vn i r st i' st',
  probe tabsz lim idx stale t0 t1 t2 vn i r st = Ok (i', st') -> i' = i \/ exists x, i' = mov_of i x.
Proof.
  induction lim as [|lim IH]; intros idx stale t0 t1 t2 vn i r st i' st' H; cbn [probe] in H.
  { injection H as <- _. now left. }
  destruct (tab st idx) as [[e k]|].
  - destruct (result e) as [re|]; [|discriminate].
    destruct (negb (vnum_eqb (regvn st re) (Some k))); [exact (IH _ _ _ _ _ _ _ _ _ _ _ H)|].
    destruct (get_tuple st e) as [[[[c0 c1] c2] st1]|]; [|discriminate]. cbn [bind] in H.
    destruct ((c0 =? t0) && vnum_eqb c1 t1 && vnum_eqb c2 t2); [|exact (IH _ _ _ _ _ _ _ _ _ _ _ H)].
    injection H as <- _. right. eauto.
  - destruct (match vn with Some k => (k, st) | None => new_value st end) as [k st1]. injection H as <- _. now left.
Qed.
Lemma generic_shape j st vn i' st' : generic tabsz j st vn = Ok (i', st') -> i' = j \/ exists x, i' = mov_of j x.
Proof.
  unfold generic. destruct (result j); [|discriminate].
  destruct (get_tuple st j) as [[[[t0 t1] t2] st1]|]; [|discriminate]. cbn [bind]. apply probe_shape.
Qed.

(* ---- one instruction ---- *)

Definition plus_result (M : nat -> Prop) (i : ir) : nat -> Prop := fun r => M r \/ result i = Some r.

Record fine (M : nat -> Prop) (i : ir) : Prop := Fine {
  f_args : argsin M i;
  f_low : forall r, result i = Some r -> (r < nregs)%nat;
  f_new : forall r, result i = Some r -> produces (op i) = true -> ~ M r;
  f_read : forall r, result i = Some r -> reads_result i = true -> M r;
  f_kind : forall r, result i = Some r -> produces (op i) = true \/ reads_result i = true;
  f_named : produces (op i) = true -> result i <> None;
  f_words : value_word (arg1 i) /\ value_word (arg2 i);
  f_div : op i = J_DIV -> bits (sz i) = 64;
  f_slot : op i = J_SEND \/ op i = J_RECV -> exists z, arg1 i = VInt z /\ 0 <= z < 4294967296 }.

Definition slot_ok (i : ir) (st : lvn) (D : nat -> Prop) : Prop :=
  op i = J_SEND \/ op i = J_RECV -> forall z, arg1 i = VInt z -> (Z.to_nat z < 8)%nat ->
  ~ D (Z.to_nat z) \/ regvn st (nregs + 1 + Z.to_nat z) = None.

Definition dirty (i : ir) (D : nat -> Prop) : nat -> Prop :=
  fun a => D a \/ op i = J_SEND /\ exists z, arg1 i = VInt z /\ Z.to_nat z = a.

Definition one_ok (M : nat -> Prop) (st : lvn) (i i' : ir) (st' : lvn) : Prop :=
  sinv (plus_result M i) st' /\ op i' <> J_JUMP /\
  forall s val D, dinv val st (regs s) (flag s) (args s) D -> ranged s -> slot_ok i st D ->
    keeps i i' -> (block_op (op i) = true -> i' = i) -> sstep i s <> Crash ->
    alike (sstep i s) (sstep i' s) /\
    forall t, sstep i s = Next t ->
      exists val', dinv val' st' (regs t) (flag t) (args t) (dirty i D).

Section One.
Variable M : nat -> Prop.
Variable i : ir.
Hypothesis FI : fine M i.

Lemma plus_result_low (HB : forall x, M x -> (x < nregs)%nat) : forall x, plus_result M i x -> (x < nregs)%nat.
Proof. intros x [H|H]; [auto|exact (f_low _ _ FI _ H)]. Qed.

Lemma sinv_more st : sinv M st -> sinv (plus_result M i) st.
Proof.
  intros HS. apply (sinv_mono nregs M); auto; [unfold plus_result; auto|].
  apply plus_result_low. exact (s_below _ _ _ HS).
Qed.
Lemma sinv_plus st r : result i = Some r -> sinv (plus M r) st -> sinv (plus_result M i) st.
Proof.
  intros R HS. apply (sinv_mono nregs (plus M r)); auto.
  - intros x [H| ->]; [left; exact H|right; exact R].
  - intros x [H|H]; apply (s_below _ _ _ HS); [left; exact H|right; congruence].
Qed.
Lemma sinv_set_result st r k : sinv M st -> result i = Some r -> (forall k', k = Some k' -> known st k') ->
  sinv (plus_result M i) (set_vn st r k).
Proof.
  intros HS R K. apply (sinv_set nregs M); auto.
  - unfold plus_result; auto.
  - apply plus_result_low. exact (s_below _ _ _ HS).
  - right. exact R.
Qed.
Lemma sinv_flag st k : sinv M st -> (forall k', k = Some k' -> (k' < 100)%N) ->
  sinv (plus_result M i) (set_vn st nregs k).
Proof.
  intros HS K. apply (sinv_set nregs M); auto.
  - unfold plus_result; auto.
  - apply plus_result_low. exact (s_below _ _ _ HS).
  - lia.
  - intros k' E. left. exact (K _ E).
Qed.

(* The registers after an instruction that nothing is remembered about. *)
Lemma dinv_after val st s t fl ar D : sinv M st -> sstep i s = Next t ->
  dinv val st (regs s) fl ar D -> dinv val st (regs t) fl ar D.
Proof.
  intros HS H HD. destruct (sstep_frame _ _ _ H) as (_ & _ & [(P & r & v & R & ->)|(_ & ->)]); [|exact HD].
  apply (dinv_upd nregs cpool_base cover_addr M); auto; [exact (f_low _ _ FI _ R)|exact (f_new _ _ FI _ R P)].
Qed.

Lemma other_ok st i' st' : sinv M st -> op i <> J_JUMP -> op i <> J_SEND -> block_op (op i) = false ->
  op i <> J_CALL -> op i <> MACRO_EXIT -> i' = i -> st' = lvn_other nregs i st -> one_ok M st i i' st'.
Proof.
  intros HS NJ NS NB NC NE -> ->.
  assert (SF : sinv M (if writes_flags i then kill_flags nregs st else st))
    by (destruct (writes_flags i); [now apply sinv_kill_flags|exact HS]).
  split.
  { unfold lvn_other. destruct (result i) as [r|] eqn:R; [|now apply sinv_more].
    apply sinv_set_result; auto. discriminate. }
  split; [exact NJ|].
  intros s val D HD RG SO K B NCr. split; [apply alike_refl|]. intros t T. exists val.
  apply (dinv_D _ _ _ _ _ D); [unfold dirty; auto|].
  destruct (sstep_frame _ _ _ T) as (A & F & _). rewrite (A NS NC NE).
  assert (HD1 : dinv val (if writes_flags i then kill_flags nregs st else st) (regs s) (flag t) (args s) D).
  { destruct (writes_flags i) eqn:WF; [eapply dinv_kill_flags; exact HD|]. rewrite (F eq_refl). exact HD. }
  unfold lvn_other. pose proof (dinv_after _ _ _ _ _ _ _ SF T HD1) as HD2.
  destruct (result i) as [r|] eqn:R; [|exact HD2].
  apply dinv_forget; [exact (f_low _ _ FI _ R)|exact HD2].
Qed.

Lemma call_ok st i' st' : sinv M st -> op i = J_CALL \/ op i = MACRO_EXIT ->
  i' = i -> st' = lvn_other nregs i (kill_args nregs st) -> one_ok M st i i' st'.
Proof.
  intros HS0 O -> ->. pose proof (sinv_kill_args _ _ HS0) as HS.
  assert (SF : sinv M (if writes_flags i then kill_flags nregs (kill_args nregs st) else kill_args nregs st))
    by (destruct (writes_flags i); [now apply sinv_kill_flags|exact HS]).
  split.
  { unfold lvn_other. destruct (result i) as [r|] eqn:R; [|now apply sinv_more].
    apply sinv_set_result; auto. discriminate. }
  split; [destruct O; congruence|].
  intros s val D HD RG SO K B NCr. split; [apply alike_refl|]. intros t T. exists val.
  destruct (sstep_frame _ _ _ T) as (_ & F & _).
  assert (HD1 : dinv val (if writes_flags i then kill_flags nregs (kill_args nregs st) else kill_args nregs st)
                     (regs s) (flag t) (args t) (dirty i D)).
  { pose proof (dinv_kill_args _ _ _ _ _ (args t) _ (dirty i D) HD) as HK.
    destruct (writes_flags i) eqn:WF; [eapply dinv_kill_flags; exact HK|]. rewrite (F eq_refl). exact HK. }
  unfold lvn_other. pose proof (dinv_after _ _ _ _ _ _ _ SF T HD1) as HD2.
  destruct (result i) as [r|] eqn:R; [|exact HD2].
  apply dinv_forget; [exact (f_low _ _ FI _ R)|exact HD2].
Qed.

Lemma words_of : words i.
Proof.
  intros z [E|E]; destruct (f_words _ _ FI) as [W1 W2]; [rewrite E in W1; exact W1|rewrite E in W2; exact W2].
Qed.

Lemma pure_ok cur n st i' st' : sinv M st -> pure (op i) = true ->
  lvn_one cur n i st = Ok (i', st') -> one_ok M st i i' st'.
Proof.
  intros HS P H. assert (PR : produces (op i) = true) by (destruct (op i); try discriminate; reflexivity).
  destruct (result i) as [r|] eqn:R; [|now destruct (f_named _ _ FI PR)].
  destruct (pure_good nregs tabsz cpool_load cpool_base cover_addr M st i i' st' r cur n P (f_div _ _ FI) words_of HS R
    (f_low _ _ FI _ R) (f_new _ _ FI _ R PR) (f_args _ _ FI) H) as (Q1 & Q2 & Q3).
  split; [exact (sinv_plus _ _ R Q1)|]. split; [exact Q2|].
  intros s val D HD RG SO K B NCr.
  destruct (pure_eval i s P NCr) as (v & fo & X).
  destruct (Q3 val (regs s) (flag s) (args s) D v fo HD (proj1 RG) X K) as (val' & HD' & R' & X').
  rewrite (eval_sstep i s r v fo X R), (eval_sstep i' s r v fo X' R').
  split; [apply alike_refl|]. intros t T. injection T as <-. exists val'.
  cbn [JitModel.regs JitModel.flag JitModel.args]. apply (dinv_D _ _ _ _ _ D); [unfold dirty; auto|exact HD'].
Qed.

(* Comparisons. *)
Lemma cmp_dyn st s val D j st' a b fl' :
  sinv M st -> dinv val st (regs s) (flag s) (args s) D -> arg1 j = arg1 i -> arg2 j = arg2 i -> cc j = cc i ->
  fetch MInt (regs s) (arg1 i) = Some a -> fetch MInt (regs s) (arg2 i) = Some b ->
  fl' = match compare (cc i) a b with Some r => r | None => false end ->
  lvn_cmp nregs j st = Ok (j, st') -> dinv val st' (regs s) fl' (args s) D.
Proof.
  intros HS HD A1 A2 CJ F1 F2 -> H. unfold lvn_cmp in H.
  pose proof (dinv_kill_flags nregs cpool_base cover_addr val st (regs s) (flag s)
    (match compare (cc i) a b with Some r => r | None => false end) (args s) D HD) as HK.
  destruct (can_fold st j) as [[x y]|] eqn:C.
  - destruct (can_fold_inv _ _ _ _ C) as [C1 C2]. rewrite A1 in C1. rewrite A2 in C2.
    rewrite (const1 nregs cpool_base cover_addr M st i HS (f_args _ _ FI) _ _ _ _ _ _ HD C1) in F1.
    rewrite (const2 nregs cpool_base cover_addr M st i HS (f_args _ _ FI) _ _ _ _ _ _ HD C2) in F2.
    injection F1 as ->. injection F2 as ->. rewrite CJ in H.
    destruct (compare (cc i) a b) as [r|]; [|discriminate]. injection H as <-.
    constructor; cbn [set_vn regvn nextvn consts tab].
    + exact (d_const _ _ _ _ _ _ _ _ _ HD).
    + intros z k Hz E. rewrite upd_other in E by lia. exact (d_reg _ _ _ _ _ _ _ _ _ HD _ _ Hz E).
    + intros k E. rewrite upd_same in E. injection E as <-. now destruct r.
    + intros z k Hz E. rewrite upd_other in E by lia. exact (d_arg _ _ _ _ _ _ _ _ _ HD _ _ Hz E).
    + intros idx e k q T R E. destruct (s_tab _ _ _ HS _ _ _ T) as [_ [(q' & R' & Mq) _]].
      assert (q' = q) by congruence. subst q'. pose proof (s_below _ _ _ HS _ Mq).
      rewrite upd_other in E by lia. exact (d_tab _ _ _ _ _ _ _ _ _ HD _ _ _ _ T R E).
  - injection H as <-. exact HK.
Qed.

Lemma cmp_static st j i' st' : sinv M st -> lvn_cmp nregs j st = Ok (i', st') ->
  i' = j /\ sinv (plus_result M i) st'.
Proof.
  intros HS H. unfold lvn_cmp in H. destruct (can_fold st j) as [[x y]|].
  - destruct (compare (cc j) x y) as [r|]; [|discriminate]. injection H as <- <-. split; [reflexivity|].
    apply sinv_flag; auto. intros k E. injection E as <-. destruct r; lia.
  - injection H as <- <-. split; [reflexivity|]. apply sinv_flag; auto. discriminate.
Qed.

Lemma cmp_ok st i' st' : sinv M st -> op i = J_CMP -> lvn_cmp nregs i st = Ok (i', st') -> one_ok M st i i' st'.
Proof.
  intros HS O H. destruct (cmp_static _ _ _ _ HS H) as [-> Q]. split; [exact Q|]. split; [congruence|].
  intros s val D HD RG SO K B NCr. split; [apply alike_refl|]. intros t T. exists val.
  apply (dinv_D _ _ _ _ _ D); [unfold dirty; auto|].
  unfold sstep in T, NCr. unfold reads_result in T, NCr. rewrite O in T, NCr. cbn [mode1 mode2] in T, NCr.
  destruct (fetch MInt (regs s) (arg1 i)) as [a|] eqn:F1; [|discriminate].
  destruct (fetch MInt (regs s) (arg2 i)) as [b|] eqn:F2; [|discriminate].
  cbn [JitModel.exec] in T. unfold jump, apply in T. cbn [e_done e_res e_jump e_flag e_args e_w] in T.
  injection T as <-. cbn [JitModel.regs JitModel.flag JitModel.args].
  exact (cmp_dyn _ _ _ _ _ _ _ _ _ HS HD eq_refl eq_refl eq_refl F1 F2 eq_refl H).
Qed.

Lemma ccmp_ok st i' st' : sinv M st -> op i = J_CCMP -> lvn_ccmp nregs i st = Ok (i', st') -> one_ok M st i i' st'.
Proof.
  intros HS O H. unfold lvn_ccmp in H.
  assert (ST : forall s a b, fetch MInt (regs s) (arg1 i) = Some a -> fetch MInt (regs s) (arg2 i) = Some b ->
    sstep i s = Next (State (S (pc s)) (regs s) (match compare (cc i) a b with Some r => flag s && r | None => false end)
                            (args s) (outside s))).
  { intros s a b F1 F2. unfold sstep, reads_result. rewrite O. cbn [mode1 mode2]. rewrite F1, F2. reflexivity. }
  assert (FT : forall s, sstep i s <> Crash -> exists a b, fetch MInt (regs s) (arg1 i) = Some a /\
                           fetch MInt (regs s) (arg2 i) = Some b).
  { intros s N. unfold sstep in N. rewrite O in N. cbn [mode1 mode2] in N.
    destruct (fetch MInt (regs s) (arg1 i)) as [a|]; [|now destruct N].
    destruct (fetch MInt (regs s) (arg2 i)) as [b|]; [|now destruct N]. eauto. }
  destruct (regvn st nregs) as [k|] eqn:RF.
  - destruct (N.eqb_spec k 0) as [->|NK].
    + injection H as <- <-. split; [now apply sinv_more|]. split; [discriminate|].
      intros s val D HD RG SO K B NCr. destruct (FT s NCr) as (a & b & F1 & F2). rewrite (ST s a b F1 F2).
      pose proof (d_flag _ _ _ _ _ _ _ _ _ HD _ RF) as FL. destruct (flag s) eqn:FS; [discriminate|].
      assert (E : match compare (cc i) a b with Some r => false && r | None => false end = false)
        by (destruct (compare (cc i) a b); reflexivity).
      rewrite E. split.
      * unfold sstep, nop_of. cbn. rewrite FS. auto.
      * intros t T. injection T as <-. exists val. cbn [JitModel.regs JitModel.flag JitModel.args].
        apply (dinv_D _ _ _ _ _ D); [unfold dirty; auto|exact HD].
    + destruct (cmp_static _ _ _ _ HS H) as [-> Q]. split; [exact Q|]. split; [discriminate|].
      intros s val D HD RG SO K B NCr. destruct (FT s NCr) as (a & b & F1 & F2). rewrite (ST s a b F1 F2).
      pose proof (d_flag _ _ _ _ _ _ _ _ _ HD _ RF) as FL. destruct (flag s) eqn:FS; [|congruence].
      split.
      * unfold sstep, set_op. cbn [op mode1 mode2 arg1 arg2]. rewrite F1, F2. cbn. auto.
      * intros t T. injection T as <-. exists val. cbn [JitModel.regs JitModel.flag JitModel.args].
        apply (dinv_D _ _ _ _ _ D); [unfold dirty; auto|].
        rewrite <- FS in HD.
        apply (cmp_dyn st s val D (set_op i J_CMP (arg1 i) (arg2 i)) st' a b); auto.
  - injection H as <- <-. split; [apply sinv_flag; auto; discriminate|]. split; [congruence|].
    intros s val D HD RG SO K B NCr. destruct (FT s NCr) as (a & b & F1 & F2). split; [apply alike_refl|].
    rewrite (ST s a b F1 F2). intros t T. injection T as <-. exists val.
    cbn [JitModel.regs JitModel.flag JitModel.args].
    apply (dinv_D _ _ _ _ _ D); [unfold dirty; auto|]. eapply dinv_kill_flags. exact HD.
Qed.

(* An instruction that becomes a move, or stays. *)
Lemma unchanged_ok st : sinv M st -> op i <> J_JUMP -> op i <> J_SEND -> op i <> J_CALL -> op i <> MACRO_EXIT ->
  writes_flags i = false -> one_ok M st i i st.
Proof.
  intros HS NJ NS NC NE WF. split; [now apply sinv_more|]. split; [exact NJ|].
  intros s val D HD RG SO K B NCr. split; [apply alike_refl|]. intros t T. exists val.
  apply (dinv_D _ _ _ _ _ D); [unfold dirty; auto|].
  destruct (sstep_frame _ _ _ T) as (A & F & _). rewrite (A NS NC NE), (F WF).
  exact (dinv_after _ _ _ _ _ _ _ HS T HD).
Qed.

Lemma becomes_mov st x i' st' r : sinv M st -> result i = Some r -> produces (op i) = true ->
  (forall y, In y (value_regs x) -> M y) ->
  (forall s val D, dinv val st (regs s) (flag s) (args s) D -> sstep i s <> Crash -> exists v,
     fetch MScalar (regs s) x = Some v /\
     sstep i s = Next (State (S (pc s)) (upd (regs s) r v) (flag s) (args s) (outside s))) ->
  convert_mov tabsz i st x = Ok (i', st') -> one_ok M st i i' st'.
Proof.
  intros HS R P AX E H.
  destruct (convert_mov_ok nregs tabsz cpool_base cover_addr M st i x i' st' r HS R (f_low _ _ FI _ R)
    (f_new _ _ FI _ R P) AX H) as (Q1 & Q2 & Q3).
  split; [exact (sinv_plus _ _ R Q1)|]. split; [destruct Q2 as [-> |(y & ->)]; discriminate|].
  intros s val D HD RG SO K B NCr. destruct (E s val D HD NCr) as (v & F & ST).
  destruct (Q3 val (regs s) (flag s) (args s) D v HD F) as (val' & HD' & y & -> & Fy).
  rewrite ST. rewrite (eval_sstep (mov_of i y) s r v None (ieval_mov _ _ _ _ _ _ Fy) R).
  split; [apply alike_refl|]. intros t T. injection T as <-. exists val'.
  cbn [JitModel.regs JitModel.flag JitModel.args]. apply (dinv_D _ _ _ _ _ D); [unfold dirty; auto|exact HD'].
Qed.

Lemma csel_ok st i' st' : sinv M st -> op i = J_CSEL -> lvn_csel nregs tabsz i st = Ok (i', st') -> one_ok M st i i' st'.
Proof.
  intros HS O H. unfold lvn_csel in H.
  assert (PR : produces (op i) = true) by now rewrite O.
  destruct (result i) as [r|] eqn:R; [|now destruct (f_named _ _ FI PR)].
  destruct (regvn st nregs) as [k|] eqn:RF.
  - apply (becomes_mov st _ i' st' r) in H; auto.
    + intros y Hy. apply (f_args _ _ FI), in_or_app. destruct (k =? 0)%N; auto.
    + intros s val D HD NCr. unfold sstep, reads_result in *. rewrite O in *. cbn [mode1 mode2] in *.
      destruct (fetch MInt (regs s) (arg1 i)) as [a|] eqn:F1; [|now destruct NCr].
      destruct (fetch MInt (regs s) (arg2 i)) as [b|] eqn:F2; [|now destruct NCr].
      pose proof (d_flag _ _ _ _ _ _ _ _ _ HD _ RF) as FL.
      exists (if flag s then a else b). split.
      * subst k. destruct (flag s); cbn [N.eqb];
          [apply (fetch_scalar _ _ MInt) in F1; auto|apply (fetch_scalar _ _ MInt) in F2; auto].
      * unfold apply. rewrite R. reflexivity.
  - injection H as <- <-. apply unchanged_ok; auto; try congruence. unfold writes_flags. now rewrite O.
Qed.

Lemma cset_ok st i' st' : sinv M st -> op i = J_CSET -> lvn_cset nregs tabsz i st = Ok (i', st') -> one_ok M st i i' st'.
Proof.
  intros HS O H. unfold lvn_cset in H.
  assert (PR : produces (op i) = true) by now rewrite O.
  destruct (result i) as [r|] eqn:R; [|now destruct (f_named _ _ FI PR)].
  destruct (regvn st nregs) as [k|] eqn:RF.
  - apply (becomes_mov st _ i' st' r) in H; auto.
    + intros y [].
    + intros s val D HD NCr. unfold sstep, reads_result in *. rewrite O in *. cbn [mode1 mode2] in *.
      pose proof (d_flag _ _ _ _ _ _ _ _ _ HD _ RF) as FL.
      exists (b2z (flag s)). split.
      * subst k. destruct (flag s); reflexivity.
      * unfold apply. rewrite R. reflexivity.
  - injection H as <- <-. apply unchanged_ok; auto; try congruence. unfold writes_flags. now rewrite O.
Qed.

Lemma slot_value z : 0 <= z < 4294967296 -> Z.to_nat (z mod 2 ^ 32) = Z.to_nat z.
Proof. intros H. f_equal. apply Z.mod_small. change (2 ^ 32) with 4294967296. exact H. Qed.

Lemma recv_ok st i' st' : sinv M st -> op i = J_RECV -> lvn_recv nregs i st = Ok (i', st') -> one_ok M st i i' st'.
Proof.
  intros HS O H. unfold lvn_recv in H.
  assert (PR : produces (op i) = true) by now rewrite O.
  destruct (result i) as [r|] eqn:R; [|now destruct (f_named _ _ FI PR)].
  destruct (f_slot _ _ FI (or_intror O)) as (z & A1 & Z0). rewrite A1 in H. cbn [slot_of bind] in H.
  rewrite (slot_value z Z0) in H. set (a := Z.to_nat z) in *.
  pose proof (f_low _ _ FI _ R) as Hr. pose proof (f_new _ _ FI _ R PR) as NM.
  assert (ST : forall s t, sstep i s = Next t -> t = State (S (pc s)) (upd (regs s) r (args s a)) (flag s) (args s) (outside s)).
  { intros s t T. unfold sstep, reads_result in T. rewrite O, A1 in T. cbn [mode1 mode2 JitModel.fetch JitModel.exec] in T.
    unfold setr, apply in T. rewrite R in T. cbn in T. now injection T as <-. }
  assert (NJ : op i <> J_JUMP) by congruence.
  destruct (Nat.leb_spec TRACK_ARGS a) as [L|L].
  - injection H as <- <-. apply unchanged_ok; auto; try congruence. unfold writes_flags. now rewrite O.
  - destruct (regvn st (nregs + 1 + a)) as [k|] eqn:RV.
    + injection H as <- <-. split.
      { apply sinv_set_result; auto. intros k' E. injection E as <-. exact (s_reg _ _ _ HS _ _ RV). }
      split; [exact NJ|].
      intros s val D HD RG SO K B NCr. split; [apply alike_refl|]. intros t T. rewrite (ST s t T). exists val.
      cbn [JitModel.regs JitModel.flag JitModel.args]. apply (dinv_D _ _ _ _ _ D); [unfold dirty; auto|].
      apply (dinv_new_reg nregs cpool_base cover_addr M); auto.
      intros k' E. injection E as <-.
      destruct (SO (or_intror O) z A1 L) as [ND|N0]; [|fold a in N0; congruence].
      destruct (d_arg _ _ _ _ _ _ _ _ _ HD _ _ L RV) as [X|X]; [now destruct ND|now symmetry].
    + cbn [new_value] in H. injection H as <- <-.
      change (Lvn (regvn st) (N.succ (nextvn st)) (tab st) (consts st)) with (snd (new_value st)).
      pose proof (sinv_fresh nregs _ _ HS) as HS1. pose proof (new_known nregs _ _ HS) as KN.
      assert (HS2 : sinv M (set_vn (snd (new_value st)) (nregs + 1 + a) (Some (nextvn st)))).
      { apply (sinv_set nregs M); auto; [exact (s_below _ _ _ HS)|lia|].
        intros k' E. injection E as <-. exact KN. }
      split.
      { apply sinv_set_result; auto. intros k' E. injection E as <-. exact KN. }
      split; [exact NJ|].
      intros s val D HD RG SO K B NCr. split; [apply alike_refl|]. intros t T. rewrite (ST s t T).
      destruct (dinv_fresh nregs cpool_base cover_addr val st _ (regs s) (flag s) (args s) D M (args s a) HS HD eq_refl)
        as (val' & HD' & A & V).
      exists val'. cbn [JitModel.regs JitModel.flag JitModel.args].
      apply (dinv_D _ _ _ _ _ D); [unfold dirty; auto|].
      apply (dinv_new_reg nregs cpool_base cover_addr M); auto; [|intros k' E; injection E as <-; exact V].
      constructor; cbn [set_vn regvn nextvn consts tab].
      * exact (d_const _ _ _ _ _ _ _ _ _ HD').
      * intros x k Hx E. rewrite upd_other in E by lia. exact (d_reg _ _ _ _ _ _ _ _ _ HD' _ _ Hx E).
      * intros k E. rewrite upd_other in E by lia. exact (d_flag _ _ _ _ _ _ _ _ _ HD' _ E).
      * intros x k Hx E. unfold upd in E. destruct (Nat.eqb_spec (nregs + 1 + x) (nregs + 1 + a)) as [EX|_].
        -- injection E as <-. assert (x = a) by lia. subst x. right. symmetry. exact V.
        -- exact (d_arg _ _ _ _ _ _ _ _ _ HD' _ _ Hx E).
      * intros idx e k q Tb Rq E. destruct (s_tab _ _ _ HS1 _ _ _ Tb) as [_ [(q' & R' & Mq) _]].
        assert (q' = q) by congruence. subst q'. pose proof (s_below _ _ _ HS _ Mq).
        rewrite upd_other in E by lia. exact (d_tab _ _ _ _ _ _ _ _ _ HD' _ _ _ _ Tb Rq E).
Qed.

Lemma send_ok st i' st' : sinv M st -> op i = J_SEND -> lvn_send nregs i st = Ok (i', st') -> one_ok M st i i' st'.
Proof.
  intros HS O H. unfold lvn_send in H.
  destruct (f_slot _ _ FI (or_introl O)) as (z & A1 & Z0). rewrite A1 in H. cbn [slot_of bind] in H.
  rewrite (slot_value z Z0) in H. set (a := Z.to_nat z) in *.
  assert (NJ : op i <> J_JUMP) by congruence.
  assert (RN : result i = None).
  { destruct (result i) as [r|] eqn:R; [|reflexivity]. exfalso.
    destruct (f_kind _ _ FI _ R) as [X|X]; [rewrite O in X; discriminate|].
    unfold reads_result in X. rewrite O in X. discriminate. }
  assert (ST : forall s, sstep i s <> Crash -> exists v, fetch MScalar (regs s) (arg2 i) = Some v /\
            sstep i s = Next (State (S (pc s)) (regs s) (flag s) (upd (args s) a v) (outside s))).
  { intros s N. unfold sstep, reads_result in *. rewrite O, A1 in *. cbn [mode1 mode2] in *.
    destruct (fetch MScalar (regs s) (arg2 i)) as [v|]; [|now destruct N]. exists v. split; reflexivity. }
  (* whatever the instruction, after a SEND the slot is not known *)
  assert (AF : forall st0 val s D v, dinv val st0 (regs s) (flag s) (args s) D ->
            dinv val st0 (regs s) (flag s) (upd (args s) a v) (dirty i D)).
  { intros st0 val s D v HD. constructor; try apply HD.
    intros x k Hx E. destruct (d_arg _ _ _ _ _ _ _ _ _ HD _ _ Hx E) as [X|X]; [left; left; exact X|].
    unfold upd. destruct (Nat.eqb_spec x a) as [EX|_].
    - left. right. split; [exact O|]. exists z. auto.
    - right. exact X. }
  assert (SM : forall st0, sinv M st0 -> sinv (plus_result M i) st0) by (intros; now apply sinv_more).
  assert (DONE : forall st0, (sinv M st0 /\ forall val rg fl ar D, dinv val st rg fl ar D -> exists val', dinv val' st0 rg fl ar D) ->
            one_ok M st i i st0).
  { intros st0 [S0 D0]. split; [auto|]. split; [exact NJ|].
    intros s val D HD RG SO K B NCr. split; [apply alike_refl|]. intros t T.
    destruct (ST s NCr) as (v & _ & E). rewrite E in T. injection T as <-.
    destruct (D0 _ _ _ _ _ HD) as (val' & HD'). exists val'. cbn [JitModel.regs JitModel.flag JitModel.args]. auto. }
  destruct (Nat.leb_spec TRACK_ARGS a) as [L|L].
  { injection H as <- <-. apply DONE. split; [exact HS|eauto]. }
  destruct (arg2 i) as [|x| | | | | | | | | | |] eqn:A2; try (injection H as <- <-; apply DONE; split; [exact HS|eauto]; fail).
  destruct (value_num st (VReg x)) as [[vn st1]|] eqn:VN; [|discriminate]. cbn [bind] in H.
  destruct (value_num_ok nregs cpool_base cover_addr M st (VReg x) vn st1 HS) as (S1 & G1 & N1 & K1 & R1 & F1); auto.
  { intros y Hy. apply (f_args _ _ FI), in_or_app. right. rewrite A2. exact Hy. }
  assert (DN1 : one_ok M st i i st1).
  { apply DONE. split; [exact S1|]. intros val rg fl ar D HD. destruct (F1 _ _ _ _ _ HD) as (val' & HD' & _). eauto. }
  destruct vn as [k|]; [|injection H as <- <-; exact DN1].
  destruct (vnum_eqb (regvn st1 (nregs + 1 + a)) (Some k)) eqn:VE; [|injection H as <- <-; exact DN1].
  injection H as <- <-. apply vnum_eqb_eq in VE.
  split; [auto|]. split; [discriminate|].
  intros s val D HD RG SO K B NCr. destruct (ST s NCr) as (v & Fv & E). rewrite E.
  destruct (F1 _ _ _ _ _ HD) as (val' & HD' & AG & VV).
  assert (AE : args s a = v).
  { rewrite <- (VV k v eq_refl Fv).
    assert (VE0 : regvn st (nregs + 1 + a) = Some k) by (rewrite <- VE; symmetry; apply (g_high _ _ _ G1); lia).
    destruct (SO (or_introl O) z A1 L) as [ND|N0]; [|fold a in N0; congruence].
    destruct (d_arg _ _ _ _ _ _ _ _ _ HD' _ _ L VE) as [X|X]; [now destruct ND|exact X]. }
  split.
  - unfold sstep, nop_of. cbn. split; [reflexivity|]. split; [reflexivity|]. split; [reflexivity|].
    split; [|reflexivity]. intros x0. unfold upd. destruct (Nat.eqb_spec x0 a) as [EX|_]; [|reflexivity].
    now rewrite EX.
  - intros t T. injection T as <-. exists val'. cbn [JitModel.regs JitModel.flag JitModel.args]. auto.
Qed.

Definition clobbered (st : lvn) (st' : lvn) : Prop :=
  st' = st \/ exists r, result i = Some r /\ st' = set_vn (snd (new_value st)) r (Some (nextvn st)).

Lemma clobber_clob st j i' st' : result j = result i -> clobber j st = Ok (i', st') -> i' = j /\ clobbered st st'.
Proof.
  intros RJ H. unfold clobber in H. rewrite RJ in H. destruct (result i) as [r|] eqn:R; [|discriminate].
  cbn [new_value] in H. injection H as <- <-. split; [reflexivity|]. right. exists r. auto.
Qed.

Lemma block_clob st i' st' : op i = MACRO_COPY \/ op i = MACRO_MOVE \/ op i = MACRO_BZERO \/ op i = MACRO_MEMSET ->
  (exists cur n, lvn_one cur n i st = Ok (i', st')) -> op i' <> J_JUMP /\ clobbered st st'.
Proof.
  intros O (cur & n & H).
  assert (BZ : forall j, result j = result i -> op j = MACRO_BZERO -> lvn_bzero j st = Ok (i', st') ->
            op i' <> J_JUMP /\ clobbered st st').
  { intros j RJ OJ Hb. unfold lvn_bzero in Hb.
    assert (CL : clobber j st = Ok (i', st') -> op i' <> J_JUMP /\ clobbered st st').
    { intros Hc. destruct (clobber_clob _ _ _ _ RJ Hc) as [-> C]. split; [congruence|exact C]. }
    destruct (count_of j st) as [c|]; [|exact (CL Hb)].
    destruct (c =? 0); [injection Hb as <- <-; split; [discriminate|now left]|].
    destruct ((0 <? c) && (c <=? 8) && is_power_of_2 c); [|exact (CL Hb)].
    injection Hb as <- <-. split; [discriminate|now left]. }
  assert (CP : op i = MACRO_COPY \/ op i = MACRO_MOVE -> lvn_copy cpool_load i st = Ok (i', st') ->
            op i' <> J_JUMP /\ clobbered st st').
  { intros OC Hb. unfold lvn_copy in Hb.
    set (j := match op i, arg2 i with MACRO_MOVE, VAddrCpool _ => set_op i MACRO_COPY (arg1 i) (arg2 i) | _, _ => i end) in Hb.
    assert (RJ : result j = result i) by (unfold j; destruct OC as [-> | ->]; destruct (arg2 i); reflexivity).
    assert (NJ : op j <> J_JUMP).
    { unfold j. destruct OC as [X | X]; rewrite X; destruct (arg2 i); cbn; try congruence; rewrite X; discriminate. }
    assert (CL : clobber j st = Ok (i', st') -> op i' <> J_JUMP /\ clobbered st st').
    { intros Hc. destruct (clobber_clob _ _ _ _ RJ Hc) as [-> C]. split; [exact NJ|exact C]. }
    destruct (count_of j st) as [c|]; [|exact (CL Hb)].
    destruct (c =? 0); [injection Hb as <- <-; split; [discriminate|now left]|].
    destruct ((0 <? c) && (c <=? 8) && is_power_of_2 c); [|exact (CL Hb)].
    destruct (arg2 j); try exact (CL Hb). injection Hb as <- <-. split; [discriminate|now left]. }
  unfold LvnModel.lvn_one in H. destruct O as [O|[O|[O|O]]]; rewrite O in H.
  - auto.
  - auto.
  - exact (BZ i eq_refl O H).
  - unfold lvn_memset in H.
    assert (CL : forall j, result j = result i -> op j = MACRO_MEMSET -> clobber j st = Ok (i', st') ->
              op i' <> J_JUMP /\ clobbered st st').
    { intros j RJ OJ Hc. destruct (clobber_clob _ _ _ _ RJ Hc) as [-> C]. split; [congruence|exact C]. }
    destruct (is_const st (arg2 i)) as [v|]; [|exact (CL i eq_refl O H)].
    destruct (v =? 0); [refine (BZ _ _ _ H); reflexivity|].
    destruct (compress (sz i)) as [comp|]; [|discriminate].
    destruct (U64 v =? U64 (Z.land (U64 v) 255 * comp)).
    + set (j := Ir (op i) SZ_8 (target i) (cc i) (result i) (arg1 i) (VInt (Z.land (U64 v) 255))) in H.
      assert (OJ : op j = MACRO_MEMSET) by exact O.
      destruct (count_of j st) as [c|]; [|exact (CL j eq_refl OJ H)].
      destruct (c =? 0); [injection H as <- <-; split; [discriminate|now left]|].
      destruct ((0 <? c) && (c <=? 8) && is_power_of_2 c); [|exact (CL j eq_refl OJ H)].
      injection H as <- <-. split; [discriminate|now left].
    + destruct (count_of i st) as [c|]; [|exact (CL i eq_refl O H)].
      destruct (c =? 0); [injection H as <- <-; split; [discriminate|now left]|].
      destruct ((0 <? c) && (c <=? 8) && is_power_of_2 c); [|exact (CL i eq_refl O H)].
      injection H as <- <-. split; [discriminate|now left].
Qed.

Lemma block_ok cur n st i' st' : sinv M st -> op i = MACRO_COPY \/ op i = MACRO_MOVE \/ op i = MACRO_BZERO \/ op i = MACRO_MEMSET ->
  lvn_one cur n i st = Ok (i', st') -> one_ok M st i i' st'.
Proof.
  intros HS O H. destruct (block_clob st i' st' O (ex_intro _ cur (ex_intro _ n H))) as [NJ C].
  assert (BO : block_op (op i) = true) by (destruct O as [-> |[-> |[-> | ->]]]; reflexivity).
  split.
  { destruct C as [-> |(r & R & ->)]; [now apply sinv_more|].
    apply (sinv_set nregs M).
    - exact (sinv_fresh nregs _ _ HS).
    - unfold plus_result; auto.
    - apply plus_result_low. exact (s_below _ _ _ HS).
    - right. exact R.
    - intros k E. injection E as <-. exact (new_known nregs _ _ HS). }
  split; [exact NJ|].
  intros s val D HD RG SO K B NCr. rewrite (B BO) in *. split; [apply alike_refl|]. intros t T.
  destruct (sstep_frame _ _ _ T) as (A & F & RGS).
  assert (FL : flag t = flag s) by (apply F; unfold writes_flags; destruct O as [-> |[-> |[-> | ->]]]; reflexivity).
  assert (AR : args t = args s) by (apply A; destruct O as [-> |[-> |[-> | ->]]]; discriminate).
  assert (RT : regs t = regs s).
  { destruct RGS as [(P & _)|(_ & X)]; [|exact X]. destruct O as [O|[O|[O|O]]]; rewrite O in P; discriminate. }
  rewrite FL, AR, RT.
  destruct C as [-> |(r & R & ->)].
  - exists val. apply (dinv_D _ _ _ _ _ D); [unfold dirty; auto|exact HD].
  - destruct (dinv_clobber M val st (regs s) (flag s) (args s) D r HS (f_low _ _ FI _ R) HD) as (val' & HD').
    exists val'. apply (dinv_D _ _ _ _ _ D); [unfold dirty; auto|exact HD'].
Qed.

Lemma exp_ok st i' st' : sinv M st -> op i = MACRO_EXP -> lvn_exp nregs tabsz i st = Ok (i', st') -> i' = i -> one_ok M st i i' st'.
Proof.
  intros HS O H SAME. unfold lvn_exp in H.
  assert (PR : produces (op i) = true) by now rewrite O.
  destruct (result i) as [r|] eqn:R; [|now destruct (f_named _ _ FI PR)].
  pose proof (f_low _ _ FI _ R) as Hr. pose proof (f_new _ _ FI _ R PR) as NM.
  assert (BO : block_op (op i) = true) by now rewrite O.
  (* the instruction stays: what it computes gets a number *)
  assert (GEN : forall st0, sinv M st0 ->
     (forall s t val D, sstep i s = Next t -> dinv val st (regs s) (flag s) (args s) D ->
        dinv val st0 (regs s) (flag t) (args s) D) ->
     generic tabsz i st0 None = Ok (i', st') -> one_ok M st i i' st').
  { intros st0 S0 D0 HG.
    destruct (generic_ok nregs tabsz cpool_base cover_addr M st0 i None i' st' r S0 R Hr NM (f_args _ _ FI)
      ltac:(discriminate) HG) as (Q1 & Q2 & Q3).
    split; [exact (sinv_plus _ _ R Q1)|]. split; [destruct Q2 as [-> |(y & ->)]; [congruence|discriminate]|].
    intros s val D HD RG SO K B NCr. split; [rewrite (B BO); apply alike_refl|].
    intros t T. destruct (sstep_frame _ _ _ T) as (A & _ & [(_ & r' & v & R' & RT)|(P & _)]); [|congruence].
    assert (r' = r) by congruence. subst r'. rewrite RT, A by congruence.
    destruct (Q3 val (regs s) (flag t) (args s) D v None (D0 s t val D T HD)) as (val' & HD' & _).
    - left. split; [exact O|exact (B BO)].
    - discriminate.
    - exists val'. apply (dinv_D _ _ _ _ _ D); [unfold dirty; auto|exact HD']. }
  assert (PLAIN : cc_none (cc i) = true -> generic tabsz i st None = Ok (i', st') -> one_ok M st i i' st').
  { intros C. apply GEN; [exact HS|]. intros s t val D T HD.
    destruct (sstep_frame _ _ _ T) as (_ & F & _). rewrite F; [exact HD|].
    unfold writes_flags. rewrite O, C. reflexivity. }
  destruct (cc_none (cc i)) eqn:C; cbn [negb] in H.
  2:{ apply (GEN (kill_flags nregs st)); auto; [now apply sinv_kill_flags|].
      intros s t val D T HD. eapply dinv_kill_flags. exact HD. }
  destruct (can_fold st i) as [[b e]|].
  - destruct (e <? 0); [discriminate|].
    destruct (convert_mov_ok nregs tabsz cpool_base cover_addr M st i (VInt (wrap (b ^ e))) i' st' r HS R Hr NM
      ltac:(intros y []) H) as (Q1 & Q2 & _).
    exfalso. destruct Q2 as [Q2|(y & Q2)]; rewrite SAME in Q2; apply (f_equal op) in Q2; rewrite O in Q2; discriminate.
  - destruct (is_const st (arg1 i)) as [b|]; [|exact (PLAIN eq_refl H)].
    destruct (b =? 2); [|exact (PLAIN eq_refl H)]. exfalso.
    destruct (match arg1 i with VInt _ => Ok (VInt 1) | VReg _ => Ok (VReg 1) | _ => Fault end) as [a|];
      [|discriminate]. cbn [bind] in H. rewrite SAME in H.
    destruct (generic_shape _ _ _ _ _ H) as [X|(y & X)]; apply (f_equal op) in X; rewrite O in X; discriminate.
Qed.

Lemma one cur n st i' st' : sinv M st -> op i <> J_JUMP -> (block_op (op i) = true -> i' = i) ->
  lvn_one cur n i st = Ok (i', st') -> one_ok M st i i' st'.
Proof.
  intros HS NJ B H. destruct (pure (op i)) eqn:P; [exact (pure_ok cur n st i' st' HS P H)|].
  assert (H0 := H). unfold LvnModel.lvn_one in H.
  destruct (op i) eqn:O; try discriminate; try (now destruct NJ);
    try (injection H as <- <-; apply other_ok; auto; rewrite O; first [discriminate|reflexivity]);
    try (injection H as <- <-; apply call_ok; auto; fail).
  all: first [now apply recv_ok | now apply send_ok | now apply cmp_ok | now apply ccmp_ok | now apply cset_ok
             | now apply csel_ok | apply exp_ok; auto; fail | apply (block_ok cur n); auto].
Qed.
End One.
End Run.
