(* C25, C26, C27: jump targets stay marked, and the three passes in a row. *)
From Coq Require Import List ZArith Arith Bool Lia.
From Verif Require Import Base JitModel JitPassModel JitSpec JitPassProofs JitDceProofs JitNopProofs JitPassProps.
Import ListNotations.

(* ---- copy propagation ---- *)

(* A label that is not marked, or not only jumped to, cannot come from nowhere. *)
Definition from_code (f : prog) (map : copies) : Prop :=
  forall r l, map r = VLabel l -> exists i, In i f /\ op i = J_MOV /\ arg1 i = VLabel l.

Lemma subst_label f map v l : from_code f map -> subst_copy map v = VLabel l ->
  v = VLabel l \/ exists i, In i f /\ op i = J_MOV /\ arg1 i = VLabel l.
Proof.
  intros FC. destruct v; cbn; try discriminate; auto. destruct (is_invalid (map r)) eqn:E; [discriminate|]. eauto.
Qed.

Lemma drop_label nregs f map r : from_code f map -> from_code f (drop_copies nregs map r).
Proof.
  intros FC. unfold drop_copies. destruct (is_invalid (map r)); [exact FC|]. intros k l.
  destruct ((k <? nregs) && is_reg (map k) r); [discriminate|apply FC].
Qed.

Lemma upd_label f map r v : from_code f map ->
  (forall l, v = VLabel l -> exists i, In i f /\ op i = J_MOV /\ arg1 i = VLabel l) -> from_code f (upd map r v).
Proof. intros FC H k l. unfold upd. destruct (k =? r); [apply H|apply FC]. Qed.

Lemma cprop_one_label nregs f map i : In i f -> from_code f map -> from_code f (snd (cprop_one nregs map i)).
Proof.
  intros I0 FC. unfold cprop_one. destruct (result i) as [r|]; [|exact FC].
  assert (D : from_code f (upd (drop_copies nregs map r) r VInvalid)).
  { apply upd_label; [now apply drop_label|discriminate]. }
  destruct (op i) eqn:O; cbn [snd]; try exact D; try exact FC. cbn [arg1].
  assert (X : forall l, subst_copy map (arg1 i) = VLabel l -> exists i, In i f /\ op i = J_MOV /\ arg1 i = VLabel l).
  { intros l H. destruct (subst_label f map _ l FC H) as [A|A]; [eauto|exact A]. }
  destruct (subst_copy map (arg1 i)) eqn:E;
    try (apply upd_label; [now apply drop_label|]; intros ? H; try discriminate; try (apply X; exact H)).
  apply upd_label; [|discriminate]. apply upd_label; [now apply drop_label|discriminate].
Qed.

Lemma cprop_from_label nregs f : forall l n reset map, (forall i, In i l -> In i f) -> from_code f map ->
  forall k j, nth_error (cprop_from nregs f n reset map l) k = Some j ->
  exists i m, nth_error l k = Some i /\ from_code f m /\
    j = Ir (op i) (sz i) (target i) (cc i) (result i) (subst_copy m (arg1 i)) (subst_copy m (arg2 i)).
Proof.
  induction l as [|i l IH]; intros n reset map SUB FC k j N; cbn [cprop_from] in N; [destruct k; discriminate|].
  set (m0 := if reset || target i then no_copies else map) in *.
  assert (F0 : from_code f m0) by (unfold m0; destruct (reset || target i); [discriminate|exact FC]).
  pose proof (cprop_one_label nregs f m0 i (SUB i (or_introl eq_refl)) F0) as F1.
  pose proof (cprop_one_fst nregs m0 i) as FS.
  destruct (cprop_one nregs m0 i) as [i' map']. cbn [fst snd] in *. destruct k as [|k].
  - cbn in N. injection N as <-. exists i, m0. auto.
  - cbn in N. destruct (IH (S n) (is_terminator f n) map' (fun x X => SUB x (or_intror X)) F1 k j N) as (i2 & m2 & A & B & C).
    exists i2, m2. auto.
Qed.

Lemma cprop_nth nregs f k j : nth_error (cprop nregs f) k = Some j ->
  exists i m, nth_error f k = Some i /\ from_code f m /\
    j = Ir (op i) (sz i) (target i) (cc i) (result i) (subst_copy m (arg1 i)) (subst_copy m (arg2 i)).
Proof. intros N. eapply cprop_from_label in N; eauto. intros r l. discriminate. Qed.

Lemma cprop_from_length nregs f : forall l n reset map, length (cprop_from nregs f n reset map l) = length l.
Proof.
  induction l as [|i l IH]; intros n reset map; [reflexivity|]. cbn [cprop_from].
  destruct (cprop_one nregs (if reset || target i then no_copies else map) i). cbn [length]. now rewrite IH.
Qed.

Lemma cprop_back nregs f k i : nth_error f k = Some i -> exists j, nth_error (cprop nregs f) k = Some j /\ target j = target i.
Proof.
  intros N. destruct (nth_error (cprop nregs f) k) as [j|] eqn:E.
  - exists j. split; [reflexivity|]. destruct (cprop_nth nregs f k j E) as (i' & m & N' & _ & ->). cbn. congruence.
  - apply nth_error_None in E. unfold cprop in E. rewrite cprop_from_length in E. apply nth_error_None in E. congruence.
Qed.

Theorem C25_labels : forall nregs f, labels_marked f -> labels_marked (cprop nregs f).
Proof.
  intros nregs f LM j l I0 A. apply In_nth_error in I0 as (k & N).
  destruct (cprop_nth nregs f k j N) as (i & m & Ni & FC & ->). cbn [arg1 arg2] in A.
  assert (X : exists q, In q f /\ (arg1 q = VLabel l \/ arg2 q = VLabel l)).
  { destruct A as [A|A]; destruct (subst_label f m _ l FC A) as [B|(q & B1 & B2 & B3)]; eauto using nth_error_In. }
  destruct X as (q & Q1 & Q2). destruct (LM q l Q1 Q2) as (t & T1 & T2).
  destruct (cprop_back nregs f l t T1) as (t' & T3 & T4). exists t'. split; [exact T3|congruence].
Qed.

Lemma cprop_plain nregs f : labels_plain f -> labels_plain (cprop nregs f).
Proof.
  intros LP j l I0. apply In_nth_error in I0 as (k & N).
  destruct (cprop_nth nregs f k j N) as (i & m & Ni & FC & ->). cbn [arg1 arg2 op].
  destruct (LP i l (nth_error_In _ _ Ni)) as (P1 & P2).
  split; intros A; destruct (subst_label f m _ l FC A) as [B|(q & B1 & B2 & B3)]; auto;
    destruct (LP q l B1) as (Q1 & _); specialize (Q1 B3); rewrite B2 in Q1; cbn in Q1; congruence.
Qed.

Lemma cprop_results nregs f : results_ok f -> results_ok (cprop nregs f).
Proof.
  intros H j r I0 R. apply In_nth_error in I0 as (k & N).
  destruct (cprop_nth nregs f k j N) as (i & m & Ni & FC & ->). exact (H i r (nth_error_In _ _ Ni) R).
Qed.
Lemma cprop_checks nregs f : checks_ok f -> checks_ok (cprop nregs f).
Proof.
  intros H j I0. apply In_nth_error in I0 as (k & N).
  destruct (cprop_nth nregs f k j N) as (i & m & Ni & FC & ->). exact (H i (nth_error_In _ _ Ni)).
Qed.

(* ---- dead code elimination ---- *)

Lemma nop_at_target l k : map target (nop_at l k) = map target l.
Proof.
  unfold nop_at. destruct (nth_error l k) as [i|] eqn:E; [|reflexivity]. unfold set_nth.
  rewrite map_app. cbn [map]. change (target (nop_of i)) with (target i).
  revert l E. induction k as [|k IH]; intros [|y l] E; try discriminate; cbn in *.
  - now injection E as ->.
  - f_equal. now apply IH.
Qed.

Lemma dce_one_target f d n st i : map target (fst (dce_one f d n st i)) = map target (fst st) ++ [target i].
Proof.
  destruct st as [out cmp]. unfold dce_one. cbn [fst].
  set (i1 := Ir (op i) (sz i) (target i) (cc i) (result i) (ren d (arg1 i)) (ren d (arg2 i))).
  assert (T : target (match result i1 with
    | None => i1
    | Some r => if (count d r =? 0) && negb (writes_flags i1) then nop_of i1
                else Ir (op i1) (sz i1) (target i1) (cc i1) (Some (renumber d r)) (arg1 i1) (arg2 i1)
    end) = target i).
  { destruct (result i1) as [r|]; [|reflexivity]. destruct ((count d r =? 0) && negb (writes_flags i1)); reflexivity. }
  destruct (reads_flags i1 || is_terminator f n); [|destruct (writes_flags i1)]; cbn [fst]; rewrite map_app; cbn [map];
    rewrite T; try reflexivity.
  destruct cmp; [now rewrite nop_at_target|reflexivity].
Qed.

Lemma dce_from_target f d : forall l n st, map target (fst (dce_from f d n st l)) = map target (fst st) ++ map target l.
Proof.
  induction l as [|i l IH]; intros n st; cbn [dce_from map]; [now rewrite app_nil_r|].
  rewrite IH, dce_one_target, <- app_assoc. reflexivity.
Qed.

Lemma dce_target f : map target (fst (dce_pass f)) = map target f.
Proof. unfold dce_pass. cbn [fst]. now rewrite dce_from_target. Qed.

Lemma ren_label d v l : ren d v = VLabel l <-> v = VLabel l.
Proof. destruct v; cbn; split; congruence. Qed.

Lemma dce_kept f n i' : nth_error (fst (dce_pass f)) n = Some i' ->
  exists i, nth_error f n = Some i /\ (i' = keep (count_all f) i \/ a_nop i').
Proof.
  intros N. destruct (nth_error f n) as [i|] eqn:E.
  - exists i. split; [reflexivity|]. destruct (dce_nth f n i E) as (j & Nj & O). assert (j = i') by congruence. subst j.
    destruct O as [(A & _)|[(A & _)|(A & _)]]; auto.
  - apply nth_error_None in E. rewrite <- dce_length in E. apply nth_error_None in E. congruence.
Qed.

Theorem C26_labels : forall f, labels_marked f -> labels_marked (fst (dce_pass f)).
Proof.
  intros f LM i' l I0 A. apply In_nth_error in I0 as (n & N).
  destruct (dce_kept f n i' N) as (i & Ni & [->|(j & ->)]); [|cbn in A; destruct A; discriminate].
  cbn [keep arg1 arg2] in A. rewrite !ren_label in A.
  destruct (LM i l (nth_error_In _ _ Ni) A) as (t & T1 & T2).
  pose proof (f_equal (fun m => nth_error m l) (dce_target f)) as X. cbn beta in X. rewrite !nth_error_map, T1 in X. cbn [option_map] in X.
  destruct (nth_error (fst (dce_pass f)) l) as [t'|]; [|discriminate]. exists t'. split; [reflexivity|]. cbn [option_map] in X. congruence.
Qed.

Lemma dce_plain f : labels_plain f -> labels_plain (fst (dce_pass f)).
Proof.
  intros LP i' l I0. apply In_nth_error in I0 as (n & N).
  destruct (dce_kept f n i' N) as (i & Ni & [->|(j & ->)]); [|cbn; split; intros X; discriminate X].
  cbn [keep arg1 arg2 op]. rewrite !ren_label. apply (LP i l (nth_error_In _ _ Ni)).
Qed.

(* ---- deletion of NOPs ---- *)

Definition marked (l : prog) (k : nat) : Prop := forall i, nth_error l k = Some i -> target i = true.

Lemma mark_length v l : length (mark v l) = length l.
Proof. apply (mark_alike v l 0). Qed.

Lemma mark_marked v l : (forall k, v = VLabel k -> marked (mark v l) k) /\ (forall k, marked l k -> marked (mark v l) k).
Proof.
  unfold mark. destruct v as [|?|?|?|? ?|?|?|?|k0|?|?|?|]; try (split; [discriminate|auto]; fail).
  all: try (split; [congruence|auto]; fail).
  destruct (nth_error l k0) as [i|] eqn:E.
  - assert (L : k0 < length l) by (apply nth_error_Some; congruence). split.
    + intros k X j. injection X as <-. rewrite set_nth_nth, Nat.eqb_refl by exact L. intros Y. now injection Y as <-.
    + intros k M j. rewrite set_nth_nth by exact L. destruct (k =? k0); [|apply M]. intros Y. now injection Y as <-.
  - split; [|auto]. intros k X j. injection X as <-. congruence.
Qed.

Lemma marks_marked : forall ks l,
  (forall q k, In q ks -> arg1 q = VLabel k \/ arg2 q = VLabel k ->
     marked (fold_left (fun l i => mark (arg2 i) (mark (arg1 i) l)) ks l) k) /\
  (forall k, marked l k -> marked (fold_left (fun l i => mark (arg2 i) (mark (arg1 i) l)) ks l) k).
Proof.
  induction ks as [|q ks IH]; intros l; cbn [fold_left]; [split; [intros q k []|auto]|].
  destruct (IH (mark (arg2 q) (mark (arg1 q) l))) as (H1 & H2). split.
  - intros q' k [<-|Q] A; [|eauto]. apply H2. destruct A as [A|A].
    + apply (proj2 (mark_marked _ _)). now apply (proj1 (mark_marked _ _)).
    + now apply (proj1 (mark_marked _ _)).
  - intros k M. apply H2. now apply (proj2 (mark_marked _ _)), (proj2 (mark_marked _ _)).
Qed.

Lemma kept_mono f : forall n m, n <= m -> kept_before f n <= kept_before f m.
Proof.
  intros n m L. induction L as [|m L IH]; [lia|]. destruct (nth_error f m) as [i|] eqn:N.
  - rewrite (kept_S f m i N). destruct (is_nop i); lia.
  - apply nth_error_None in N. unfold kept_before in *. rewrite (@firstn_all2 _ m f) in IH by lia.
    now rewrite (@firstn_all2 _ (S m) f) by lia.
Qed.

Theorem C27_labels : forall f i, labels_marked f -> nth_error f (length f - 1) = Some i -> op i <> J_NOP ->
  labels_marked (delete_nops f).
Proof.
  intros f i LM NL NN j l I0 A. apply In_nth_error in I0 as (n & N).
  pose (kept := map (relabel_ir f) (filter (fun i => negb (is_nop i)) f)).
  pose proof (marks_alike kept kept n) as M. change (fold_left _ kept kept) with (delete_nops f) in M. rewrite N in M.
  destruct (nth_error kept n) as [q|] eqn:Q; [|discriminate]. destruct M as (j' & X & AL). injection X as <-.
  destruct AL as (_ & _ & _ & _ & A1 & A2). rewrite <- A1, <- A2 in A.
  destruct (marks_marked kept kept) as (MK & _). specialize (MK q l (nth_error_In _ _ Q) A).
  change (fold_left _ kept kept) with (delete_nops f) in MK.
  assert (IN : exists k, k < length f /\ l = kept_before f k).
  { apply nth_error_In in Q. apply in_map_iff in Q as (x & <- & F). apply filter_In in F as (F & _).
    assert (Y : exists k, (arg1 x = VLabel k \/ arg2 x = VLabel k) /\ l = kept_before f k).
    { destruct A as [A|A]; cbn in A; [destruct (arg1 x); try discriminate|destruct (arg2 x); try discriminate];
        cbn in A; injection A as <-; eauto. }
    destruct Y as (k & Y & ->). exists k. split; [|reflexivity]. destruct (LM x k F Y) as (t & T & _).
    apply nth_error_Some. congruence. }
  destruct IN as (k & Lk & ->).
  assert (NP : is_nop i = false) by (unfold is_nop; destruct (op i); try reflexivity; congruence).
  destruct (delete_nth f _ i NL NP) as (z & Z0 & _).
  assert (LT : kept_before f (length f - 1) < length (delete_nops f)) by (apply nth_error_Some; congruence).
  pose proof (kept_mono f k (length f - 1)) as KM.
  destruct (nth_error (delete_nops f) (kept_before f k)) as [t|] eqn:T.
  - exists t. split; [reflexivity|]. now apply MK.
  - apply nth_error_None in T. lia.
Qed.

(* ---- all three ---- *)

Section Pipe.
Variable W : Type.
Variable cpool_base : Z.
Variable cover_addr : Z -> Z.
Variable prim : opcode -> size -> ccode -> Z -> Z -> Z -> bool -> (nat -> Z) -> W ->
                option (Z * bool * (nat -> Z) * W).
Notation returns := (returns W cpool_base cover_addr prim).
Notation diverges := (diverges W cpool_base cover_addr prim).
Notation start := (start W).

(* What a function returns with, and that it runs for ever, is the same after copy
   propagation, dead code elimination and deletion of NOPs. *)
Theorem C26_passes_partial nregs f :
  regs_below nregs f -> labels_marked f -> plain_moves f -> kinds_ok (cprop nregs f) ->
  results_ok f -> checks_ok f -> allocs_used (cprop nregs f) -> labels_plain f ->
  forall rg, exists rg', forall fl ar w,
    let g := delete_nops (fst (dce_pass (cprop nregs f))) in
    (forall ar' w', returns f (start rg fl ar w) ar' w' -> returns g (start rg' fl ar w) ar' w') /\
    (diverges f (start rg fl ar w) -> diverges g (start rg' fl ar w)).
Proof.
  intros RB LM PM KO RO CO AU LP rg.
  destruct (C26_dce_partial W cpool_base cover_addr prim (cprop nregs f) (cprop_results _ _ RO) (cprop_checks _ _ CO) AU rg)
    as (rg' & D).
  exists rg'. intros fl ar w g.
  destruct (C25_results W cpool_base cover_addr prim nregs f RB LM PM KO rg fl ar w) as (R1 & R2).
  destruct (C27_delete_nops W cpool_base cover_addr prim (fst (dce_pass (cprop nregs f)))
     (dce_plain _ (cprop_plain nregs f LP)) rg' fl ar w) as (N1 & _ & N2).
  split.
  - intros ar' w' R. apply N1. destruct (R1 ar' w' R) as (n & E). exists n.
    specialize (D n fl ar w). rewrite E in D. exact D.
  - intros R. apply N2. intros n. destruct (R2 R n) as (s' & E). specialize (D n fl ar w). rewrite E in D.
    destruct D as (t & E2 & _). eauto.
Qed.
End Pipe.

(* The demonstration meets all of this. *)
Example demo_pipe : labels_marked demo /\ allocs_used (cprop 5 demo) /\
  exists i, nth_error demo (length demo - 1) = Some i /\ op i <> J_NOP.
Proof.
  split; [apply demo_meets|]. split.
  - intros i r H [O|O] E; vm_compute in H; repeat (destruct H as [<-|H]; [discriminate|]); destruct H.
  - eexists. split; [reflexivity|discriminate].
Qed.

Print Assumptions C25_labels.
Print Assumptions C26_labels.
Print Assumptions C27_labels.
Print Assumptions C26_passes_partial.
