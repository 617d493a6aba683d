(* Copy propagation (C25), dead code elimination (C26) and deletion of NOPs (C27)
   do not change what a function does. *)
From Coq Require Import List ZArith Arith Bool Lia.
From Verif Require Import Base JitModel JitPassModel JitSpec JitPassProofs JitDceProofs JitNopProofs.
Import ListNotations.
Local Open Scope nat_scope.

Section Props.
Variable W : Type.
Variable cpool_base : Z.
Variable cover_addr : Z -> Z.
Variable prim : opcode -> size -> ccode -> Z -> Z -> Z -> bool -> (nat -> Z) -> W ->
                option (Z * bool * (nat -> Z) * W).
Notation run := (run W cpool_base cover_addr prim).
Notation returns := (returns W cpool_base cover_addr prim).
Notation goes_wrong := (goes_wrong W cpool_base cover_addr prim).
Notation diverges := (diverges W cpool_base cover_addr prim).
Notation start := (start W).

(* C25: as long as the function does nothing undefined, the new code is in the same
   state after every number of steps: the same place, registers, flag, arguments and
   outside state. *)
Theorem C25_cprop nregs f :
  regs_below nregs f -> labels_marked f -> plain_moves f -> kinds_ok (cprop nregs f) ->
  forall n rg fl ar w, run n f (start rg fl ar w) <> Crash W ->
    run n (cprop nregs f) (start rg fl ar w) = run n f (start rg fl ar w).
Proof.
  intros RB LM PM KO n rg fl ar w NC. apply cprop_run; auto.
  unfold cp_rel. cbn. apply no_copies_ok.
Qed.

(* C25: it returns, with the same results, or runs for ever like the original. *)
Corollary C25_results nregs f :
  regs_below nregs f -> labels_marked f -> plain_moves f -> kinds_ok (cprop nregs f) ->
  forall rg fl ar w,
    (forall ar' w', returns f (start rg fl ar w) ar' w' -> returns (cprop nregs f) (start rg fl ar w) ar' w') /\
    (diverges f (start rg fl ar w) -> diverges (cprop nregs f) (start rg fl ar w)).
Proof.
  intros RB LM PM KO rg fl ar w. split.
  - intros ar' w' (n & R). exists n. rewrite (C25_cprop nregs f RB LM PM KO); [exact R|congruence].
  - intros D n. destruct (D n) as (s & R). exists s. rewrite (C25_cprop nregs f RB LM PM KO); [exact R|congruence].
Qed.

(* ---- dead code elimination ---- *)

Lemma counted_in f : forall d r, counted (fold_left count_one f d) r ->
  counted d r \/ In r (flat_map ir_regs f).
Proof.
  assert (CR : forall q r d, counted (count_reg q d) r -> counted d r \/ r = q).
  { intros q r d. unfold counted, count_reg. destruct (count d q =? 0)%nat; cbn [count]; unfold upd;
      destruct (Nat.eqb_spec r q); auto. }
  assert (CU : forall v r d, counted (count_use v d) r -> counted d r \/ In r (value_regs v)).
  { intros v r d. destruct v; cbn [count_use value_regs In]; auto; intros H; destruct (CR _ _ _ H); auto. }
  induction f as [|i f IH]; intros d r H; [now left|]. cbn [fold_left flat_map] in *.
  destruct (IH _ _ H) as [H1|H1]; [|right; rewrite in_app_iff; now right].
  assert (counted d r \/ In r (ir_regs i)) as [H2|H2].
  { unfold count_one in H1. unfold ir_regs. rewrite !in_app_iff.
    assert (U : counted (count_use (arg2 i) (count_use (arg1 i) d)) r ->
                counted d r \/ In r (value_regs (arg1 i)) \/ In r (value_regs (arg2 i))).
    { intros H0. destruct (CU _ _ _ H0) as [H3|H3]; [destruct (CU _ _ _ H3)|]; auto. }
    destruct (result i) as [q|]; [|destruct (U H1) as [?|[?|?]]; auto].
    destruct (reads_result i || writes_flags i); [|destruct (U H1) as [?|[?|?]]; auto].
    destruct (CR _ _ _ H1) as [H3| ->]; [destruct (U H3) as [?|[?|?]]; auto|]. right; right; right. now left. }
  - now left.
  - right. rewrite in_app_iff. now left.
Qed.

(* What register [k] of the new code was called. *)
Definition old_name (f : prog) (k : nat) : option nat :=
  let d := count_all f in
  find (fun r => negb (count d r =? 0) && (renumber d r =? k)) (flat_map ir_regs f).

Lemma old_name_ok f r : counted (count_all f) r -> old_name f (renumber (count_all f) r) = Some r.
Proof.
  intros C. unfold old_name. destruct (find _ _) as [q|] eqn:F.
  - apply find_some in F as (_ & F). apply andb_true_iff in F as (F1 & F2).
    apply Nat.eqb_eq in F2. apply negb_true_iff, Nat.eqb_neq in F1.
    destruct (count_all_ok f) as ((_ & INJ) & _). f_equal. now apply INJ.
  - pose proof (find_none _ _ F r) as X. cbv beta in X.
    assert (In r (flat_map ir_regs f)) as H.
    { destruct (counted_in f dce_init r C) as [H|H]; [now elim H|exact H]. }
    specialize (X H). rewrite Nat.eqb_refl, andb_true_r in X. apply negb_false_iff, Nat.eqb_eq in X. now elim C.
Qed.

(* C26: whatever is in the registers at the start, there is a content of the renamed
   registers for which the new code does the same: after every number of steps it is
   at the same place with the same arguments and the same outside state, and it
   returns the same results.  The conditions say that the code is well formed and
   that no allocation is in vain. *)
Theorem C26_dce_partial f :
  results_ok f -> checks_ok f -> allocs_used f ->
  forall rg, exists rg', forall n fl ar w,
    agrees (run n f (start rg fl ar w)) (run n (fst (dce_pass f)) (start rg' fl ar w)).
Proof.
  intros RO CO AU rg.
  exists (fun k => match old_name f k with Some r => rg r | None => 0%Z end). intros n fl ar w.
  destruct (run n f (start rg fl ar w)) as [t|ar' w'|] eqn:E; [| |exact Logic.I].
  - pose proof (dce_run W cpool_base cover_addr prim f RO CO AU n (start rg fl ar w)
      (start (fun k => match old_name f k with Some r => rg r | None => 0%Z end) fl ar w)) as D.
    rewrite E in D. destruct D as (t' & -> & (R1 & R2 & R3 & _)); [|congruence|].
    + repeat apply conj; try reflexivity; [|now left]. intros r C. cbn. now rewrite old_name_ok.
    + exists t'. split; [reflexivity|]. now split.
  - pose proof (dce_run W cpool_base cover_addr prim f RO CO AU n (start rg fl ar w)
      (start (fun k => match old_name f k with Some r => rg r | None => 0%Z end) fl ar w)) as D.
    rewrite E in D. rewrite D; [reflexivity| |congruence].
    repeat apply conj; try reflexivity; [|now left]. intros r C. cbn. now rewrite old_name_ok.
Qed.

(* C27: deleting NOPs changes nothing that can be seen from outside. *)
Theorem C27_delete_nops f :
  labels_plain f ->
  forall rg fl ar w,
    (forall ar' w', returns f (start rg fl ar w) ar' w' <->
                    returns (delete_nops f) (start rg fl ar w) ar' w') /\
    (goes_wrong f (start rg fl ar w) <-> goes_wrong (delete_nops f) (start rg fl ar w)) /\
    (diverges f (start rg fl ar w) <-> diverges (delete_nops f) (start rg fl ar w)).
Proof.
  intros LP rg fl ar w.
  assert (S0 : short W f (start rg fl ar w) = start rg fl ar w) by reflexivity.
  assert (FW : forall o, final W o -> (exists n, run n f (start rg fl ar w) = o) <->
               (exists n, run n (delete_nops f) (start rg fl ar w) = o)).
  { intros o F. split; intros (n & R).
    - rewrite <- S0. eapply nops_forward; eauto.
    - rewrite <- S0 in R. eapply nops_backward; eauto. }
  assert (DV : forall g g', (forall o, final W o -> (exists n, run n g (start rg fl ar w) = o) ->
                             exists n, run n g' (start rg fl ar w) = o) ->
               diverges g' (start rg fl ar w) -> diverges g (start rg fl ar w)).
  { intros g g' H D n. destruct (run n g (start rg fl ar w)) as [t|ar' w'|] eqn:E; [eauto| |].
    - destruct (H (Done W ar' w') Logic.I) as (m & M); [eauto|]. destruct (D m) as (t & T). congruence.
    - destruct (H (Crash W) Logic.I) as (m & M); [eauto|]. destruct (D m) as (t & T). congruence. }
  split; [|split].
  - intros ar' w'. apply (FW (Done W ar' w') Logic.I).
  - apply (FW (Crash W) Logic.I).
  - split; apply DV; intros o F; apply FW; exact F.
Qed.

(* C27: and none is left. *)
Theorem C27_no_nops f i : In i (delete_nops f) -> op i <> J_NOP.
Proof.
  intros H. apply In_nth_error in H as (n & N).
  pose proof (marks_alike (map (relabel_ir f) (filter (fun i => negb (is_nop i)) f))
               (map (relabel_ir f) (filter (fun i => negb (is_nop i)) f)) n) as M.
  unfold delete_nops in N. rewrite N in M.
  destruct (nth_error (map (relabel_ir f) (filter (fun i => negb (is_nop i)) f)) n) as [j|] eqn:E; [|discriminate].
  destruct M as (j' & [= <-] & (A & _)). rewrite <- A. apply nth_error_In in E.
  apply in_map_iff in E as (k & <- & K). apply filter_In in K as (_ & K). cbn.
  intros O. unfold is_nop in K. rewrite O in K. discriminate.
Qed.
End Props.

(* C26: the registers of the new code are numbered from zero without gaps, so no more
   than the original names. *)
Theorem C26_registers f :
  results_ok f ->
  regs_below (snd (dce_pass f)) (fst (dce_pass f)).
Proof.
  intros RO i' r H R. apply In_nth_error in H as (n & N).
  destruct (nth_error f n) as [i|] eqn:E.
  2:{ apply nth_error_None in E. rewrite <- dce_length in E. apply nth_error_None in E. congruence. }
  destruct (dce_nth f n i E) as (j & Nj & OC). assert (j = i') by congruence. subst j. clear Nj.
  destruct (count_all_ok f) as ((LT & _) & DU). pose proof (nth_error_In _ _ E) as Hin.
  cbn [dce_pass snd].
  assert (VR : forall v, In r (value_regs (ren (count_all f) v)) ->
               exists q, In q (value_regs v) /\ r = renumber (count_all f) q).
  { intros v. destruct v; cbn; try contradiction; intros [<-|[]]; eexists; split; eauto. }
  destruct OC as [(-> & KC)|[(NOP & X)|(NOP & X)]].
  - unfold ir_regs in R. cbn [keep arg1 arg2 result] in R. rewrite !in_app_iff in R.
    destruct R as [R|[R|R]].
    + destruct (VR _ R) as (q & Q & ->). apply LT, (DU i); [exact Hin|now left].
    + destruct (VR _ R) as (q & Q & ->). apply LT, (DU i); [exact Hin|right; now left].
    + destruct (result i) as [q|] eqn:Er; [|contradiction]. cbn in R. destruct R as [<-|[]].
      apply LT. destruct (KC q eq_refl) as [K|K]; [exact K|]. apply (DU i); [exact Hin|]. right; right. auto.
  - destruct NOP as (k & ->). destruct R.
  - destruct NOP as (k & ->). destruct R.
Qed.

(* ---- what is not true ---- *)

Definition no_prim (o : opcode) (s : size) (c : ccode) (a b rv : Z) (fl : bool) (ar : nat -> Z) (w : unit)
  : option (Z * bool * (nat -> Z) * unit) := None.
Definition zero_start : state unit := start unit (fun _ => 0%Z) false (fun _ => 0%Z) tt.
Definition run0 := run unit 0%Z (fun _ => 0%Z) no_prim.

(* A copy of a handle moved into an instruction on integers, which cannot take one:
   the original code runs, the new code has no meaning. *)
Definition handle_code : prog :=
  [ Ir J_MOV SZ_UNSPEC false CC_NONE (Some 0) (VHandle 5) VInvalid;
    Ir J_NOT SZ_UNSPEC false CC_NONE (Some 1) (VReg 0) VInvalid;
    Ir J_SEND SZ_UNSPEC false CC_NONE None (VInt 0) (VReg 1);
    Ir J_RET SZ_UNSPEC false CC_NONE None VInvalid VInvalid ].

Theorem C25_handles_refuted :
  exists f nregs, regs_below nregs f /\ labels_marked f /\ plain_moves f /\ kinds_ok f /\
    (exists ar, run0 4 f zero_start = Done unit ar tt /\ ar 0 = 0%Z) /\
    run0 4 (cprop nregs f) zero_start = Crash unit.
Proof.
  exists handle_code, 2. repeat apply conj.
  - intros i r H R. cbn in H. repeat (destruct H as [<-|H]; [cbn in R; intuition lia|]). destruct H.
  - intros i l H [E|E]; cbn in H; repeat (destruct H as [<-|H]; [discriminate|]); destruct H.
  - intros i r d H O E. cbn in H. repeat (destruct H as [<-|H]; [discriminate|]); destruct H.
  - intros i H. cbn in H. repeat (destruct H as [<-|H]; [now split|]); destruct H.
  - eexists. split; reflexivity.
  - reflexivity.
Qed.

(* A division whose result nobody reads is removed, and with it the trap. *)
Definition dead_division : prog :=
  [ Ir J_DIV SZ_UNSPEC false CC_NONE (Some 0) (VInt 1) (VInt 0);
    Ir J_RET SZ_UNSPEC false CC_NONE None VInvalid VInvalid ].

Theorem C26_traps_refuted :
  exists f, results_ok f /\ checks_ok f /\ allocs_used f /\
    run0 2 f zero_start = Crash unit /\
    exists ar, run0 2 (fst (dce_pass f)) zero_start = Done unit ar tt.
Proof.
  exists dead_division. repeat apply conj.
  - intros i r H R. cbn in H. repeat (destruct H as [<-|H]; [cbn in *; auto; discriminate|]). destruct H.
  - intros i H. cbn in H. repeat (destruct H as [<-|H]; [exact Logic.I|]). destruct H.
  - intros i r H [O|O] E; cbn in H; repeat (destruct H as [<-|H]; [discriminate|]); destruct H.
  - reflexivity.
  - eexists. reflexivity.
Qed.

(* ---- a function that meets all the conditions: a loop with copies, dead code,
   comparisons and NOPs ---- *)

Definition demo : prog :=
  [ Ir J_RECV SZ_UNSPEC false CC_NONE (Some 0) (VInt 0) VInvalid;        (* 0: n *)
    Ir J_MOV SZ_UNSPEC false CC_NONE (Some 1) (VInt 0) VInvalid;         (* 1: sum := 0 *)
    Ir J_NOP SZ_UNSPEC true CC_NONE None VInvalid VInvalid;              (* 2: loop: *)
    Ir J_MOV SZ_UNSPEC false CC_NONE (Some 2) (VReg 0) VInvalid;         (* 3: copy of n *)
    Ir J_ADD SZ_UNSPEC false CC_NONE (Some 3) (VReg 1) (VReg 2);         (* 4 *)
    Ir J_MOV SZ_UNSPEC false CC_NONE (Some 1) (VReg 3) VInvalid;         (* 5: sum := sum + n *)
    Ir J_CMP SZ_UNSPEC false CC_EQ None (VReg 1) (VInt 7);               (* 6: dead comparison *)
    Ir J_NEG SZ_UNSPEC false CC_NONE (Some 4) (VReg 2) VInvalid;         (* 7: dead *)
    Ir J_SUB SZ_UNSPEC false CC_NONE (Some 0) (VReg 0) (VInt 1);         (* 8: n := n - 1 *)
    Ir J_CMP SZ_UNSPEC false CC_GT None (VReg 0) (VInt 0);               (* 9 *)
    Ir J_JUMP SZ_UNSPEC false CC_T None (VLabel 2) VInvalid;             (* 10 *)
    Ir J_SEND SZ_UNSPEC false CC_NONE None (VInt 0) (VReg 1);            (* 11 *)
    Ir J_RET SZ_UNSPEC false CC_NONE None VInvalid VInvalid ].           (* 12 *)

Ltac each H t := cbn in H; repeat (destruct H as [<-|H]; [t|]); try destruct H.

Example demo_meets :
  regs_below 5 demo /\ labels_marked demo /\ plain_moves demo /\ kinds_ok (cprop 5 demo) /\
  results_ok demo /\ checks_ok demo /\ allocs_used demo /\ labels_plain demo.
Proof.
  repeat apply conj.
  - intros i r H R. each H ltac:(cbn in R; intuition lia).
  - intros i l H E. each H ltac:(cbn in E; destruct E as [E|E]; try discriminate; injection E as <-; cbn; eauto).
  - intros i r d H O E. each H ltac:(try discriminate).
  - intros i. generalize i. apply Forall_forall. vm_compute cprop. repeat constructor.
  - intros i r H R. each H ltac:(cbn in *; auto; discriminate).
  - intros i H. each H ltac:(cbn; auto).
  - intros i r H [O|O] E; each H ltac:(discriminate).
  - intros i l H. each H ltac:(split; cbn; try discriminate).
Qed.

Definition result0 {W} (o : outcome W) : option Z :=
  match o with Done _ ar _ => Some (ar 0) | _ => None end.

(* All three in a row: 10 + 9 + ... + 1, with a shorter function. *)
Example demo_runs :
  let g := delete_nops (fst (dce_pass (cprop 5 demo))) in
  let s := start unit (fun _ => 0%Z) false (fun k => if (k =? 0)%nat then 10%Z else 0%Z) tt in
  length g = 9 /\ result0 (run0 200 demo s) = Some 55%Z /\ result0 (run0 200 g s) = Some 55%Z.
Proof. vm_compute. repeat split. Qed.

Print Assumptions C25_cprop.
Print Assumptions C25_results.
Print Assumptions C25_handles_refuted.
Print Assumptions C26_dce_partial.
Print Assumptions C26_registers.
Print Assumptions C26_traps_refuted.
Print Assumptions C27_delete_nops.
Print Assumptions C27_no_nops.
