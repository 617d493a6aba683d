From Coq Require Import NArith List Bool Arith Lia.
From Verif Require Import FileRefModel FileRefSpec.
Import ListNotations.

Lemma bytes_eqb_spec a : forall b, bytes_eqb a b = true <-> a = b.
Proof.
  induction a as [|x a IH]; intros [|y b]; cbn [bytes_eqb]; split; intros H; try discriminate; auto.
  - apply andb_true_iff in H. destruct H as [H1 H2]. apply N.eqb_eq in H1. apply IH in H2. congruence.
  - injection H as -> ->. now rewrite N.eqb_refl, (proj2 (IH b) eq_refl).
Qed.

(* strip *)

Lemma strip_cases c r :
  (exists r', c = SLASH /\ r = SLASH :: r' /\ strip (c :: r) = strip r) \/
  (strip (c :: r) = c :: strip r /\ (c <> SLASH \/ hd_error r <> Some SLASH)).
Proof.
  cbn [strip]. destruct (N.eqb_spec c SLASH) as [->|N]; cbn [negb orb]; [|right; auto].
  destruct r as [|d r']; cbn [negb]; [right; split; [reflexivity|right; discriminate]|].
  destruct (N.eqb_spec d SLASH) as [->|N']; cbn [negb].
  - left. now exists r'.
  - right. split; [reflexivity|right; cbn; congruence].
Qed.

Lemma strip_hd l : hd_error (strip l) = hd_error l.
Proof.
  induction l as [|c r IH]; [reflexivity|].
  destruct (strip_cases c r) as [(r' & -> & -> & E)|[E _]]; rewrite E; [exact IH|reflexivity].
Qed.

Lemma strip_nil l : strip l = [] -> l = [].
Proof. intros E. assert (H := strip_hd l). rewrite E in H. destruct l; [reflexivity|discriminate]. Qed.

Lemma strip_last l : last (strip l) 0%N = last l 0%N.
Proof.
  induction l as [|c r IH]; [reflexivity|].
  destruct (strip_cases c r) as [(r' & -> & -> & E)|[E _]]; rewrite E.
  - rewrite IH. reflexivity.
  - destruct r as [|d r']; [reflexivity|].
    destruct (strip (d :: r')) as [|x y] eqn:S0; [now apply strip_nil in S0|].
    change (last (c :: x :: y) 0%N) with (last (x :: y) 0%N). rewrite IH. reflexivity.
Qed.

Lemma strip_parts l : forall cur, parts cur (strip l) = parts cur l.
Proof.
  induction l as [|c r IH]; intros cur; [reflexivity|].
  destruct (strip_cases c r) as [(r' & -> & -> & E)|[E _]]; rewrite E.
  - rewrite IH. cbn [parts]. change (SLASH =? 47)%N with true. cbv iota. now destruct cur.
  - cbn [parts]. destruct (c =? 47)%N; now rewrite IH.
Qed.

Lemma doubled_cons c l : doubled (c :: l) -> doubled l \/ (c = 47%N /\ hd_error l = Some 47%N).
Proof.
  intros (a & b & E). destruct a as [|x a].
  - right. injection E as -> ->. split; reflexivity.
  - left. injection E as -> ->. now exists a, b.
Qed.

Lemma strip_single l : ~ doubled (strip l).
Proof.
  induction l as [|c r IH].
  - intros (a & b & E). now destruct a.
  - destruct (strip_cases c r) as [(r' & -> & -> & E)|[E H]]; rewrite E; [exact IH|].
    intros D. apply doubled_cons in D. destruct D as [D|[D1 D2]]; [now apply IH|].
    rewrite strip_hd in D2. unfold SLASH in H. destruct H; congruence.
Qed.

Lemma strip_id l : ~ doubled l -> strip l = l.
Proof.
  induction l as [|c r IH]; intros H; [reflexivity|].
  destruct (strip_cases c r) as [(r' & -> & -> & E)|[E _]].
  - exfalso. apply H. now exists [], r'.
  - rewrite E, IH; [reflexivity|]. intros (a & b & ->). apply H. now exists (c :: a), b.
Qed.

Lemma strip_same l : same_path l (strip l).
Proof. split; [now rewrite strip_parts|]. split; [now rewrite strip_hd|now rewrite strip_last]. Qed.

(* lookup *)

Lemma lookup_some fs n : forall i, lookup fs n = Some i -> nth_error fs i = Some n.
Proof.
  induction fs as [|f fs IH]; intros i H; cbn [lookup] in H; [discriminate|].
  destruct (bytes_eqb f n) eqn:E.
  - injection H as <-. apply bytes_eqb_spec in E. now subst.
  - destruct (lookup fs n) as [j|]; [|discriminate]. injection H as <-. cbn. now apply IH.
Qed.

Lemma lookup_in fs n : In n fs -> lookup fs n <> None.
Proof.
  induction fs as [|f fs IH]; intros H; [destruct H|]. cbn [lookup].
  destruct (bytes_eqb f n) eqn:E; [discriminate|]. destruct H as [->|H].
  - now rewrite (proj2 (bytes_eqb_spec n n) eq_refl) in E.
  - specialize (IH H). destruct (lookup fs n); [discriminate|congruence].
Qed.

Lemma lookup_app fs n e i : lookup fs n = Some i -> lookup (fs ++ e) n = Some i.
Proof.
  revert i. induction fs as [|f fs IH]; intros i H; cbn [lookup app] in *; [discriminate|].
  destruct (bytes_eqb f n); [exact H|].
  destruct (lookup fs n) as [j|]; [|discriminate]. now rewrite (IH j eq_refl).
Qed.

Lemma lookup_snoc fs n : lookup fs n = None -> lookup (fs ++ [n]) n = Some (length fs).
Proof.
  induction fs as [|f fs IH]; intros H; cbn [lookup app length] in *.
  - now rewrite (proj2 (bytes_eqb_spec n n) eq_refl).
  - destruct (bytes_eqb f n); [discriminate|].
    destruct (lookup fs n) as [j|]; [discriminate|]. now rewrite IH.
Qed.

(* calls *)

Lemma file_ref_ext fs n : exists e, snd (file_ref fs n) = fs ++ e.
Proof. unfold file_ref. destruct (lookup fs n); cbn; [exists []; now rewrite app_nil_r|now exists [strip n]]. Qed.

Lemma file_refs_ext ns : forall fs, exists e, file_refs fs ns = fs ++ e /\ length e <= length ns.
Proof.
  induction ns as [|n ns IH]; intros fs; cbn [file_refs]; [exists []; rewrite app_nil_r; auto|].
  destruct (IH (snd (file_ref fs n))) as (e & E & L).
  unfold file_ref in *. destruct (lookup fs n); cbn [snd] in E |- *.
  - exists e. cbn [length]. split; [exact E|lia].
  - exists ([strip n] ++ e). rewrite E, app_assoc. cbn [length app]. split; [reflexivity|lia].
Qed.

Lemma ref16_small i : (N.of_nat i < 65536)%N -> N.to_nat (ref16 i) = i.
Proof. intros H. unfold ref16. rewrite N.mod_small by exact H. lia. Qed.

(* Every name in the table is stripped. *)
Lemma file_refs_single ns : forall fs, Forall (fun f => ~ doubled f) fs ->
  Forall (fun f => ~ doubled f) (file_refs fs ns).
Proof.
  induction ns as [|n ns IH]; intros fs F; cbn [file_refs]; [exact F|]. apply IH.
  unfold file_ref. destruct (lookup fs n); cbn [snd]; [exact F|].
  apply Forall_app. split; [exact F|]. constructor; [apply strip_single|constructor].
Qed.

Lemma same_path_refl n : same_path n n.
Proof. repeat split. Qed.

(* The entry a call returns. *)
Lemma file_ref_entry fs n : Forall (fun f => ~ doubled f) fs ->
  exists i p, fst (file_ref fs n) = ref16 i /\ nth_error (snd (file_ref fs n)) i = Some p /\
    i <= length fs /\ same_path n p /\ ~ doubled p /\
    (~ doubled n -> p = n /\ lookup (snd (file_ref fs n)) n = Some i).
Proof.
  intros F. unfold file_ref. destruct (lookup fs n) as [i|] eqn:L; cbn [fst snd].
  - exists i, n. assert (E := lookup_some _ _ _ L). split; [reflexivity|]. split; [exact E|].
    split; [apply Nat.lt_le_incl, nth_error_Some; congruence|]. split; [apply same_path_refl|].
    split; [|auto]. exact (proj1 (Forall_forall _ _) F n (nth_error_In _ _ E)).
  - exists (length fs), (strip n). split; [reflexivity|].
    split; [rewrite nth_error_app2, Nat.sub_diag by lia; reflexivity|]. split; [lia|].
    split; [apply strip_same|]. split; [apply strip_single|].
    intros D. rewrite (strip_id n D). split; [reflexivity|now apply lookup_snoc].
Qed.
