(* C99: functions on vectors of PSL *)
From Coq Require Import List ZArith Bool Lia.
From Verif Require Import Base OnehotSpec OnehotModel.
Import ListNotations.
Local Open Scope Z_scope.

(* The elements in the order of the loop *)
Definition upward (v : vector) : list ulogic := if ascending v then elems v else rev (elems v).
Fixpoint pass {T R} (body : T -> ulogic -> T + R) (l : list ulogic) (s : T) : T + R :=
  match l with
  | [] => inl s
  | b :: l => match body s b with inl s => pass body l s | inr r => inr r end
  end.
Lemma nth_rev : forall (l : list ulogic) k, (k < length l)%nat -> nth_error (rev l) k = nth_error l (length l - 1 - k).
Proof.
  intros l k H. rewrite (nth_error_nth' (rev l) LU) by (rewrite rev_length; auto). rewrite (nth_error_nth' l LU) by lia.
  f_equal. rewrite rev_nth by auto. f_equal. lia.
Qed.
Lemma element_is : forall v k, well_formed v -> (k < length (elems v))%nat -> exists b, element v (low v + Z.of_nat k) = Ok b /\ nth_error (upward v) k = Some b.
Proof.
  intros v k W K. unfold well_formed in W. unfold element, low, upward. destruct (ascending v).
  - destruct (nth_error (elems v) k) as [b|] eqn:E; [|apply nth_error_None in E; lia]. exists b. split; auto.
    replace (left v + Z.of_nat k - left v) with (Z.of_nat k) by lia. destruct (Z.ltb_spec (Z.of_nat k) 0); [lia|]. rewrite Nat2Z.id, E. reflexivity.
  - rewrite nth_rev by auto. destruct (nth_error (elems v) (length (elems v) - 1 - k)) as [b|] eqn:E; [|apply nth_error_None in E; lia].
    exists b. split; auto. destruct (Z.ltb_spec (left v - (right v + Z.of_nat k)) 0); [lia|].
    replace (Z.to_nat (left v - (right v + Z.of_nat k))) with (length (elems v) - 1 - k)%nat by lia. rewrite E. reflexivity.
Qed.
Lemma upward_length : forall v, length (upward v) = length (elems v).
Proof. intros v. unfold upward. destruct (ascending v); auto. apply rev_length. Qed.
Lemma loop_is : forall T R v (body : T -> ulogic -> T + R) n k s, well_formed v -> (k + n = length (elems v))%nat ->
  loop v body n (low v + Z.of_nat k) s = Ok (pass body (skipn k (upward v)) s).
Proof.
  intros T R v body. induction n as [|n IH]; intros k s W K; cbn [loop].
  - rewrite skipn_all2 by (rewrite upward_length; lia). reflexivity.
  - destruct (element_is v k W) as (b & E & N); [lia|]. rewrite E. cbn [bind].
    assert (X : skipn k (upward v) = b :: skipn (S k) (upward v)).
    { clear - N. revert k N. induction (upward v) as [|c l IH]; intros [|k] N; cbn in *; try discriminate; [congruence|apply IH; auto]. }
    rewrite X. cbn [pass]. destruct (body s b) as [s'|r]; auto.
    replace (low v + Z.of_nat k + 1) with (low v + Z.of_nat (S k)) by lia. apply IH; auto. lia.
Qed.
Lemma each_is : forall T R v (body : T -> ulogic -> T + R) s finish, well_formed v ->
  each v body s finish = Ok (match pass body (upward v) s with inl s => finish s | inr r => r end).
Proof.
  intros T R v body s finish W. unfold each.
  replace (Z.to_nat (high v - low v + 1)) with (length (elems v)) by (unfold well_formed, high, low in *; destruct (ascending v); lia).
  replace (low v) with (low v + Z.of_nat 0) by lia. rewrite loop_is by auto. reflexivity.
Qed.
Lemma one_is : forall b, one b = true <-> is_one b.
Proof. intros []; cbn; unfold is_one; split; intros H; auto; try discriminate; destruct H; discriminate. Qed.
Lemma ones_app : forall l n, ones l n -> forall l' n', ones l' n' -> ones (l ++ l') (n + n').
Proof. induction 1; intros l' n' H'; cbn; auto; constructor; auto. Qed.
Lemma ones_rev : forall l n, ones l n -> ones (rev l) n.
Proof.
  induction 1 as [|b l n B H IH|b l n B H IH]; cbn; [constructor| |].
  - replace (S n) with (n + 1)%nat by lia. apply ones_app; auto. constructor; auto. constructor.
  - replace n with (n + 0)%nat by lia. apply ones_app; auto. apply ones_no; auto. constructor.
Qed.
Lemma ones_upward : forall v n, ones (elems v) n -> ones (upward v) n.
Proof. intros v n H. unfold upward. destruct (ascending v); auto. apply ones_rev; auto. Qed.

Theorem C99_countones : forall v n, well_formed v -> ones (elems v) n -> countones v = Ok (Z.of_nat n).
Proof.
  intros v n W H. unfold countones. rewrite each_is by auto. apply ones_upward in H. f_equal.
  assert (G : forall m, pass (R := Z) (fun n b => inl (if one b then n + 1 else n)) (upward v) m = inl (m + Z.of_nat n)).
  { induction H as [|b l n B H IH|b l n B H IH]; intros m; cbn [pass]; [f_equal; lia| |].
    - apply one_is in B. rewrite B, IH. f_equal. lia.
    - destruct (one b) eqn:E; [apply one_is in E; contradiction|]. apply IH. }
  rewrite G. lia.
Qed.
Lemma hot_pass : forall l n, ones l n -> forall flag,
  pass hot_body l flag = if (n + (if flag then 1 else 0) <=? 1)%nat then inl (flag || (0 <? n)%nat) else inr false.
Proof.
  induction 1 as [|b l n B H IH|b l n B H IH]; intros flag; cbn [pass].
  - destruct flag; reflexivity.
  - apply one_is in B. unfold hot_body at 1. rewrite B. destruct flag; [destruct n; reflexivity|]. rewrite IH. destruct n as [|n]; [reflexivity|].
    destruct n; reflexivity.
  - unfold hot_body at 1. destruct (one b) eqn:E; [apply one_is in E; contradiction|]. apply IH.
Qed.
Theorem C99_onehot : forall v n, well_formed v -> ones (elems v) n -> exists r, onehot v = Ok r /\ (r = true <-> n = 1%nat).
Proof.
  intros v n W H. unfold onehot. rewrite each_is by auto. rewrite (hot_pass _ n) by (apply ones_upward; auto).
  eexists. split; [reflexivity|]. destruct n as [|[|n]]; cbn; split; intros X; auto; discriminate.
Qed.
Theorem C99_onehot0 : forall v n, well_formed v -> ones (elems v) n -> exists r, onehot0 v = Ok r /\ (r = true <-> (n <= 1)%nat).
Proof.
  intros v n W H. unfold onehot0. rewrite each_is by auto. rewrite (hot_pass _ n) by (apply ones_upward; auto).
  eexists. split; [reflexivity|]. destruct n as [|[|n]]; cbn; split; intros X; auto; try discriminate; lia.
Qed.
Theorem C99_isunknown : forall v, well_formed v -> exists r, isunknown v = Ok r /\ (r = true <-> exists b, In b (elems v) /\ is_meta b).
Proof.
  intros v W. unfold isunknown. rewrite each_is by auto. eexists. split; [reflexivity|].
  assert (M : forall b, meta b = true <-> is_meta b).
  { intros []; cbn; unfold is_meta; split; intros H; auto 6; try discriminate; repeat destruct H as [H|H]; discriminate. }
  assert (G : forall l, match pass (fun (_ : unit) b => if meta b then inr true else inl tt) l tt with inl _ => false | inr r => r end = true <-> exists b, In b l /\ is_meta b).
  { induction l as [|c l IH]; cbn [pass]; [split; [discriminate|intros (b & [] & _)]|]. destruct (meta c) eqn:E.
    - split; auto. intros _. exists c. split; [left; auto|apply M; auto].
    - rewrite IH. split; intros (b & B & X); exists b; split; auto; [right; auto|]. destruct B as [<-|B]; auto. apply M in X. congruence. }
  rewrite G. unfold upward. destruct (ascending v); [reflexivity|]. split; intros (b & B & X); exists b; split; auto; [apply in_rev; auto|apply in_rev in B; auto].
Qed.
(* The count exists for every vector. *)
Theorem C99_ones_total : forall l, exists n, ones l n.
Proof.
  induction l as [|b l (n & H)]; [exists 0%nat; constructor|]. destruct (one b) eqn:E.
  - exists (S n). constructor; auto. apply one_is; auto.
  - exists n. apply ones_no; auto. intros X. apply one_is in X. congruence.
Qed.
Definition ex_vector : vector := {| left := 7; right := 4; ascending := false; elems := [L0; LH; LX; L0] |}.
Example ex_well_formed : well_formed ex_vector. Proof. reflexivity. Qed.
Example ex_values : countones ex_vector = Ok 1 /\ onehot ex_vector = Ok true /\ onehot0 ex_vector = Ok true /\ isunknown ex_vector = Ok true.
Proof. repeat split; reflexivity. Qed.
Example ex_null : well_formed {| left := 5; right := 2; ascending := true; elems := [] |} /\ onehot {| left := 5; right := 2; ascending := true; elems := [] |} = Ok false.
Proof. split; reflexivity. Qed.
Example ex_ones : ones (elems ex_vector) 1.
Proof. apply ones_no; [intros [|]; discriminate|]. apply ones_yes; [right; reflexivity|]. do 2 (apply ones_no; [intros [|]; discriminate|]). constructor. Qed.

Print Assumptions C99_countones.
Print Assumptions C99_onehot.
Print Assumptions C99_onehot0.
Print Assumptions C99_isunknown.
Print Assumptions C99_ones_total.
