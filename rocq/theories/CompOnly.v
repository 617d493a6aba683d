(* Only texts of the form in the specification are read *)
From Coq Require Import List NArith ZArith Bool Lia.
From Verif Require Import Base PvalSpec PvalModel PvalProofs CompSpec CompModel CompProofs.
Import ListNotations.
Local Open Scope N_scope.

Lemma next_split : forall s n, skipn (length (next_loop s n)) s = [] \/
  exists d r, s = next_loop s n ++ d :: r /\ (d = 44 \/ d = 41).
Proof.
  induction s as [|c s IH]; intros n; [left; reflexivity|]. cbn [next_loop].
  destruct ((n =? 0)%nat && ((c =? 44) || (c =? 41))) eqn:E.
  - right. exists c, s. split; [reflexivity|]. apply andb_prop in E. destruct E as [_ E]. apply orb_prop in E.
    destruct E as [E|E]; apply N.eqb_eq in E; auto.
  - destruct (IH (if c =? 41 then (n - 1)%nat else if c =? 40 then S n else n)) as [H|(d & r & H & D)]; [left; exact H|].
    right. exists d, r. split; auto. cbn [app]. f_equal. exact H.
Qed.
Lemma open_split : forall s i off, open_loop s i = Some off -> exists l r, s = l ++ 40 :: r /\ spaces l /\ off = (i + length l + 1)%nat.
Proof.
  induction s as [|c s IH]; intros i off H; cbn in H; [discriminate|].
  destruct (N.eqb_spec c 40) as [->|]; [injection H as <-; exists [], s; repeat split; [intros ? []|cbn; lia]|].
  destruct (N.eqb_spec c 32) as [->|]; cbn in H; [|discriminate]. destruct (IH _ _ H) as (l & r & -> & L & ->).
  exists (32 :: l), r. repeat split; [|cbn; lia]. intros x [<-|X]; auto.
Qed.
Lemma count_pos : forall s n k, (1 <= k)%nat -> (1 <= count_loop s n k)%nat.
Proof.
  induction s as [|c s IH]; intros n k H; cbn [count_loop]; auto.
  destruct (_ && _); [apply IH; lia|]. destruct (_ =? _); [auto|]. destruct (_ && _); auto.
Qed.
Lemma pieces_last : forall ps d, ps <> [] -> closed (d :: ps) -> closed ps.
Proof. intros ps d N [L F]. inversion F; subst. split; auto. destruct ps; [congruence|exact L]. Qed.
(* One part of the text *)
Lemma step_split : forall s off, let nd := next_delimiter s off in
  skipn (off + length nd) s = [] \/ exists d r, skipn off s = nd ++ d :: r /\ (d = 44 \/ d = 41) /\
    skipn (off + length nd) s = d :: r /\ skipn (off + length nd + 1) s = r.
Proof.
  intros s off nd. destruct (next_split (skipn off s) 0) as [H|(d & r & H & D)].
  - left. unfold nd, next_delimiter. rewrite <- skipn_add. exact H.
  - right. exists d, r. change (skipn off s = nd ++ d :: r) in H. pose proof (skipn_past _ _ _ _ H) as P.
    repeat split; auto. rewrite <- skipn_add, P. reflexivity.
Qed.
Lemma end_split : forall s off, let nd := next_delimiter s off in find_close s (off + length nd + 1) = true ->
  exists r, skipn off s = nd ++ 41 :: r.
Proof.
  intros s off nd H. unfold find_close in H. replace (off + length nd + 1 - 1)%nat with (off + length nd)%nat in H by lia.
  destruct (step_split s off) as [E|(d & r & E & D & P & _)]; change (next_delimiter s off) with nd in E; try change (next_delimiter s off) with nd in P; [rewrite E in H; discriminate|].
  exists r. rewrite P in H. destruct D; subst d; [discriminate|auto].
Qed.
Lemma pieces_nil : forall ps rest, ps <> [] -> pieces ps ++ rest <> [].
Proof. intros [|[s d] ps] rest N; [congruence|]. cbn. destruct s; discriminate. Qed.

Section Only.
Context {A : Type}.
Variable e : ty A.
Lemma copy_fits : forall (t : ty A) v, copy_ok t v = true -> fits t v.
Proof. intros t v H. destruct t as [| [n|] | [n|] |], v; cbn in *; auto; apply Nat.eqb_eq; auto. Qed.
Lemma fields_only : forall s (fs : list (ty A)) off acc v, fs <> [] -> Forall (fun f => forall s v, value_of f s = Ok (Some v) -> loosely f v s) fs ->
  fields s fs off acc = Ok (Some v) ->
  exists vs ps rest, v = Comp (rev acc ++ vs) /\ ps <> [] /\ closed ps /\ all_loosely fs vs (map fst ps) /\ Forall2 fits fs vs /\
    skipn off s = pieces ps ++ rest.
Proof.
  intros s. induction fs as [|f fs IH]; intros off acc v N P H; [congruence|]. cbn [fields] in H. cbv zeta in H.
  inversion P as [|? ? P1 P2]; subst.
  destruct (value_of f (next_delimiter s off)) as [[w|]|] eqn:E; cbn [bind] in H; try discriminate.
  destruct (copy_ok f w) eqn:C; [|discriminate]. apply copy_fits in C. apply P1 in E.
  destruct fs as [|g fs].
  - cbn [fields] in H. destruct (find_close s _) eqn:F; [|discriminate]. injection H as <-.
    destruct (end_split _ _ F) as (r & R). exists [w], [(next_delimiter s off, 41)], r.
    repeat split; auto; try discriminate; try (repeat constructor; auto; fail). rewrite R. cbn [pieces]. rewrite <- app_assoc. reflexivity.
  - destruct (IH _ _ _ ltac:(discriminate) P2 H) as (vs & ps & rest & -> & NP & [L Fa] & AL & FT & R).
    destruct (step_split s off) as [Z|(d & r & Z & D & _ & Z2)].
    + exfalso. apply (pieces_nil ps rest NP). rewrite <- R, <- skipn_add, Z. reflexivity.
    + exists (w :: vs), ((next_delimiter s off, d) :: ps), rest.
      split; [cbn [rev]; rewrite <- app_assoc; reflexivity|]. split; [discriminate|]. split.
      { split; [cbn [map last snd]; destruct ps; [congruence|exact L]|constructor; auto]. }
      split; [constructor; auto|]. split; [constructor; auto|].
      rewrite Z. cbn [pieces]. rewrite <- app_assoc. cbn [app]. rewrite <- R, <- Z2. reflexivity.
Qed.
Lemma elems_only : forall s, (forall s v, value_of e s = Ok (Some v) -> loosely e v s) -> forall n off acc v, n <> 0%nat ->
  elems s e n off acc = Ok (Some v) ->
  exists vs ps rest, v = Comp (rev acc ++ vs) /\ ps <> [] /\ closed ps /\ all_loosely (map (fun _ => e) vs) vs (map fst ps) /\
    skipn off s = pieces ps ++ rest.
Proof.
  intros s P. induction n as [|n IH]; intros off acc v N H; [congruence|]. cbn [elems] in H. cbv zeta in H.
  destruct (value_of e (next_delimiter s off)) as [[w|]|] eqn:E; cbn [bind] in H; try discriminate. apply P in E.
  replace (off + (length (next_delimiter s off) + 1))%nat with (off + length (next_delimiter s off) + 1)%nat in H by lia.
  destruct n as [|n].
  - cbn [elems] in H. destruct (find_close s _) eqn:F; [|discriminate]. injection H as <-.
    destruct (end_split _ _ F) as (r & R). exists [w], [(next_delimiter s off, 41)], r.
    repeat split; auto; try discriminate; try (repeat constructor; auto; fail). rewrite R. cbn [pieces]. rewrite <- app_assoc. reflexivity.
  - destruct (IH _ _ _ ltac:(discriminate) H) as (vs & ps & rest & -> & NP & [L Fa] & AL & R).
    destruct (step_split s off) as [Z|(d & r & Z & D & _ & Z2)].
    + exfalso. apply (pieces_nil ps rest NP). rewrite <- R, <- skipn_add, Z. reflexivity.
    + exists (w :: vs), ((next_delimiter s off, d) :: ps), rest.
      split; [cbn [rev]; rewrite <- app_assoc; reflexivity|]. split; [discriminate|]. split.
      { split; [cbn [map last snd]; destruct ps; [congruence|exact L]|constructor; auto]. }
      split; [constructor; auto|].
      rewrite Z. cbn [pieces]. rewrite <- app_assoc. cbn [app]. rewrite <- R, <- Z2. reflexivity.
Qed.
End Only.

Lemma map_spelled : forall lits s vs, proper lits -> map_chars lits s = Some vs -> spelled_by lits vs s.
Proof.
  intros lits. induction s as [|c s IH]; intros vs P H; cbn in H; [injection H as <-; constructor|].
  destruct (char_map lits 0 c) as [i|] eqn:E; [|discriminate]. destruct (map_chars lits s) as [l|]; [|discriminate].
  injection H as <-. apply char_map_some in E; auto. destruct E as (k & -> & X). cbn [Nat.add]. constructor; auto.
Qed.
Lemma first_spaces : forall s i, exists k, first_loop s i = (i + k)%nat /\ spaces (firstn k s).
Proof.
  induction s as [|c s IH]; intros i; [exists 0%nat; split; [cbn; lia|intros ? []]|]. cbn [first_loop].
  destruct (N.eqb_spec c 32) as [->|]; cbn [negb]; [|exists 0%nat; split; [lia|intros ? []]].
  destruct s as [|d s]; [exists 0%nat; split; [lia|intros ? []]|]. destruct (IH (S i)) as (k & E & K). exists (S k).
  split; [rewrite E; lia|]. intros x [<-|X]; auto.
Qed.
Lemma last_spaces : forall s i, exists k, last_loop s i = (i - k)%nat /\ spaces (firstn k s) /\ (k <= length s - 1)%nat.
Proof.
  induction s as [|c s IH]; intros i; [exists 0%nat; repeat split; [cbn; lia|intros ? []|cbn; lia]|]. cbn [last_loop].
  destruct (N.eqb_spec c 32) as [->|]; cbn [negb]; [|exists 0%nat; repeat split; [lia|intros ? []|cbn; lia]].
  destruct s as [|d s]; [exists 0%nat; repeat split; [lia|intros ? []|cbn; lia]|]. destruct (IH (i - 1)%nat) as (k & E & K & L). exists (S k).
  split; [rewrite E; lia|]. split; [intros x [<-|X]; auto|]. cbn [length] in *. lia.
Qed.
Lemma chars_only : forall lits s vs, proper lits -> chars_value lits s = Ok (Some vs) ->
  exists l t r, s = l ++ t ++ r /\ spelled_by lits vs t /\ spaces l /\ spaces r.
Proof.
  intros lits s vs P H. destruct s as [|c0 s0]; [discriminate|]. set (s := c0 :: s0) in *. assert (NS : (1 <= length s)%nat) by (cbn; lia).
  change (chars_value lits s) with (let first := first_loop s 0 in let last := last_loop (rev s) (length s - 1) in
    if (last + 1 <? first)%nat then Fault else Ok (map_chars lits (firstn (last + 1 - first) (skipn first s)))) in H. cbv zeta in H.
  destruct (first_spaces s 0) as (f & F & SF). destruct (last_spaces (rev s) (length s - 1)) as (k & K & SK & LK).
  rewrite F, K in H. rewrite rev_length in LK. cbn [Nat.add] in H.
  destruct (Nat.ltb_spec (length s - 1 - k + 1) f) as [|G]; [discriminate|]. injection H as H. apply map_spelled in H; auto.
  set (m := (length s - 1 - k + 1 - f)%nat) in *.
  exists (firstn f s), (firstn m (skipn f s)), (skipn m (skipn f s)). repeat split; auto.
  - rewrite firstn_skipn, firstn_skipn. reflexivity.
  - rewrite skipn_add. replace (f + m)%nat with (length s - k)%nat by (unfold m; lia).
    intros c C. apply SK. apply in_rev in C. rewrite firstn_rev. exact C.
Qed.
Lemma value_only : forall A (t : ty A), lits_proper t -> forall s v, value_of t s = Ok (Some v) -> loosely t v s.
Proof.
  intros A. fix IH 1. intros t L s v H. destruct t as [img p|n lits|n e|fs].
  - cbn in H. destruct (p s) eqn:E; [|discriminate]. injection H as <-. constructor; auto.
  - cbn [value_of] in H. destruct (chars_value lits s) as [[vs|]|] eqn:E; try discriminate. injection H as <-.
    apply chars_only in E; [|inversion L; auto]. destruct E as (l & u & r & -> & S & B & C). constructor; auto.
  - rewrite value_array in H. destruct (find_open s) as [pos|] eqn:O; [|discriminate]. apply open_split in O.
    destruct O as (l & r & E & SP & ->).
    destruct (elems_only e s (IH e ltac:(inversion L; auto)) (count_delimiters s) _ _ _ ltac:(pose proof (count_pos s 0 1); unfold count_delimiters; lia) H)
      as (vs & ps & rest & -> & NP & C & AL & R).
    cbn [rev app]. subst s. cbn [Nat.add] in R.
    replace (l ++ 40 :: r) with ((l ++ [40]) ++ r) in R by (rewrite <- app_assoc; reflexivity).
    replace (length l + 1)%nat with (length (l ++ [40])) in R by (rewrite app_length; reflexivity).
    rewrite skipn_app, skipn_all, Nat.sub_diag in R. cbn in R. rewrite R. constructor; auto.
  - assert (F : Forall (fun f => forall s v, value_of f s = Ok (Some v) -> loosely f v s) fs).
    { assert (LF : Forall lits_proper fs) by (inversion L; auto). clear L H. induction fs as [|f fs IHf]; constructor.
      - apply IH. inversion LF; auto.
      - apply IHf. inversion LF; auto. }
    rewrite value_record in H. destruct (find_open s) as [pos|] eqn:O; [|discriminate]. apply open_split in O.
    destruct O as (l & r & E & SP & ->).
    assert (N : fs <> []).
    { intros ->. cbn [fields] in H. unfold find_close in H. subst s. replace (0 + length l + 1 - 1)%nat with (length l) in H by lia.
      rewrite skipn_app, skipn_all, Nat.sub_diag in H. discriminate. }
    destruct (fields_only s fs _ _ _ N F H) as (vs & ps & rest & -> & NP & C & AL & FT & R).
    cbn [rev app]. subst s. cbn [Nat.add] in R.
    replace (l ++ 40 :: r) with ((l ++ [40]) ++ r) in R by (rewrite <- app_assoc; reflexivity).
    replace (length l + 1)%nat with (length (l ++ [40])) in R by (rewrite app_length; reflexivity).
    rewrite skipn_app, skipn_all, Nat.sub_diag in R. cbn in R. rewrite R. constructor; auto.
Qed.
