From Coq Require Import ZArith NArith List Bool Arith Lia Relations.
From Verif Require Import Base NumberModel CoverModel ObjModel ObjKindSpec.
Import ListNotations.
Local Open Scope nat_scope.

(* Bits of a mask. *)

Definition tb (x : N) (b : nat) : bool := N.testbit x (N.of_nat b).
Definition rank (x : N) (b : nat) : nat := length (filter (tb x) (seq 0 b)).

Lemma rank_S x b : rank x (S b) = rank x b + (if tb x b then 1 else 0).
Proof.
  unfold rank. rewrite seq_S, filter_app, app_length. cbn. now destruct (tb x b).
Qed.

Lemma rank_mono x a b : a <= b -> rank x a <= rank x b.
Proof. induction 1; [lia|]. rewrite rank_S. lia. Qed.

Lemma rank_lt x a b : a < b -> tb x a = true -> rank x a < rank x b.
Proof. intros H T. assert (M := rank_mono x (S a) b H). rewrite rank_S, T in M. lia. Qed.

Lemma popcount_rank x : popcount x = rank x 64.
Proof. unfold popcount, rank. generalize (seq 0 64). intros l. reflexivity. Qed.

Lemma slot_rank x b : b <= 64 -> slot x b = rank x b.
Proof.
  intros H. unfold slot, popcount.
  assert (E : forall n, length (filter (fun i => N.testbit (N.land x (N.shiftl 1 (N.of_nat b) - 1)) (N.of_nat i)) (seq 0 n))
    = rank x (Nat.min b n)).
  { induction n as [|n IH]; [now rewrite Nat.min_0_r|].
    rewrite seq_S, filter_app, app_length, IH. cbn [Nat.add filter length].
    rewrite N.land_spec, N.shiftl_1_l, N.sub_1_r, <- N.ones_equiv.
    destruct (Nat.lt_ge_cases n b) as [L|L].
    - rewrite N.ones_spec_low by lia. rewrite andb_true_r.
      replace (Nat.min b n) with n by lia. replace (Nat.min b (S n)) with (S n) by lia.
      rewrite rank_S. unfold tb. now destruct (N.testbit x (N.of_nat n)).
    - rewrite N.ones_spec_high by lia. rewrite andb_false_r. cbn [length].
      replace (Nat.min b n) with b by lia. replace (Nat.min b (S n)) with b by lia. lia. }
  rewrite E. now replace (Nat.min b 64) with b by lia.
Qed.

(* Lists. *)

Lemma nth_error_update {A} (l : list A) n v : n < length l -> forall i,
  nth_error (firstn n l ++ v :: skipn (S n) l) i = if i =? n then Some v else nth_error l i.
Proof.
  revert n. induction l as [|x l IH]; intros n H i; [cbn in H; lia|].
  destruct n as [|n]; cbn [firstn app skipn].
  - destruct i; reflexivity.
  - destruct i as [|i]; [reflexivity|]. cbn [nth_error]. cbn [length] in H. rewrite IH by lia. reflexivity.
Qed.

Lemma update_length {A} (l : list A) n v : n < length l -> length (firstn n l ++ v :: skipn (S n) l) = length l.
Proof. intros H. rewrite app_length, firstn_length. cbn [length]. rewrite skipn_length. lia. Qed.

(* Changing the kind. *)

Lemma put_item_ok items n v : n < length items ->
  exists items', put_item items n v = Ok items' /\ length items' = length items /\
    forall i, nth_error items' i = if i =? n then Some v else nth_error items i.
Proof.
  intros H. unfold put_item. destruct (Nat.ltb_spec n (length items)); [|lia].
  eexists. split; [reflexivity|]. split; [now apply update_length|]. now apply nth_error_update.
Qed.

Definition wanted (old : N) (tmp : list item) (b : nat) : option item :=
  if tb old b then nth_error tmp (rank old b) else Some (zero_item (type_of_bit b)).

Lemma change_loop_ok old new tmp : popcount old <= length tmp -> forall k b items, b + k = 64 ->
  popcount new <= length items ->
  (forall i, i < b -> tb new i = true -> nth_error items (rank new i) = wanted old tmp i) ->
  exists items', change_loop (seq b k) old new tmp (rank old b) (rank new b) (popcount new) items = Ok items' /\
    length items' = length items /\
    forall i, i < 64 -> tb new i = true -> nth_error items' (rank new i) = wanted old tmp i.
Proof.
  intros LT. induction k as [|k IH]; intros b items B LI H; cbn [change_loop seq].
  - assert (b = 64) by lia. subst b. destruct (Nat.leb_spec (popcount new) (rank new 64)) as [_|C].
    + exists items. auto.
    + rewrite popcount_rank in C. lia.
  - destruct (Nat.leb_spec (popcount new) (rank new b)) as [D|D].
    { exists items. split; [reflexivity|]. split; [reflexivity|]. intros i I T.
      destruct (Nat.lt_ge_cases i b) as [L|L]; [now apply H|].
      exfalso. rewrite popcount_rank in D. assert (M := rank_lt new i 64 I T).
      assert (M2 := rank_mono new b i L). lia. }
    change (N.testbit old (N.of_nat b)) with (tb old b). change (N.testbit new (N.of_nat b)) with (tb new b).
    assert (RO := rank_S old b). assert (RN := rank_S new b).
    destruct (tb old b) eqn:O, (tb new b) eqn:W; cbn [andb].
    + assert (L1 : rank old b < length tmp).
      { assert (M := rank_lt old b 64 ltac:(lia) O). rewrite popcount_rank in LT. lia. }
      destruct (nth_error tmp (rank old b)) as [v|] eqn:NV; [|apply nth_error_None in NV; lia].
      destruct (put_item_ok items (rank new b) v ltac:(lia)) as (it' & E & L & NT). rewrite E. cbn [bind].
      replace (S (rank old b)) with (rank old (S b)) by lia. replace (S (rank new b)) with (rank new (S b)) by lia.
      destruct (IH (S b) it' ltac:(lia) ltac:(lia)) as (it2 & E2 & L2 & H2).
      { intros i I T. rewrite NT. destruct (Nat.eqb_spec (rank new i) (rank new b)) as [EQ|NE].
        - assert (i = b). { destruct (Nat.lt_ge_cases i b) as [LB|LB]; [|lia]. assert (M := rank_lt new i b LB T). lia. }
          subst i. unfold wanted. rewrite O. now symmetry.
        - apply H; [|exact T]. destruct (Nat.eq_dec i b) as [->|]; [congruence|lia]. }
      exists it2. split; [exact E2|]. split; [lia|exact H2].
    + replace (S (rank old b)) with (rank old (S b)) by lia.
      replace (rank new b) with (rank new (S b)) by lia.
      apply IH; [lia|exact LI|]. intros i I T. apply H; [|exact T].
      destruct (Nat.eq_dec i b) as [->|]; [congruence|lia].
    + destruct (put_item_ok items (rank new b) (zero_item (type_of_bit b)) ltac:(lia)) as (it' & E & L & NT). rewrite E. cbn [bind].
      replace (rank old b) with (rank old (S b)) by lia. replace (S (rank new b)) with (rank new (S b)) by lia.
      destruct (IH (S b) it' ltac:(lia) ltac:(lia)) as (it2 & E2 & L2 & H2).
      { intros i I T. rewrite NT. destruct (Nat.eqb_spec (rank new i) (rank new b)) as [EQ|NE].
        - assert (i = b). { destruct (Nat.lt_ge_cases i b) as [LB|LB]; [|lia]. assert (M := rank_lt new i b LB T). lia. }
          subst i. unfold wanted. now rewrite O.
        - apply H; [|exact T]. destruct (Nat.eq_dec i b) as [->|]; [congruence|lia]. }
      exists it2. split; [exact E2|]. split; [lia|exact H2].
    + replace (rank old b) with (rank old (S b)) by lia.
      replace (rank new b) with (rank new (S b)) by lia.
      apply IH; [lia|exact LI|]. intros i I T. apply H; [|exact T].
      destruct (Nat.eq_dec i b) as [->|]; [congruence|lia].
Qed.

(* Sizes. *)

Lemma size_of_error s k : size_of s k = match nth_error s k with Some v => v | None => 0 end.
Proof. revert k. induction s as [|x s IH]; intros [|k]; cbn; auto. apply IH. Qed.

Lemma size_of_set s k v j : k < length s -> size_of (set_size s k v) j = if j =? k then v else size_of s j.
Proof.
  intros H. rewrite !size_of_error. unfold set_size. rewrite (nth_error_update s k v H).
  now destruct (j =? k).
Qed.

Lemma set_size_length s k v : k < length s -> length (set_size s k v) = length s.
Proof. apply update_length. Qed.

Lemma list_sum_set s k v : k < length s -> list_sum (set_size s k v) + size_of s k = list_sum s + v.
Proof.
  revert k. induction s as [|x s IH]; intros k H; [cbn in H; lia|]. unfold set_size, size_of in *.
  destruct k as [|k]; cbn [firstn skipn app nth list_sum fold_right] in *; [lia|].
  cbn [length] in H. assert (E := IH k ltac:(lia)). unfold list_sum in E. lia.
Qed.

Section Sizes.
Variable changes : list (nat * nat).
Notation related := (related changes).

Lemma max_size_spec s i : forall l acc, incl l changes ->
  (exists j, related i j /\ acc = size_of s j) ->
  let m := fold_left (fun m p => if fst p =? i then Nat.max m (size_of s (snd p))
                        else if snd p =? i then Nat.max m (size_of s (fst p))
                        else m) l acc in
  acc <= m /\ (exists j, related i j /\ m = size_of s j) /\
  (forall p, In p l -> fst p = i -> size_of s (snd p) <= m) /\
  (forall p, In p l -> snd p = i -> size_of s i <= acc -> size_of s (fst p) <= m).
Proof.
  induction l as [|[a b] l IH]; intros acc I J; cbn [fold_left fst snd].
  - split; [lia|]. split; [exact J|]. split; intros p [].
  - assert (IL : incl l changes) by (intros x X; apply I; now right).
    assert (R : In (a, b) changes) by (apply I; now left).
    match goal with |- context [fold_left ?f l ?a0] => set (acc' := a0) end.
    assert (J' : exists j, related i j /\ acc' = size_of s j).
    { unfold acc'. destruct (Nat.eqb_spec a i) as [->|N1].
      - destruct (Nat.max_spec acc (size_of s b)) as [[_ ->]|[_ ->]]; [|exact J].
        exists b. split; [now apply rst_step|reflexivity].
      - destruct (Nat.eqb_spec b i) as [->|N2]; [|exact J].
        destruct (Nat.max_spec acc (size_of s a)) as [[_ ->]|[_ ->]]; [|exact J].
        exists a. split; [apply rst_sym; now apply rst_step|reflexivity]. }
    destruct (IH acc' IL J') as (A1 & A2 & A3 & A4).
    assert (G : acc <= acc').
    { unfold acc'. destruct (a =? i); [lia|]. destruct (b =? i); lia. }
    split; [lia|]. split; [exact A2|]. split.
    + intros p [<-|P] E; [|now apply A3]. cbn [fst snd] in *. subst a.
      assert (Q : size_of s b <= acc') by (unfold acc'; rewrite Nat.eqb_refl; lia). lia.
    + intros p [<-|P] E L; [|apply A4; [exact P|exact E|lia]]. cbn [fst snd] in *. subst b.
      assert (Q : size_of s a <= acc'); [|lia].
      unfold acc'. destruct (Nat.eqb_spec a i) as [->|N1]; [lia|]. rewrite Nat.eqb_refl. lia.
Qed.

Lemma max_size_ok s i :
  size_of s i <= max_size changes s i /\ (exists j, related i j /\ max_size changes s i = size_of s j) /\
  (forall j, In (i, j) changes -> size_of s j <= max_size changes s i) /\
  (forall j, In (j, i) changes -> size_of s j <= max_size changes s i).
Proof.
  destruct (max_size_spec s i changes (size_of s i) (incl_refl _)) as (A & B & C & D).
  { exists i. split; [apply rst_refl|reflexivity]. }
  split; [exact A|]. split; [exact B|]. split.
  - intros j H. exact (C (i, j) H eq_refl).
  - intros j H. exact (D (j, i) H eq_refl (le_n _)).
Qed.

(* Every size is the first size of a related kind. *)
Definition from (s0 s : list nat) : Prop :=
  length s = length s0 /\
  forall i, size_of s0 i <= size_of s i /\ exists j, related i j /\ size_of s i = size_of s0 j.

Lemma size_pass_ok s0 : forall kinds s ch s' ch',
  Forall (fun i => i < length s0) kinds -> from s0 s ->
  size_pass changes kinds s ch = (s', ch') ->
  from s0 s' /\ list_sum s <= list_sum s' /\
  (ch' = true -> ch = true \/ list_sum s < list_sum s') /\
  (ch' = false -> ch = false /\ s' = s /\ forall i, In i kinds -> max_size changes s i = size_of s i).
Proof.
  induction kinds as [|i kinds IH]; intros s ch s' ch' F FR E; cbn [size_pass] in E.
  - injection E as <- <-. split; [exact FR|]. split; [lia|]. split; [auto|]. intros ->. repeat split. intros i [].
  - inversion F as [|? ? F1 F2]; subst.
    destruct (max_size_ok s i) as (M1 & (j & RJ & MJ) & _).
    destruct (Nat.eqb_spec (max_size changes s i) (size_of s i)) as [Q|Q].
    + destruct (IH s ch s' ch' F2 FR E) as (A & B & C & D). split; [exact A|]. split; [exact B|].
      split; [exact C|]. intros H. destruct (D H) as (D1 & D2 & D3). split; [exact D1|]. split; [exact D2|].
      intros x [<-|X]; [exact Q|now apply D3].
    + set (m := max_size changes s i) in *. destruct FR as [FL FR].
      assert (L : i < length s) by lia.
      assert (FR' : from s0 (set_size s i m)).
      { split; [rewrite set_size_length; lia|]. intros x. rewrite (size_of_set s i m x L).
        destruct (Nat.eqb_spec x i) as [->|N]; [|apply FR].
        destruct (FR j) as [_ (k & RK & EK)]. destruct (FR i) as [GI _].
        split; [lia|]. exists k. split; [eapply rst_trans; [exact RJ|exact RK]|congruence]. }
      destruct (IH _ _ _ _ F2 FR' E) as (A & B & C & D).
      assert (SS := list_sum_set s i m L). split; [exact A|]. split; [lia|]. split; [right; lia|].
      intros H. destruct (D H) as (D1 & _). discriminate.
Qed.

Lemma size_of_max s i : size_of s i <= fold_right Nat.max 0 s.
Proof.
  revert i. induction s as [|x s IH]; intros [|i]; cbn; try lia. specialize (IH i). unfold size_of in IH. lia.
Qed.

Lemma sum_bound s M : (forall i, size_of s i <= M) -> list_sum s <= length s * M.
Proof.
  induction s as [|x s IH]; intros H; [cbn; lia|]. cbn [list_sum fold_right length].
  assert (A := H 0). cbn in A. assert (B := IH (fun i => H (S i))). unfold list_sum in B. lia.
Qed.

Lemma size_loop_ok s0 : forall fuel s, from s0 s ->
  length s0 * fold_right Nat.max 0 s0 < fuel + list_sum s ->
  exists s', size_loop fuel changes s = Ok s' /\ from s0 s' /\
    forall i, i < length s0 -> max_size changes s' i = size_of s' i.
Proof.
  induction fuel as [|fuel IH]; intros s FR B.
  - exfalso. assert (S1 := sum_bound s (fold_right Nat.max 0 s0)). destruct FR as [FL FR].
    rewrite FL in S1. assert (list_sum s <= length s0 * fold_right Nat.max 0 s0); [|lia].
    apply S1. intros i. destruct (FR i) as [_ (j & _ & ->)]. apply size_of_max.
  - cbn [size_loop]. destruct (size_pass changes (seq 0 (length s)) s false) as [s' ch'] eqn:E.
    assert (FL := proj1 FR).
    destruct (size_pass_ok s0 (seq 0 (length s)) s false s' ch') as (A & S1 & C & D); [|exact FR|exact E|].
    { rewrite FL. apply Forall_forall. intros x X. apply in_seq in X. lia. }
    destruct ch'.
    + apply IH; [exact A|]. destruct (C eq_refl) as [C1|C1]; [discriminate|lia].
    + destruct (D eq_refl) as (_ & -> & D3). exists s. split; [reflexivity|]. split; [exact FR|].
      intros i I. apply D3. apply in_seq. lia.
Qed.

End Sizes.

Lemma object_init_ok c : Forall (fun p => fst p < length (c_has c) /\ snd p < length (c_has c)) (c_change c) ->
  exists s, object_init c = Ok s /\ from (c_change c) (first_sizes c) s /\
    forall a b, In (a, b) (c_change c) -> size_of s a = size_of s b.
Proof.
  intros P. unfold object_init.
  destruct (size_loop_ok (c_change c) (first_sizes c) (S (length (first_sizes c) * fold_right Nat.max 0 (first_sizes c)))
              (first_sizes c)) as (s & E & FR & FX); [|lia|].
  { split; [reflexivity|]. intros i. split; [lia|]. exists i. split; [apply rst_refl|reflexivity]. }
  exists s. split; [exact E|]. split; [exact FR|]. intros a b I.
  assert (L : length (first_sizes c) = length (c_has c)) by (unfold first_sizes; apply map_length).
  assert (PI := proj1 (Forall_forall _ _) P (a, b) I). cbn [fst snd] in PI.
  destruct (max_size_ok (c_change c) s a) as (_ & _ & A & _).
  destruct (max_size_ok (c_change c) s b) as (_ & _ & _ & B).
  assert (A' := A b I). assert (B' := B a I).
  rewrite (FX a) in A' by lia. rewrite (FX b) in B' by lia. lia.
Qed.

Lemma first_size c k : k < length (c_has c) -> size_of (first_sizes c) k = 16 + popcount (has_map c k) * 8.
Proof.
  intros H. unfold size_of, first_sizes, has_map.
  rewrite (nth_indep _ 0 (16 + popcount 0%N * 8)) by (rewrite map_length; exact H).
  now rewrite (map_nth (fun h => 16 + popcount h * 8)).
Qed.
