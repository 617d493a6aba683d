(* Proofs about the predefined operators. *)
From Coq Require Import List ZArith Arith Bool Lia.
From Verif Require Import Base JitModel ArithModel ArithProofs PredefSpec PredefModel.
Import ListNotations.
Local Open Scope Z_scope.

(* ---- memory ---- *)

Lemma wrap_small z : - 2 ^ 63 <= z < 2 ^ 63 -> wrap z = z.
Proof. intros H. apply wrap_i64. unfold i64, I64_MIN, I64_MAX. lia. Qed.

Lemma add_one i : 0 <= i < 2 ^ 62 -> add i 1 = i + 1.
Proof. intros H. apply wrap_small. lia. Qed.

Lemma load_nat {A} (m : list A) j v : nth_error m j = Some v -> load m (Z.of_nat j) = Ok v.
Proof.
  intros H. unfold load. replace (Z.of_nat j <? 0) with false by (symmetry; apply Z.ltb_ge; lia).
  now rewrite Nat2Z.id, H.
Qed.

Lemma put_ok {A} (v : A) : forall n m, (n < length m)%nat ->
  put m n v = Ok (firstn n m ++ v :: skipn (S n) m).
Proof.
  induction n as [| n IH]; intros [| x m] H; cbn in H; try lia.
  - reflexivity.
  - cbn [put firstn app]. rewrite IH by lia. reflexivity.
Qed.

Lemma store_ok {A} (v : A) n m : (n < length m)%nat ->
  store m (Z.of_nat n) v = Ok (firstn n m ++ v :: skipn (S n) m).
Proof.
  intros H. unfold store. replace (Z.of_nat n <? 0) with false by (symmetry; apply Z.ltb_ge; lia).
  now rewrite Nat2Z.id, put_ok.
Qed.

Lemma stored_length {A} (v : A) n m : (n < length m)%nat ->
  length (firstn n m ++ v :: skipn (S n) m) = length m.
Proof. intros H. rewrite app_length, firstn_length. cbn [length]. rewrite skipn_length. lia. Qed.

Lemma stored_firstn {A} (v : A) n m : (n < length m)%nat ->
  firstn (S n) (firstn n m ++ v :: skipn (S n) m) = firstn n m ++ [v].
Proof.
  intros H. rewrite firstn_app, firstn_length.
  replace (S n - Nat.min n (length m))%nat with 1%nat by lia.
  rewrite firstn_firstn. replace (Nat.min (S n) n) with n by lia. reflexivity.
Qed.

Lemma fill_ok {A} (f : Z -> res A) (g : nat -> A) len : forall n i mem,
  Z.of_nat len < 2 ^ 60 -> length mem = len -> (i + n)%nat = len ->
  (forall j, (i <= j < len)%nat -> f (Z.of_nat j) = Ok (g j)) ->
  fill_loop n f (Z.of_nat len) mem (Z.of_nat i) = Ok (firstn i mem ++ map g (seq i n)).
Proof.
  induction n as [| n IH]; intros i mem B L E F; cbn [fill_loop].
  - replace (Z.of_nat i =? Z.of_nat len) with true by (symmetry; apply Z.eqb_eq; lia).
    cbn [seq map]. now rewrite app_nil_r, firstn_all2 by lia.
  - replace (Z.of_nat i =? Z.of_nat len) with false by (symmetry; apply Z.eqb_neq; lia).
    rewrite F by lia. cbn [bind]. rewrite store_ok by lia. cbn [bind].
    rewrite add_one by lia. replace (Z.of_nat i + 1) with (Z.of_nat (S i)) by lia.
    rewrite IH; [| exact B | rewrite stored_length; lia | lia | intros j J; apply F; lia].
    rewrite stored_firstn by lia. now rewrite <- app_assoc.
Qed.

Lemma body_ok {A} (f : Z -> res A) (g : nat -> A) len : forall n i mem,
  Z.of_nat len < 2 ^ 60 -> length mem = len -> (i + S n)%nat = len ->
  (forall j, (i <= j < len)%nat -> f (Z.of_nat j) = Ok (g j)) ->
  body_loop (S n) f (Z.of_nat len) mem (Z.of_nat i) = Ok (firstn i mem ++ map g (seq i (S n))).
Proof.
  induction n as [| n IH]; intros i mem B L E F; cbn [body_loop];
    rewrite F by lia; cbn [bind]; rewrite store_ok by lia; cbn [bind];
    rewrite add_one by lia; replace (Z.of_nat i + 1) with (Z.of_nat (S i)) by lia.
  - replace (Z.of_nat (S i) =? Z.of_nat len) with true by (symmetry; apply Z.eqb_eq; lia).
    rewrite skipn_all2 by lia. reflexivity.
  - replace (Z.of_nat (S i) =? Z.of_nat len) with false by (symmetry; apply Z.eqb_neq; lia).
    cbn [body_loop] in IH.
    rewrite IH; [| exact B | rewrite stored_length; lia | lia | intros j J; apply F; lia].
    rewrite stored_firstn by lia. now rewrite <- app_assoc.
Qed.

Lemma fill0 {A B} (f : Z -> res A) (g : nat -> A) (l : list B) mem :
  len_of l < 2 ^ 60 -> length mem = length l ->
  (forall j, (j < length l)%nat -> f (Z.of_nat j) = Ok (g j)) ->
  fill_loop (length l) f (len_of l) mem 0 = Ok (map g (seq 0 (length l))).
Proof.
  intros L M F. apply (fill_ok f g (length l) (length l) 0 mem); [exact L | exact M | lia |].
  intros j J. apply F. lia.
Qed.

Lemma body0 {A B} (f : Z -> res A) (g : nat -> A) (l : list B) mem :
  len_of l < 2 ^ 60 -> length mem = length l -> l <> [] ->
  (forall j, (j < length l)%nat -> f (Z.of_nat j) = Ok (g j)) ->
  body_loop (length l) f (len_of l) mem 0 = Ok (map g (seq 0 (length l))).
Proof.
  intros L M N F. unfold len_of in *. destruct l as [| x l]; [contradiction |]. cbn [length] in *.
  apply (body_ok f g (S (length l)) (length l) 0 mem); [exact L | exact M | lia |].
  intros j J. apply F. lia.
Qed.

Lemma reduce_ok {A B} (f : B -> A -> B) (data : list A) : forall n i acc,
  Z.of_nat (length data) < 2 ^ 60 -> (i + S n)%nat = length data ->
  reduce_loop (S n) f data (Z.of_nat (length data)) acc (Z.of_nat i) = Ok (fold_left f (skipn i data) acc).
Proof.
  assert (SK : forall i (x : A), nth_error data i = Some x -> skipn i data = x :: skipn (S i) data).
  { clear. induction data as [| y l IH]; intros [| i] x H; cbn in H; try discriminate.
    - injection H as ->. reflexivity.
    - cbn [skipn]. rewrite (IH _ _ H). reflexivity. }
  induction n as [| n IH]; intros i acc L E; cbn [reduce_loop];
    (destruct (nth_error data i) as [x |] eqn:X; [| apply nth_error_None in X; lia]);
    rewrite (load_nat _ _ _ X); cbn [bind];
    rewrite add_one by lia; replace (Z.of_nat i + 1) with (Z.of_nat (S i)) by lia;
    rewrite (SK _ _ X); cbn [fold_left].
  - replace (Z.of_nat (S i) =? Z.of_nat (length data)) with true by (symmetry; apply Z.eqb_eq; lia).
    now rewrite skipn_all2 by lia.
  - replace (Z.of_nat (S i) =? Z.of_nat (length data)) with false by (symmetry; apply Z.eqb_neq; lia).
    cbn [reduce_loop] in IH. apply IH; lia.
Qed.

Lemma null_iff {A} (a : arr A) : arr_ok a -> arr_null a = match adata a with [] => true | _ => false end.
Proof.
  intros (L & _). unfold arr_null, range_null.
  destruct (adata a); cbn [length] in L; destruct (ato a);
    try (apply Z.ltb_lt; lia); try (apply Z.ltb_ge; lia).
Qed.

Lemma map_nth_seq {A B} (f : A -> B) (l : list A) (g : nat -> B) :
  (forall j x, nth_error l j = Some x -> g j = f x) -> map g (seq 0 (length l)) = map f l.
Proof.
  revert g. induction l as [| x l IH]; intros g H; [reflexivity |].
  cbn [length seq map]. f_equal; [apply (H O x eq_refl) |].
  rewrite <- seq_shift, map_map. apply IH. intros j y J. apply (H (S j)). exact J.
Qed.

(* ---- shift operators ---- *)

Definition at_ (w : list Z) (i : Z) : Z := nth (Z.to_nat i) w 0.

Lemma at_left w x i : 0 <= i < len_of w ->
  at_ (tl w ++ [x]) i = if i + 1 <? len_of w then at_ w (i + 1) else x.
Proof.
  unfold at_, len_of. intros H. destruct w as [| a w]; [cbn in H; lia |].
  cbn [tl length] in *. replace (Z.to_nat (i + 1)) with (S (Z.to_nat i)) by lia. cbn [nth].
  destruct (Z.ltb_spec (i + 1) (Z.of_nat (S (length w)))).
  - apply app_nth1. lia.
  - rewrite app_nth2 by lia. replace (Z.to_nat i - length w)%nat with O by lia. reflexivity.
Qed.

Lemma nth_removelast (w : list Z) : forall i, (S i < length w)%nat -> nth i (removelast w) 0 = nth i w 0.
Proof.
  induction w as [| a w IH]; intros i H; cbn in H; [lia |].
  destruct w as [| b w]; [cbn in H; lia |].
  destruct i as [| i]; [reflexivity |].
  change (removelast (a :: b :: w)) with (a :: removelast (b :: w)). cbn [nth]. apply IH. cbn in *. lia.
Qed.

Lemma at_right w x i : 0 <= i < len_of w ->
  at_ (x :: removelast w) i = if i =? 0 then x else at_ w (i - 1).
Proof.
  unfold at_, len_of. intros H.
  destruct (Z.eqb_spec i 0) as [-> | N]; [reflexivity |].
  replace (Z.to_nat i) with (S (Z.to_nat (i - 1))) by lia. cbn [nth]. apply nth_removelast. lia.
Qed.

Lemma removelast_length (w : list Z) : length (removelast w) = pred (length w).
Proof.
  induction w as [| a [| b w] IH]; [reflexivity | reflexivity |].
  change (removelast (a :: b :: w)) with (a :: removelast (b :: w)). cbn [length] in *. lia.
Qed.

Lemma basic_len k w : w <> [] -> len_of (basic k w) = len_of w.
Proof.
  unfold len_of. intros H. destruct w as [| a w]; [contradiction |].
  destruct k; cbn [basic tl]; try (rewrite app_length; cbn [length]; lia);
    cbn [length]; rewrite removelast_length; cbn [length]; lia.
Qed.

Lemma at_last w : w <> [] -> last w 0 = at_ w (len_of w - 1).
Proof.
  unfold at_, len_of. intros H. destruct (exists_last H) as (u & x & ->).
  rewrite last_last, app_length. cbn [length].
  rewrite app_nth2 by lia. replace (Z.to_nat _ - length u)%nat with O by lia. reflexivity.
Qed.

Lemma at_hd w : hd 0 w = at_ w 0.
Proof. now destruct w. Qed.

Lemma len_pos (w : list Z) : w <> [] -> 0 < len_of w.
Proof. destruct w; [contradiction |]. unfold len_of. cbn [length]. lia. Qed.

Lemma nonempty (w : list Z) : 0 < len_of w -> w <> [].
Proof. intros H ->. unfold len_of in H. cbn in H. lia. Qed.

Definition iterated (k : shift) (v : list Z) (n : nat) : list Z := Nat.iter n (basic k) v.

Lemma iterated_len k v n : v <> [] -> len_of (iterated k v n) = len_of v.
Proof.
  intros H. induction n as [| n IH]; [reflexivity |].
  change (iterated k v (S n)) with (basic k (iterated k v n)).
  rewrite basic_len; [exact IH |]. apply nonempty. rewrite IH. now apply len_pos.
Qed.

(* The elements after [n] basic operations. *)
Definition moved (k : shift) (v : list Z) (n i : Z) : Z :=
  let L := len_of v in
  match k with
  | SLL => if i + n <? L then at_ v (i + n) else 0
  | SLA => if i + n <? L then at_ v (i + n) else at_ v (L - 1)
  | SRL => if n <=? i then at_ v (i - n) else 0
  | SRA => if n <=? i then at_ v (i - n) else at_ v 0
  | ROL => at_ v ((i + n) mod L)
  | ROR => at_ v ((i - n) mod L)
  end.

Ltac zcases :=
  repeat match goal with
         | |- context [?a <? ?b] => destruct (Z.ltb_spec a b)
         | |- context [?a <=? ?b] => destruct (Z.leb_spec a b)
         | |- context [?a =? ?b] => destruct (Z.eqb_spec a b)
         end; try (exfalso; lia).

Lemma iterated_at k v : v <> [] -> forall n i, 0 <= i < len_of v ->
  at_ (iterated k v n) i = moved k v (Z.of_nat n) i.
Proof.
  intros V. pose proof (len_pos v V) as P. induction n as [| n IH]; intros i I.
  - cbn [iterated Nat.iter]. unfold moved. change (Z.of_nat 0) with 0.
    rewrite Z.add_0_r, Z.sub_0_r, Z.mod_small by lia. destruct k; zcases; reflexivity.
  - change (iterated k v (S n)) with (basic k (iterated k v n)).
    pose proof (iterated_len k v n V) as L.
    assert (W : iterated k v n <> []) by (apply nonempty; lia).
    replace (Z.of_nat (S n)) with (Z.of_nat n + 1) by lia.
    destruct k; cbn [basic];
      try (rewrite at_left by lia; rewrite ?at_last, ?at_hd by exact W; rewrite ?L;
           destruct (Z.ltb_spec (i + 1) (len_of v)); rewrite ?IH by lia);
      try (rewrite at_right by lia; rewrite ?at_last, ?at_hd by exact W; rewrite ?L;
           destruct (Z.eqb_spec i 0) as [-> | N]; rewrite ?IH by lia);
      unfold moved; zcases; try reflexivity; try (f_equal; lia).
    + f_equal. f_equal. lia.
    + rewrite Z.add_0_l. f_equal.
      replace i with (len_of v - 1) by lia.
      replace (len_of v - 1 + (Z.of_nat n + 1)) with (Z.of_nat n + 1 * len_of v) by lia.
      now rewrite Z.mod_add by lia.
    + f_equal. rewrite <- (Z.mod_add (0 - (Z.of_nat n + 1)) 1) by lia. f_equal. lia.
    + f_equal. f_equal. lia.
Qed.

Lemma list_at (v w : list Z) : len_of v = len_of w ->
  (forall i, 0 <= i < len_of v -> at_ v i = at_ w i) -> v = w.
Proof.
  unfold len_of, at_. intros L H. apply (nth_ext _ _ 0 0); [lia |].
  intros n N. specialize (H (Z.of_nat n) ltac:(lia)). now rewrite Nat2Z.id in H.
Qed.

Lemma mod_ok a b : - 2 ^ 63 < a < 2 ^ 63 -> 0 < b < 2 ^ 63 -> mod_ a b = Ok (a mod b).
Proof.
  intros A B. unfold mod_. cbn [exec_arith]. unfold div_crash.
  replace (b =? 0) with false by (symmetry; apply Z.eqb_neq; lia).
  replace (b =? -1) with false by (symmetry; apply Z.eqb_neq; lia).
  rewrite andb_false_r. cbn [orb].
  pose proof (Z.quot_rem' a b) as Q. pose proof (Z.rem_bound_abs a b ltac:(lia)) as R.
  replace (a - Z.quot a b * b) with (Z.rem a b) by lia.
  replace (b <? 0) with false by (symmetry; apply Z.ltb_ge; lia).
  replace (0 <? b) with true by (symmetry; apply Z.ltb_lt; lia).
  rewrite andb_false_r, andb_true_r. cbn [orb].
  destruct (Z.ltb_spec (Z.rem a b) 0); cbn [to_res]; f_equal.
  - rewrite wrap_small by lia. apply (Z.mod_unique_pos a b (Z.quot a b - 1)); lia.
  - apply (Z.mod_unique_pos a b (Z.quot a b)); lia.
Qed.

(* The elements the generated code stores; [d] is its default. *)
Definition picked (k : shift) (v : list Z) (s d i : Z) : Z :=
  let L := len_of v in
  match k with
  | SRL | SRA => if (if s <? 0 then i <? L + s else s <=? i) then at_ v (i - s) else d
  | SLL | SLA => if (if s <? 0 then - s <=? i else i <? L - s) then at_ v (i + s) else d
  | ROL => at_ v ((i + (L + s)) mod L)
  | ROR => at_ v ((i + (L - s)) mod L)
  end.

Lemma load_at v i : 0 <= i < len_of v -> load v i = Ok (at_ v i).
Proof.
  unfold len_of. intros H. unfold load, at_.
  replace (i <? 0) with false by (symmetry; apply Z.ltb_ge; lia).
  destruct (nth_error v (Z.to_nat i)) as [x |] eqn:X; [| apply nth_error_None in X; lia].
  now rewrite (nth_error_nth _ _ _ X).
Qed.

Lemma picked_ok k v s d i : len_of v < 2 ^ 60 -> - 2 ^ 62 <= s <= 2 ^ 62 -> 0 <= i < len_of v ->
  (if shift_inside k (len_of v) s i then
     do! src <- shift_source k (len_of v) s i; load v src
   else Ok d) = Ok (picked k v s d i).
Proof.
  intros L S I. unfold shift_inside, shift_source, picked, add, sub, neg.
  rewrite !(wrap_small (_ + s)), !(wrap_small (_ - s)), !(wrap_small (- s)) by lia.
  destruct k;
    try (zcases; cbn [bind]; try reflexivity; apply load_at; lia).
  all: rewrite wrap_small by lia; rewrite mod_ok by lia; cbn [bind];
    apply load_at; apply Z.mod_pos_bound; lia.
Qed.

Lemma default_ok k v : v <> [] -> len_of v < 2 ^ 60 ->
  shift_default k v (len_of v) =
  Ok (match k with SRA => at_ v (len_of v - 1) | SLA => at_ v 0 | _ => 0 end).
Proof.
  intros V L. pose proof (len_pos v V).
  destruct k; cbn [shift_default]; try reflexivity; [| unfold sub; rewrite wrap_small by lia];
    apply load_at; lia.
Qed.

Lemma shift_run k a s mem :
  arr_ok a -> - 2 ^ 62 <= s <= 2 ^ 62 -> length mem = length (adata a) -> adata a <> [] ->
  predef_bit_shift k a s mem =
  Ok (with_data a (map (fun i => picked k (adata a) s
         (match k with SRA => at_ (adata a) (len_of (adata a) - 1) | SLA => at_ (adata a) 0 | _ => 0 end)
         (Z.of_nat i)) (seq 0 (length (adata a))))).
Proof.
  intros (_ & L) S M V. pose proof (len_pos _ V) as P. unfold predef_bit_shift.
  replace (len_of (adata a) =? 0) with false by (symmetry; apply Z.eqb_neq; lia).
  rewrite default_ok by assumption. cbn [bind].
  set (d := match k with SRA => _ | _ => _ end).
  rewrite (fill0 _ (fun i => picked k (adata a) s d (Z.of_nat i)));
    [reflexivity | exact L | exact M |].
  intros j J. apply picked_ok; [exact L | exact S |]. unfold len_of. lia.
Qed.

(* When the elements shifted in are the right ones. *)
Definition shift_fine (k : shift) (v : list Z) (s : Z) : Prop :=
  match k with
  | SRA | SLA => s <= 0 \/ hd 0 v = last v 0
  | _ => True
  end.

Lemma shift_ok k a s mem :
  arr_ok a -> - 2 ^ 62 <= s <= 2 ^ 62 -> length mem = length (adata a) ->
  shift_fine k (adata a) s ->
  predef_bit_shift k a s mem = Ok (with_data a (shifted k (adata a) s)).
Proof.
  intros OK S M F. destruct (adata a) as [| x v0] eqn:D.
  { unfold predef_bit_shift. rewrite D. cbn. destruct a; cbn in *. now subst. }
  rewrite <- D in *. assert (V : adata a <> []) by congruence.
  rewrite shift_run by assumption. f_equal. f_equal.
  set (v := adata a) in *. pose proof (len_pos v V) as P.
  replace (shifted k v s) with
    (if 0 <=? s then iterated k v (Z.to_nat s) else iterated (opposite k) v (Z.to_nat (- s)))
    by (unfold shifted; now destruct v).
  apply list_at.
  { unfold len_of at 1. rewrite map_length, seq_length. fold (len_of v).
    destruct (0 <=? s); now rewrite iterated_len. }
  unfold len_of at 1. rewrite map_length, seq_length. fold (len_of v). intros i I.
  unfold at_ at 1.
  set (g := fun i0 : nat => _).
  replace (nth (Z.to_nat i) (map g (seq 0 (length v))) 0) with (g (Z.to_nat i)).
  2:{ symmetry. rewrite (nth_indep _ 0 (g 0%nat)) by (rewrite map_length, seq_length; unfold len_of in I; lia).
      rewrite map_nth, seq_nth by (unfold len_of in I; lia). reflexivity. }
  unfold g. rewrite Z2Nat.id by lia.
  assert (HL : match k with SRA | SLA => s <= 0 \/ at_ v 0 = at_ v (len_of v - 1) | _ => True end).
  { rewrite <- at_last, <- at_hd by exact V. destruct k; exact F. }
  clearbody v. clear g F.
  destruct (Z.leb_spec 0 s) as [N | N]; rewrite iterated_at by assumption; rewrite Z2Nat.id by lia;
    destruct k; cbn [opposite]; unfold picked, moved; zcases;
    try reflexivity; try (f_equal; lia); try (destruct HL; [exfalso; lia | congruence]);
    try (replace (i + (len_of v + s)) with (i + s + 1 * len_of v) by lia; rewrite Z.mod_add by lia;
         f_equal; f_equal; lia);
    try (replace (i + (len_of v - s)) with (i - s + 1 * len_of v) by lia; rewrite Z.mod_add by lia;
         f_equal; f_equal; lia).
Qed.

(* ---- logical operators ---- *)

Definition zip {A B C} (f : A -> B -> C) (l : list A) (r : list B) : list C :=
  map (fun p => f (fst p) (snd p)) (combine l r).

Lemma combine_nth_error {A B} (l : list A) : forall (r : list B) j x y,
  nth_error (combine l r) j = Some (x, y) -> nth_error l j = Some x /\ nth_error r j = Some y.
Proof.
  induction l as [| a l IH]; intros [| b r] [| j] x y H; cbn in *; try discriminate.
  - injection H as -> ->. auto.
  - exact (IH _ _ _ _ H).
Qed.

Lemma emit_logic_ok k a b : emit_logic k a b = logic k a b.
Proof. now destruct k. Qed.

Lemma zip_seq {A B C} (f : A -> B -> C) (l : list A) (r : list B) (g : nat -> C) :
  length l = length r ->
  (forall j x y, nth_error l j = Some x -> nth_error r j = Some y -> g j = f x y) ->
  map g (seq 0 (length l)) = zip f l r.
Proof.
  intros L H. unfold zip.
  rewrite <- (map_nth_seq (fun p => f (fst p) (snd p)) (combine l r) g).
  - now rewrite combine_length, L, Nat.min_id.
  - intros j (x & y) E. destruct (combine_nth_error _ _ _ _ _ E) as (X & Y). now apply H.
Qed.

Definition pick {A} (d : A) (l : list A) (j : nat) : A := nth j l d.
Lemma pick_ok {A} (d : A) l j x : nth_error l j = Some x -> pick d l j = x.
Proof. intros H. now apply nth_error_nth. Qed.
Lemma load_pick {A} (d : A) l j : (j < length l)%nat -> load l (Z.of_nat j) = Ok (pick d l j).
Proof.
  intros H. destruct (nth_error l j) as [x |] eqn:X; [| apply nth_error_None in X; lia].
  now rewrite (load_nat _ _ _ X), (pick_ok d _ _ _ X).
Qed.

Lemma vec_op_ok k r0 r1 mem :
  arr_ok r0 -> length mem = length (adata r0) -> length (adata r0) = length (adata r1) ->
  predef_bit_vec_op k r0 r1 mem = Ok (Some (with_data r0 (zip (logic k) (adata r0) (adata r1)))).
Proof.
  intros (_ & L) M E. fold (len_of (adata r0)) in L. unfold predef_bit_vec_op, len_of. rewrite E, Z.eqb_refl. cbn [negb].
  rewrite <- E. change 0 with (Z.of_nat 0).
  rewrite (fill_ok _ (fun j => emit_logic k (pick false (adata r0) j) (pick false (adata r1) j))
             (length (adata r0))); [| exact L | exact M | lia |].
  - cbn [bind firstn app]. do 2 f_equal. unfold with_data. f_equal.
    apply zip_seq; [exact E |]. intros j x y X Y.
    now rewrite (pick_ok _ _ _ _ X), (pick_ok _ _ _ _ Y), emit_logic_ok.
  - intros j J. rewrite !(load_pick false) by lia. reflexivity.
Qed.

Lemma vec_op_differ k r0 r1 mem : length (adata r0) <> length (adata r1) ->
  predef_bit_vec_op k r0 r1 mem = Ok None.
Proof.
  intros H. unfold predef_bit_vec_op, len_of.
  now replace (_ =? _) with false by (symmetry; apply Z.eqb_neq; lia).
Qed.

Lemma not_ok r0 mem : arr_ok r0 -> length mem = length (adata r0) ->
  predef_array_not r0 mem = Ok (with_data r0 (map negb (adata r0))).
Proof.
  intros (_ & L) M. unfold predef_array_not, len_of. change 0 with (Z.of_nat 0).
  rewrite (fill_ok _ (fun j => negb (pick false (adata r0) j)) (length (adata r0)));
    [| exact L | exact M | lia |].
  - cbn [bind firstn app]. unfold with_data. do 2 f_equal.
    apply map_nth_seq. intros j x X. now rewrite (pick_ok _ _ _ _ X).
  - intros j J. rewrite !(load_pick false) by lia. reflexivity.
Qed.

Lemma mixed_ok k a b mem : arr_ok a -> length mem = length (adata a) ->
  predef_mixed_bit_vec_op k a b mem = Ok (with_data a (map (fun x => logic k x b) (adata a))).
Proof.
  intros OK M. unfold predef_mixed_bit_vec_op. rewrite (null_iff a OK). destruct OK as (_ & L).
  destruct (adata a) as [| x0 v] eqn:D.
  - destruct mem; [| discriminate]. reflexivity.
  - rewrite <- D in *.
    rewrite (body0 _ (fun j => emit_logic k (pick false (adata a) j) b));
      [| exact L | exact M | now rewrite D |].
    + cbn [bind]. unfold with_data. do 2 f_equal.
      apply map_nth_seq. intros j x X. now rewrite (pick_ok _ _ _ _ X), emit_logic_ok.
    + intros j J. rewrite !(load_pick false) by lia. reflexivity.
Qed.

Lemma fold_and l : forall acc, fold_left andb l acc = acc && forallb (fun b => b) l.
Proof.
  induction l as [| x l IH]; intros acc; cbn [fold_left forallb]; [now rewrite andb_true_r |].
  now rewrite IH, andb_assoc.
Qed.
Lemma fold_or l : forall acc, fold_left orb l acc = acc || existsb (fun b => b) l.
Proof.
  induction l as [| x l IH]; intros acc; cbn [fold_left existsb]; [now rewrite orb_false_r |].
  now rewrite IH, orb_assoc.
Qed.
Lemma fold_xor l : forall acc, fold_left xorb l acc = xorb acc (Nat.odd (length (filter (fun b => b) l))).
Proof.
  induction l as [| x l IH]; intros acc; cbn [fold_left filter]; [now rewrite xorb_false_r |].
  rewrite IH. destruct x; cbn [length]; [| now rewrite xorb_false_r].
  rewrite Nat.odd_succ, <- Nat.negb_odd. now destruct acc, (Nat.odd _).
Qed.

Lemma run_reduce {A B} (f : B -> A -> B) a init : arr_ok a ->
  (if arr_null a then Ok init
   else reduce_loop (length (adata a)) f (adata a) (len_of (adata a)) init 0) =
  Ok (fold_left f (adata a) init).
Proof.
  intros OK. rewrite (null_iff a OK). destruct OK as (_ & L).
  destruct (adata a) as [| x v] eqn:D; [reflexivity |]. rewrite <- D in *.
  replace (length (adata a)) with (S (length v)) at 1 by (now rewrite D).
  unfold len_of. change 0 with (Z.of_nat 0). rewrite reduce_ok; [reflexivity | exact L | now rewrite D].
Qed.

Lemma reduction_ok k a : arr_ok a -> predef_reduction_op k a = Ok (reduced k (adata a)).
Proof.
  intros OK. unfold predef_reduction_op. rewrite run_reduce by exact OK. cbn [bind].
  destruct k; cbn [reduced]; rewrite ?fold_and, ?fold_or, ?fold_xor, ?xorb_false_l; reflexivity.
Qed.

Lemma extreme_fold (gt : bool) l : forall d,
  let v := fold_left (fun cur elem => if (if gt then cur <? elem else elem <? cur) then elem else cur) l d in
  (v = d \/ In v l) /\ Forall (fun x => if gt then x <= v else v <= x) (d :: l).
Proof.
  induction l as [| x l IH]; intros d; cbn [fold_left].
  - cbv zeta. split; [now left |]. constructor; [destruct gt; lia | constructor].
  - cbv zeta in *. set (e := if (if gt then d <? x else x <? d) then x else d).
    destruct (IH e) as (I & G). set (v := fold_left _ l e) in *. clearbody v.
    apply Forall_cons_iff in G as (E & G).
    assert (H : (e = d \/ e = x) /\ (if gt then d <= e /\ x <= e else e <= d /\ e <= x)).
    { unfold e. destruct gt; zcases; (split; [auto | lia]). }
    clearbody e. split.
    + destruct I as [-> | I]; [| now right; right]. destruct H as ([-> | ->] & _); [now left | right; now left].
    + constructor; [destruct gt; lia |]. constructor; [destruct gt; lia | exact G].
Qed.

Lemma min_max_ok (gt : bool) left right (to : bool) a :
  arr_ok a ->
  let low := if to then left else right in
  let high := if to then right else left in
  Forall (fun x => low <= x <= high) (adata a) ->
  exists v, predef_min_max gt left right to a = Ok v /\ extreme gt low high (adata a) v.
Proof.
  intros OK low high F. unfold predef_min_max. rewrite run_reduce by exact OK.
  eexists. split; [reflexivity |].
  set (def := if gt && to || negb gt && negb to then left else right).
  assert (D : def = if gt then low else high) by (unfold def, low, high; now destruct gt, to).
  clearbody def. destruct (adata a) as [| x l] eqn:A; [cbn; exact D |]. rewrite <- A in *.
  assert (F' : Forall (fun x => if gt then def <= x else x <= def) (adata a)).
  { eapply Forall_impl; [| exact F]. intros y Y. cbv beta in *. destruct gt; lia. }
  destruct (extreme_fold gt (adata a) def) as (I & G). set (v := fold_left _ (adata a) def) in *. clearbody v.
  apply Forall_cons_iff in G as (E & G). unfold extreme. rewrite A in *. split; [| exact G].
  destruct I as [-> | I]; [| exact I].
  apply Forall_cons_iff in F' as (X & _). apply Forall_cons_iff in G as (X' & _).
  left. destruct gt; lia.
Qed.

(* ---- matching operators ---- *)

Lemma match_ok m a b : predef_match_op m (pos9 a) (pos9 b) =
  Ok (pos9 (fst (matched m a b)), snd (matched m a b)).
Proof. destruct m, a, b; vm_compute; reflexivity. Qed.

Lemma match_bit_ok m a b : predef_match_bit m a b = matched_bit m a b.
Proof. now destruct m, a, b. Qed.

Definition reduce9 (l : list logic9) : logic9 :=
  if has L0 l then L0 else if has LU l then LU else if has LX l then LX else L1.

Lemma and_ok l : Forall (fun x => In x [LU; LX; L0; L1]) l ->
  and_1164 (map pos9 l) = Ok (pos9 (reduce9 l)).
Proof.
  induction 1 as [| x l X F IH]; [reflexivity |].
  cbn [map and_1164]. rewrite IH. cbn [bind]. unfold reduce9, has. cbn [existsb].
  destruct (existsb (logic9_eqb L0) l), (existsb (logic9_eqb LU) l), (existsb (logic9_eqb LX) l);
    cbn [In] in X; destruct X as [<- | [<- | [<- | [<- | []]]]]; reflexivity.
Qed.

Lemma not9_ok a : not_1164 (pos9 a) = Ok (pos9 (not9 a)).
Proof. now destruct a. Qed.

Lemma match_eq_values a b : In (match_eq a b) [LU; LX; L0; L1].
Proof. destruct a, b; cbn; auto. Qed.

Lemma pos_nth l j : (j < length l)%nat -> nth_error (map pos9 l) j = Some (pos9 (pick LU l j)).
Proof.
  intros H. rewrite nth_error_map.
  destruct (nth_error l j) as [x |] eqn:X; [| apply nth_error_None in X; lia].
  now rewrite (pick_ok LU _ _ _ X).
Qed.

Lemma match_array_ok invert l r mem :
  Z.of_nat (length l) < 2 ^ 60 -> length l = length r -> length mem = length l ->
  predef_match_array invert (map pos9 l) (map pos9 r) mem =
  Ok (Some (pos9 (if invert then not9 (vector_match l r) else vector_match l r))).
Proof.
  intros L E M. unfold predef_match_array.
  assert (LL : len_of (map pos9 l) = len_of l) by (unfold len_of; now rewrite map_length).
  assert (LR : len_of (map pos9 r) = len_of l) by (unfold len_of; rewrite map_length; lia).
  rewrite LL, LR, Z.eqb_refl. cbn [negb].
  set (cmps := zip match_eq l r).
  replace (if len_of l =? 0 then Ok mem else _) with (Ok (map pos9 cmps)).
  - cbn [bind]. rewrite and_ok.
    2:{ unfold cmps, zip. apply Forall_map, Forall_forall. intros x _. apply match_eq_values. }
    cbn [bind]. change (reduce9 cmps) with (vector_match l r).
    destruct invert; [rewrite not9_ok |]; reflexivity.
  - destruct (Z.eqb_spec (len_of l) 0) as [Z0 | NZ]; unfold len_of in *.
    { destruct l; [| cbn in Z0; lia]. destruct mem; [reflexivity | discriminate]. }
    rewrite <- LL.
    fold (len_of (map pos9 l)).
    rewrite (body0 _ (fun j => pos9 (match_eq (pick LU l j) (pick LU r j)))).
    + rewrite map_length. rewrite (zip_seq (fun x y => pos9 (match_eq x y)) l r); [| exact E |].
      * unfold cmps, zip. now rewrite map_map.
      * intros j x y X Y. now rewrite (pick_ok _ _ _ _ X), (pick_ok _ _ _ _ Y).
    + unfold len_of. rewrite map_length. exact L.
    + now rewrite map_length.
    + destruct l; [cbn in NZ; lia | discriminate].
    + rewrite map_length. intros j J.
      rewrite (load_nat _ _ _ (pos_nth l j J)), (load_nat _ _ _ (pos_nth r j ltac:(lia))). cbn [bind].
      rewrite match_ok. reflexivity.
Qed.

Lemma match_array_differ invert l r mem : length l <> length r ->
  predef_match_array invert l r mem = Ok None.
Proof.
  intros H. unfold predef_match_array, len_of.
  now replace (_ =? _) with false by (symmetry; apply Z.eqb_neq; lia).
Qed.

Lemma forallb_zip l : forall r, length l = length r ->
  (forallb (fun b => b) (zip Bool.eqb l r) = true <-> l = r).
Proof.
  induction l as [| x l IH]; intros [| y r] E; cbn in E; try discriminate; [now split |].
  unfold zip in *. cbn [combine map fst snd forallb].
  rewrite andb_true_iff, (IH r) by lia. rewrite eqb_true_iff. split; [intros (-> & ->) | intros [= -> ->]]; auto.
Qed.

Lemma match_bit_array_ok invert l r mem :
  arr_ok l -> length (adata l) = length (adata r) -> length mem = length (adata l) ->
  exists v, predef_match_bit_array invert l r mem = Ok (Some v) /\
            (v = negb invert <-> adata l = adata r).
Proof.
  intros OK E M. unfold predef_match_bit_array.
  replace (len_of (adata r)) with (len_of (adata l)) by (unfold len_of; now rewrite E).
  rewrite Z.eqb_refl. cbn [negb].
  replace (if len_of (adata l) =? 0 then Ok mem else _)
    with (Ok (zip Bool.eqb (adata l) (adata r))).
  - cbn [bind]. rewrite reduction_ok.
    + cbn [bind reduced adata]. eexists. split; [reflexivity |].
      rewrite <- (forallb_zip (adata l) (adata r) E). destruct invert, (forallb _ _); cbn; intuition discriminate.
    + destruct OK as (A & B). unfold arr_ok, zip. cbn [aleft aright ato adata].
      rewrite map_length, combine_length, <- E, Nat.min_id. auto.
  - destruct OK as (_ & L). destruct (Z.eqb_spec (len_of (adata l)) 0) as [Z0 | NZ].
    { unfold len_of in Z0. destruct (adata l); [| cbn in Z0; lia]. destruct mem; [reflexivity | discriminate]. }
    rewrite (body0 _ (fun j => Bool.eqb (pick false (adata l) j) (pick false (adata r) j))).
    + f_equal. symmetry. apply zip_seq; [exact E |].
      intros j x y X Y. now rewrite (pick_ok _ _ _ _ X), (pick_ok _ _ _ _ Y).
    + exact L.
    + exact M.
    + intros N. rewrite N in NZ. apply NZ. reflexivity.
    + intros j J. rewrite !(load_pick false) by lia. cbn [bind]. f_equal. apply (match_bit_ok MEq).
Qed.

(* ---- ordering ---- *)

Lemma skipn_cons {A} (l : list A) i x : nth_error l i = Some x -> skipn i l = x :: skipn (S i) l.
Proof.
  revert i. induction l as [| y l IH]; intros [| i] H; cbn in H; try discriminate.
  - injection H as ->. reflexivity.
  - cbn [skipn]. rewrite (IH _ H). reflexivity.
Qed.

Definition both_null (l r : list Z) : bool := match l, r with [], [] => true | _, _ => false end.

Lemma cmp_ok le l r : Z.of_nat (length l) < 2 ^ 60 -> forall n i,
  (i + n = length l)%nat -> (i <= length r)%nat ->
  cmp_loop n le l r (len_of l) (len_of r) (Z.of_nat i) =
  Ok (if le then negb (less (skipn i r) (skipn i l))
      else both_null (skipn i l) (skipn i r) || less (skipn i l) (skipn i r)).
Proof.
  intros L. induction n as [| n IH]; intros i E R; cbn [cmp_loop]; unfold len_of in *.
  - replace (Z.of_nat (length l) <=? Z.of_nat i) with true by (symmetry; apply Z.leb_le; lia).
    rewrite (skipn_all2 l) by lia. destruct le, (skipn i r); reflexivity.
  - replace (Z.of_nat (length l) <=? Z.of_nat i) with false by (symmetry; apply Z.leb_gt; lia).
    destruct (nth_error l i) as [x |] eqn:X; [| apply nth_error_None in X; lia].
    rewrite (skipn_cons l i x X).
    destruct (Z.leb_spec (Z.of_nat (length r)) (Z.of_nat i)) as [RE | RE].
    { rewrite (skipn_all2 r) by lia. now destruct le. }
    destruct (nth_error r i) as [y |] eqn:Y; [| apply nth_error_None in Y; lia].
    rewrite (skipn_cons r i y Y), (load_nat _ _ _ X), (load_nat _ _ _ Y). cbn [bind less both_null orb].
    rewrite (Z.eqb_sym y x).
    destruct (Z.eqb_spec x y) as [-> | N]; cbn [negb orb].
    2:{ destruct le; [| reflexivity]. f_equal. rewrite <- Z.ltb_antisym || idtac.
        zcases; reflexivity. }
    rewrite add_one by lia. replace (Z.of_nat i + 1) with (Z.of_nat (S i)) by lia.
    destruct (Z.eqb_spec (Z.of_nat (length l)) (Z.of_nat (length r))) as [LE | LE];
      destruct (Z.eqb_spec (Z.of_nat (S i)) (Z.of_nat (length l))) as [IE | IE]; cbn [andb].
    1:{ rewrite (skipn_all2 l), (skipn_all2 r) by lia. destruct le; cbn [less negb]; f_equal;
        [apply Z.leb_refl | apply Z.ltb_irrefl]. }
    all: rewrite IH by lia; destruct le; [reflexivity |]; f_equal;
      replace (both_null (skipn (S i) l) (skipn (S i) r)) with false; [reflexivity |];
      symmetry; destruct (skipn (S i) l) as [| a s] eqn:SL; [| reflexivity];
      destruct (skipn (S i) r) as [| b t] eqn:SR; [exfalso | reflexivity];
      apply (f_equal (@length Z)) in SL; apply (f_equal (@length Z)) in SR;
      rewrite skipn_length in SL, SR; cbn in SL, SR; lia.
Qed.

Lemma less_irrefl l : less l l = false.
Proof. induction l as [| x l IH]; [reflexivity |]. cbn [less]. now rewrite Z.eqb_refl. Qed.

Lemma order_ok k a b : arr_ok a ->
  (adata a <> [] \/ adata b <> [] \/ k = RLe \/ k = RGt) ->
  predef_order k a b = Ok (ordered k (adata a) (adata b)).
Proof.
  intros (_ & L) H.
  assert (R : forall le, predef_array_cmp le a b =
    Ok (if le : bool then negb (less (adata b) (adata a))
        else both_null (adata a) (adata b) || less (adata a) (adata b))).
  { intros le. apply (cmp_ok le (adata a) (adata b) L (length (adata a)) 0); lia. }
  assert (B : k = RLt \/ k = RGe -> both_null (adata a) (adata b) = false).
  { intros K. destruct (adata a), (adata b); try reflexivity.
    destruct H as [H | [H | [H | H]]]; try contradiction; destruct K; congruence. }
  destruct k; cbn [predef_order ordered]; rewrite R; cbn [bind];
    try rewrite B by auto; cbn [orb]; rewrite ?negb_involutive; reflexivity.
Qed.

(* ---- equality ---- *)

Lemma product_pos_bound dims idx k : position dims idx = Some k -> (k < product dims)%nat.
Proof.
  revert idx k. induction dims as [| d dims IH]; intros [| i idx] k H; cbn [position] in H; try discriminate.
  - injection H as <-. cbn. lia.
  - destruct (Nat.ltb_spec i d); [| discriminate].
    destruct (position dims idx) as [j |] eqn:J; [| discriminate]. injection H as <-.
    specialize (IH _ _ J). cbn [product fold_right]. fold (product dims). nia.
Qed.

Lemma position_onto dims : forall k, (k < product dims)%nat -> exists idx, position dims idx = Some k.
Proof.
  induction dims as [| d dims IH]; intros k H; cbn [product fold_right] in H.
  - exists []. cbn. f_equal. lia.
  - fold (product dims) in H. assert (P : (product dims <> 0)%nat) by nia.
    destruct (IH (k mod product dims)%nat) as (idx & I); [now apply Nat.mod_upper_bound |].
    exists ((k / product dims)%nat :: idx). cbn [position].
    assert (D : (k / product dims < d)%nat) by (apply Nat.div_lt_upper_bound; nia).
    apply Nat.ltb_lt in D. rewrite D, I. f_equal. pose proof (Nat.div_mod k (product dims) P). lia.
Qed.

Lemma same_pointwise dims l r : length l = product dims -> length r = product dims ->
  (same (Array dims l) (Array dims r) <->
   forall k x y, nth_error l k = Some x -> nth_error r k = Some y -> same x y).
Proof.
  intros L R. split.
  - intros S k x y X Y. inversion S as [| | d l' d' r' F G E1 E2]. subst.
    assert (K : (k < product dims)%nat) by (rewrite <- L; apply nth_error_Some; congruence).
    destruct (position_onto _ _ K) as (idx & I).
    destruct (F idx x) as (y' & Y' & S'); [unfold element; now rewrite I |].
    unfold element in Y'. rewrite I in Y'. congruence.
  - intros H. constructor; unfold element.
    + intros idx x X. destruct (position dims idx) as [k |] eqn:K; [| discriminate].
      pose proof (product_pos_bound _ _ _ K).
      destruct (nth_error r k) as [y |] eqn:Y; [| apply nth_error_None in Y; lia].
      exists y. split; [reflexivity | eapply H; eassumption].
    + intros idx y Y. destruct (position dims idx) as [k |] eqn:K; [| discriminate].
      pose proof (product_pos_bound _ _ _ K).
      destruct (nth_error l k) as [x |] eqn:X; [| apply nth_error_None in X; lia]. eauto.
Qed.

Lemma same_length l r : same (Array [length l] l) (Array [length r] r) -> length l = length r.
Proof.
  intros S. inversion S as [| | d l' d' r' F G E1 E2]. subst.
  assert (K : forall (a : list value) i, (i < length a)%nat ->
              exists x, element [length a] a [i] = Some x).
  { intros a i I. unfold element. cbn [position]. apply Nat.ltb_lt in I as I'. rewrite I'. cbn.
    replace (i * 1 + 0)%nat with i by lia.
    destruct (nth_error a i) eqn:X; [eauto |]. apply nth_error_None in X. lia. }
  assert (N : forall (a : list value) x, element [length a] a [length a] <> Some x).
  { intros a x. unfold element. cbn [position]. rewrite Nat.ltb_irrefl. discriminate. }
  destruct (lt_eq_lt_dec (length l) (length r)) as [[H | H] | H]; [| exact H |].
  - destruct (K r _ H) as (y & Y). destruct (G _ _ Y) as (x & X). now apply N in X.
  - destruct (K l _ H) as (x & X). destruct (F _ _ X) as (y & Y & _). now apply N in Y.
Qed.

Lemma wrap_mul a b : wrap (a * wrap b) = wrap (a * b).
Proof.
  unfold wrap. set (m := M64). assert (m <> 0) by (unfold m, M64; lia).
  f_equal. rewrite <- (Zplus_mod_idemp_l (a * ((b + M63) mod m - M63))), <- (Zplus_mod_idemp_l (a * b)).
  f_equal. f_equal.
  rewrite <- (Zmult_mod_idemp_r _ a), <- (Zmult_mod_idemp_r b a). f_equal. f_equal.
  rewrite <- (Zminus_mod_idemp_l _ M63), Zmod_mod, Zminus_mod_idemp_l. f_equal. lia.
Qed.

Lemma total_fold dims : forall acc,
  fold_left (fun len d => mul (Z.of_nat d) len) dims (wrap acc) = wrap (Z.of_nat (product dims) * acc).
Proof.
  induction dims as [| d dims IH]; intros acc.
  - cbn [fold_left product fold_right]. f_equal. lia.
  - cbn [fold_left]. unfold mul at 2. rewrite wrap_mul, IH. f_equal.
    cbn [product fold_right]. fold (product dims). lia.
Qed.

Lemma total_ok dims : dims <> [] -> Z.of_nat (product dims) < 2 ^ 60 ->
  total_len dims = Z.of_nat (product dims).
Proof.
  destruct dims as [| d [| e dims]]; intros N L; [contradiction | cbn; lia |].
  cbn [total_len fold_left].
  replace (mul (Z.of_nat e) (Z.of_nat d)) with (wrap (Z.of_nat e * Z.of_nat d)) by reflexivity.
  rewrite total_fold. rewrite <- (wrap_small (Z.of_nat (product (d :: e :: dims)))) by lia.
  f_equal. cbn [product fold_right]. fold (product dims). lia.
Qed.

Lemma eq_loop_ok (f : Z -> res bool) (P : nat -> Prop) len : Z.of_nat len < 2 ^ 60 ->
  forall n i, (i + n = len)%nat ->
  (forall j, (i <= j < len)%nat -> exists b, f (Z.of_nat j) = Ok b /\ (b = true <-> P j)) ->
  exists b, eq_loop n f (Z.of_nat len) (Z.of_nat i) = Ok b /\
            (b = true <-> forall j, (i <= j < len)%nat -> P j).
Proof.
  intros L. induction n as [| n IH]; intros i E F; cbn [eq_loop].
  - replace (Z.of_nat i =? Z.of_nat len) with true by (symmetry; apply Z.eqb_eq; lia).
    exists true. split; [reflexivity |]. split; [intros _ j J; lia | reflexivity].
  - replace (Z.of_nat i =? Z.of_nat len) with false by (symmetry; apply Z.eqb_neq; lia).
    destruct (F i ltac:(lia)) as (b & B & BP). rewrite B. cbn [bind].
    destruct b.
    + rewrite add_one by lia. replace (Z.of_nat i + 1) with (Z.of_nat (S i)) by lia.
      destruct (IH (S i) ltac:(lia)) as (c & C & CP); [intros j J; apply F; lia |].
      exists c. split; [exact C |]. rewrite CP. split.
      * intros H j J. destruct (Nat.eq_dec j i) as [-> | N]; [now apply BP | apply H; lia].
      * intros H j J. apply H. lia.
    + exists false. split; [reflexivity |]. split; [discriminate |].
      intros H. apply BP. apply H. lia.
Qed.

Lemma forall_nth {A} (P : A -> Prop) l k x : Forall P l -> nth_error l k = Some x -> P x.
Proof. intros F X. eapply Forall_forall; [exact F | eapply nth_error_In; exact X]. Qed.

Lemma eq_elems depth t dims l r :
  (forall a b, of_type t a -> of_type t b ->
     exists v, eq_value depth a b = Ok v /\ (v = true <-> same a b)) ->
  Forall (of_type t) l -> Forall (of_type t) r ->
  length l = product dims -> length r = product dims -> Z.of_nat (length l) < 2 ^ 60 ->
  exists v, eq_loop (length l) (fun i => do! x <- load l i; do! y <- load r i; eq_value depth x y)
              (Z.of_nat (length l)) 0 = Ok v /\
            (v = true <-> same (Array dims l) (Array dims r)).
Proof.
  intros IH FL FR L R B.
  destruct (eq_loop_ok (fun i => do! x <- load l i; do! y <- load r i; eq_value depth x y)
              (fun k => forall x y, nth_error l k = Some x -> nth_error r k = Some y -> same x y)
              (length l) B (length l) 0 eq_refl) as (v & V & P).
  - intros j (_ & J).
    destruct (nth_error l j) as [x |] eqn:X; [| apply nth_error_None in X; lia].
    destruct (nth_error r j) as [y |] eqn:Y; [| apply nth_error_None in Y; lia].
    rewrite (load_nat _ _ _ X), (load_nat _ _ _ Y). cbn [bind].
    destruct (IH x y (forall_nth _ _ _ _ FL X) (forall_nth _ _ _ _ FR Y)) as (v & V & P).
    exists v. split; [exact V |]. rewrite P. split; [intros S x' y' [= <-] [= <-]; exact S | auto].
  - exists v. split; [exact V |]. rewrite P, same_pointwise by assumption. split.
    + intros H k x y X Y. apply (H k); [| exact X | exact Y].
      split; [lia |]. apply nth_error_Some. congruence.
    + intros H j _ x y X Y. eapply H; eassumption.
Qed.

Lemma eq_ok : forall depth t a b, (nesting t <= depth)%nat -> of_type t a -> of_type t b ->
  exists v, eq_value depth a b = Ok v /\ (v = true <-> same a b).
Proof.
  induction depth as [| depth IH]; intros t a b D A B.
  { destruct t; cbn in D; lia. }
  inversion A as [x E1 E2 | t' l FL LL E1 E2 | t' dims l N FL LL BL E1 E2 | ts l F E1 E2]; subst;
    inversion B as [y E1 E2 | t2 r FR LR E1 E2 | t2 dims2 r N2 FR LR BR E1 E2 | ts2 r G E1 E2]; subst;
    cbn [nesting] in D; cbn [eq_value].
  - exists (x =? y). split; [reflexivity |]. rewrite Z.eqb_eq. split; [intros ->; constructor |].
    intros S. now inversion S.
  - cbn [total_len fold_left].
    destruct (Z.eqb_spec (Z.of_nat (length l)) (Z.of_nat (length r))) as [E | E].
    + assert (E' : length r = length l) by lia. rewrite E'.
      apply (eq_elems depth t').
      * intros x y X Y. apply (IH t'); [lia | exact X | exact Y].
      * exact FL.
      * exact FR.
      * cbn. lia.
      * cbn. lia.
      * exact LL.
    + exists false. split; [reflexivity |]. split; [discriminate |].
      intros S. apply same_length in S. lia.
  - rewrite !total_ok by (assumption || lia). rewrite Z.eqb_refl, <- LL.
    apply (eq_elems depth t').
    + intros x y X Y. apply (IH t'); [lia | exact X | exact Y].
    + exact FL.
    + exact FR.
    + exact LL.
    + exact LR.
    + exact BL.
  - assert (DD : Forall (fun t => (nesting t <= depth)%nat) ts).
    { clear - D. assert (D' : (fold_right (fun t n => Nat.max (nesting t) n) 0 ts <= depth)%nat) by lia.
      clear D. induction ts as [| t ts IHt]; constructor; cbn [fold_right] in D'; [lia | apply IHt; lia]. }
    enough (K : exists v,
      (fix fields (l r : list value) : res bool :=
         match l, r with
         | [], [] => Ok true
         | x :: l, y :: r =>
           do! eq <- eq_value depth x y;
           if (eq : bool) then fields l r else Ok false
         | _, _ => Fault
         end) l r = Ok v /\ (v = true <-> Forall2 same l r)).
    { destruct K as (v & V & P). exists v. split; [exact V |]. rewrite P. split.
      - intros S. now constructor.
      - intros S. now inversion S. }
    clear A B D. revert r G. induction F as [| t x ts l TX F IHF]; intros r G; inversion G as [| t' y ts' r' TY G']; subst.
    + exists true. split; [reflexivity |]. split; auto.
    + apply Forall_cons_iff in DD as (DT & DD).
      destruct (IH t x y DT TX TY) as (v & V & P). rewrite V. cbn [bind].
      destruct v.
      * destruct (IHF DD r' G') as (w & W & Q). exists w. split; [exact W |]. rewrite Q. split.
        -- intros S. constructor; [now apply P | exact S].
        -- intros S. now inversion S.
      * exists false. split; [reflexivity |]. split; [discriminate |].
        intros S. inversion S as [| ? ? ? ? S1 S2]. now apply P.
Qed.
