(* The operators of STD_LOGIC_1164. *)
From Coq Require Import List ZArith NArith Arith Bool Lia.
From Verif Require Import Base IntrinModel IntrinSpec IntrinAddProofs IntrinProofs IntrinOpProofs IntrinLogicModel IntrinLogicSpec.
Import ListNotations.

(* ---- tables ---- *)

Definition nine : list N := [0; 1; 2; 3; 4; 5; 6; 7; 8]%N.
Lemma nine_In : forall b, std_ulogic b -> In b nine.
Proof. intros b H. destruct (std_cases b H) as [->|[->|[->|[->|[->|[->|[->|[->| ->]]]]]]]]; cbn; tauto. Qed.
Lemma nine_2 : forall (f g : N -> N -> N), forallb (fun a => forallb (fun b => (f a b =? g a b)%N) nine) nine = true ->
  forall a b, std_ulogic a -> std_ulogic b -> f a b = g a b.
Proof.
  intros f g H a b Ha Hb. rewrite forallb_forall in H. specialize (H a (nine_In a Ha)). rewrite forallb_forall in H.
  apply N.eqb_eq, H, nine_In, Hb.
Qed.

Lemma table_rule : forall o a b, std_ulogic a -> std_ulogic b ->
  nth (N.to_nat b) (nth (N.to_nat a) (full_table o) []) 0%N = logic_rule o a b.
Proof. intros o. apply (nine_2 (fun a b => nth (N.to_nat b) (nth (N.to_nat a) (full_table o) []) 0%N)). destruct o; vm_compute; reflexivity. Qed.

(* One lane. *)
Definition lane (v : isa) (t : lanes) (a b : N) : N :=
  lookup16 v t (or128 (lookup16 v (of_table compress_left) (fun _ => a)) (lookup16 v (of_table compress_right) (fun _ => b))) 0.
Lemma lane_rule : forall v o a b, std_ulogic a -> std_ulogic b -> lane v (of_table (small_table o)) a b = logic_rule o a b.
Proof. intros v o. apply (nine_2 (lane v (of_table (small_table o)))). destruct v, o; vm_compute; reflexivity. Qed.
Lemma lane_at : forall v t x y i,
  lookup16 v t (or128 (lookup16 v (of_table compress_left) x) (lookup16 v (of_table compress_right) y)) i = lane v t (x i) (y i).
Proof. intros v t x y i. destruct v; reflexivity. Qed.
Lemma x01_at : forall b, std_ulogic b -> nth (N.to_nat b) cvt_to_x01 0%N = x01_rule b.
Proof. intros b H. destruct (std_cases b H) as [->|[->|[->|[->|[->|[->|[->|[->| ->]]]]]]]]; reflexivity. Qed.
Lemma x01_lane : forall x i, std_ulogic (x i) -> shuffle_epi8 (of_table cvt_to_x01) x i = x01_rule (x i).
Proof.
  intros x i H. unfold shuffle_epi8. destruct (std_cases (x i) H) as [->|[->|[->|[->|[->|[->|[->|[->| ->]]]]]]]]; reflexivity.
Qed.

(* ---- memory ---- *)

Lemma store_at : forall m p v a, p <= a < p + 16 -> store128 m p v a = v (a - p).
Proof. intros m p v a H. unfold store128. apply within_iff in H. rewrite H. reflexivity. Qed.
Lemma store_off : forall m p v a, ~ (p <= a < p + 16) -> store128 m p v a = m a.
Proof. intros m p v a H. unfold store128. apply within_not in H. rewrite H. reflexivity. Qed.

Lemma up_bounds : forall x a, 0 < a -> x <= up x a < x + a /\ exists k, up x a = a * k.
Proof.
  intros x a H. unfold up. pose proof (Nat.div_mod (x + a - 1) a ltac:(lia)) as D. pose proof (Nat.mod_upper_bound (x + a - 1) a ltac:(lia)).
  split; [nia|]. exists ((x + a - 1) / a). lia.
Qed.
Lemma alloc16 : forall s n p s', tlab_alloc s n 16 = (p, s') -> step s s' /\ nx s <= p /\ p + n <= nx s' /\ mm s' = mm s.
Proof.
  intros s n p s' E. unfold tlab_alloc in E. injection E as <- <-. cbn [ar mm nx warns].
  destruct (up_bounds (nx s) 16 ltac:(lia)) as ((A & _) & _). destruct (up_bounds n 8 ltac:(lia)) as ((B & _) & _).
  split; [|repeat split; lia]. split; cbn [ar mm nx warns]; try reflexivity. lia.
Qed.

(* Block [pos] of sixteen ends within the size rounded up. *)
Lemma block : forall pos size k, pos = 16 * k -> pos < size -> pos + 16 <= up size 16.
Proof. intros pos size k -> H. destruct (up_bounds size 16 ltac:(lia)) as ((A & B) & (j & E)). lia. Qed.

Lemma table_loop_ok : forall n o m l r res pos,
  l + pos + n <= res -> r + pos + n <= res ->
  (forall i, pos <= i < pos + n -> std_ulogic (m (l + i)) /\ std_ulogic (m (r + i))) ->
  outside m (table_loop (full_table o) m l r res pos n) (res + pos) n /\
  forall i, pos <= i < pos + n -> table_loop (full_table o) m l r res pos n (res + i) = logic_rule o (m (l + i)) (m (r + i)).
Proof.
  induction n as [|n IH]; intros o m l r res pos HL HR HS; cbn [table_loop].
  - split; [intros a _; reflexivity|intros i Hi; lia].
  - set (x := nth _ _ _). set (m1 := put m (res + pos) x).
    assert (K : forall i, pos <= i < pos + S n -> m1 (l + i) = m (l + i) /\ m1 (r + i) = m (r + i)).
    { intros i Hi. unfold m1. rewrite !put_off by lia. split; reflexivity. }
    destruct (IH o m1 l r res (S pos)) as (O & V); [lia|lia| |].
    { intros i Hi. destruct (K i ltac:(lia)) as (-> & ->). apply HS. lia. }
    split.
    + intros a Ha. rewrite O by lia. unfold m1. apply put_off. lia.
    + intros i Hi. destruct (Nat.eq_dec i pos) as [->|NE].
      * rewrite O by lia. unfold m1. rewrite put_at. unfold x. destruct (HS pos ltac:(lia)). apply table_rule; assumption.
      * rewrite V by lia. destruct (K i ltac:(lia)) as (-> & ->). reflexivity.
Qed.

Lemma lane_loop_ok : forall fuel v o m l r res pos size k, size - pos < fuel -> pos = 16 * k ->
  l + size <= res -> r + size <= res ->
  (forall i, pos <= i < size -> std_ulogic (m (l + i)) /\ std_ulogic (m (r + i))) ->
  let m' := lane_loop fuel v (of_table (small_table o)) m l r res pos size in
  (forall a, ~ (res + pos <= a < res + up size 16) -> m' a = m a) /\
  forall i, pos <= i < size -> m' (res + i) = logic_rule o (m (l + i)) (m (r + i)).
Proof.
  induction fuel as [|fuel IH]; intros v o m l r res pos size k HF HP HL HR HS; [lia|]. cbn [lane_loop].
  destruct (Nat.ltb_spec pos size) as [C|C]; [|split; [reflexivity|intros; lia]].
  cbv zeta. set (x := lookup16 v _ (or128 _ _)). set (m1 := store128 m (res + pos) x).
  pose proof (block _ _ _ HP C) as Bl.
  assert (K : forall i, i < size -> m1 (l + i) = m (l + i) /\ m1 (r + i) = m (r + i)).
  { intros i Hi. unfold m1. rewrite !store_off by lia. split; reflexivity. }
  destruct (IH v o m1 l r res (pos + 16) size (S k)) as (O & V); [lia|lia|lia|lia| |].
  { intros i Hi. destruct (K i ltac:(lia)) as (-> & ->). apply HS. lia. }
  split.
  - intros a Ha. rewrite O by lia. unfold m1. apply store_off. lia.
  - intros i Hi. destruct (Nat.lt_ge_cases i (pos + 16)) as [D|D].
    + rewrite O by lia. unfold m1. rewrite store_at by lia. unfold x. rewrite lane_at. unfold load128.
      replace (l + pos + (res + i - (res + pos))) with (l + i) by lia. replace (r + pos + (res + i - (res + pos))) with (r + i) by lia.
      destruct (HS i ltac:(lia)). apply lane_rule; assumption.
    + rewrite V by lia. destruct (K i ltac:(lia)) as (-> & ->). reflexivity.
Qed.

Lemma pairwise_vec : forall f (m m' : nat -> N) l r q n, (forall i, i < n -> m' (q + i) = f (m (l + i)) (m (r + i))) ->
  vec m' q n = pairwise f (vec m l n) (vec m r n).
Proof.
  intros f m m' l r q n. revert l r q. induction n as [|n IH]; intros l r q H; [reflexivity|]. rewrite !vec_S. cbn [pairwise]. f_equal.
  - specialize (H 0 ltac:(lia)). rewrite !Nat.add_0_r in H. exact H.
  - apply IH. intros i Hi. specialize (H (S i) ltac:(lia)). rewrite !Nat.add_succ_r in H. exact H.
Qed.

Lemma pairwise_length : forall f l r, length l = length r -> length (pairwise f l r) = length l.
Proof. intros f l. induction l as [|a l IH]; intros [|b r] H; try discriminate; [reflexivity|]. cbn. f_equal. apply IH. cbn in H. lia. Qed.

Lemma vec_std : forall m p n, Forall std_ulogic (vec m p n) -> forall i, i < n -> std_ulogic (m (p + i)).
Proof. intros m p n H i Hi. rewrite Forall_forall in H. apply H, vec_In. exists i. split; [exact Hi|reflexivity]. Qed.

Theorem logic_ok : forall v o s, valid s 1 -> valid s 4 ->
  if negb (length (operand s 1) =? length (operand s 4)) then logic_vector v o s = Failure
  else exists s', logic_vector v o s = Done s' /\ returns_to s s' (pairwise (logic_rule o) (operand s 1) (operand s 4)) /\
    (forall a, nx s' <= a -> mm s' a = mm s a) /\ warns s' = warns s.
Proof.
  intros v o s V1 V4. destruct (valid_holds s 1 V1) as (H1 & F1 & L1). destruct (valid_holds s 4 V4) as (H4 & F4 & L4).
  rewrite L1, L4. change (1 + 2) with 3 in *. change (4 + 2) with 6 in *. unfold logic_vector.
  destruct (Nat.eqb_spec (ffi_array_length (ar s 3)) (ffi_array_length (ar s 6))) as [E|E]; cbn [negb]; [|reflexivity].
  rewrite <- E in *. set (n := ffi_array_length (ar s 3)) in *. destruct H1 as (B1 & W1). destruct H4 as (B4 & W4).
  set (L := operand s 1) in *. set (R := operand s 4) in *. rewrite <- W1 in F1. rewrite <- W4 in F4.
  pose proof (vec_std _ _ _ F1) as S1. pose proof (vec_std _ _ _ F4) as S4.
  set (wide := match v with Portable => match o with Or => true | _ => false end | _ => true end).
  assert (Al : exists res s0 sz, (if wide then tlab_alloc s (up n 16) 16 else tlab_alloc s n 8) = (res, s0) /\
    step s s0 /\ nx s <= res /\ n <= sz /\ res + sz <= nx s0 /\ mm s0 = mm s /\ (v <> Portable -> sz = up n 16)).
  { destruct wide eqn:EW.
    - destruct (tlab_alloc s (up n 16) 16) as [res s0] eqn:EA. destruct (alloc16 _ _ _ _ EA) as (P & A & B & C).
      exists res, s0, (up n 16). destruct (up_bounds n 16 ltac:(lia)) as ((U & _) & _). repeat split; try assumption; try apply P.
    - destruct (tlab_alloc s n 8) as [res s0] eqn:EA. destruct (alloc_ok _ _ _ _ EA) as (P & A & B & C).
      exists res, s0, n. repeat split; try assumption; try apply P; try lia. intros NE. destruct v; [congruence|discriminate|discriminate]. }
  destruct Al as (res & s0 & sz & EA & P & NF & SZ & B & M & WZ).
  assert (EW : match v with Portable => match o with Or => true | _ => false end | _ => true end = wide) by reflexivity.
  replace (match v, o with Portable, Or => true | Portable, _ => false | _, _ => true end) with wide by (destruct v, o; reflexivity).
  clear EW. rewrite EA.
  set (m := match v with Portable => _ | _ => _ end).
  assert (Hm : (forall a, ~ (res <= a < res + sz) -> m a = mm s a) /\ forall i, i < n -> m (res + i) = logic_rule o (mm s (ptr s 1 + i)) (mm s (ptr s 4 + i))).
  { unfold m. rewrite M. destruct v.
    - destruct (table_loop_ok n o (mm s) (ptr s 1) (ptr s 4) res 0) as (O & Vv); [lia|lia| |].
      { intros i Hi. split; [apply S1|apply S4]; lia. }
      split; [intros a Ha; apply O; lia|intros i Hi; apply Vv; lia].
    - rewrite (WZ ltac:(discriminate)) in *.
      destruct (lane_loop_ok (S n) SSE41 o (mm s) (ptr s 1) (ptr s 4) res 0 n 0) as (O & Vv); [lia|lia|lia|lia| |].
      { intros i Hi. split; [apply S1|apply S4]; lia. }
      split; [intros a Ha; apply O; lia|intros i Hi; apply Vv; lia].
    - rewrite (WZ ltac:(discriminate)) in *.
      destruct (lane_loop_ok (S n) NEON o (mm s) (ptr s 1) (ptr s 4) res 0 n 0) as (O & Vv); [lia|lia|lia|lia| |].
      { intros i Hi. split; [apply S1|apply S4]; lia. }
      split; [intros a Ha; apply O; lia|intros i Hi; apply Vv; lia]. }
  destruct Hm as (Out & Vals). eexists. split; [reflexivity|].
  assert (VR : vec m res n = pairwise (logic_rule o) L R) by (rewrite <- W1, <- W4; apply pairwise_vec; exact Vals).
  assert (LP : length (pairwise (logic_rule o) L R) = n) by (rewrite <- VR; apply vec_length).
  split; [|split].
  - unfold returns_to, untouched, return_to, set_ar, set_mm, upd. cbn [ar mm nx Nat.eqb]. rewrite Nat2Z.id, LP.
    split; [split; [exact (st_nx _ _ P)|intros a Ha; apply Out; lia]|]. split; [lia|]. split; [reflexivity|]. split; [reflexivity|exact VR].
  - intros a Ha. cbn in *. apply Out. lia.
  - cbn. exact (st_warns _ _ P).
Qed.

(* ---- TO_X01 ---- *)

Lemma x01_loop_ok : forall n m p res pos, p + pos + n <= res -> (forall i, pos <= i < pos + n -> std_ulogic (m (p + i))) ->
  outside m (x01_loop m p res pos n) (res + pos) n /\
  forall i, pos <= i < pos + n -> x01_loop m p res pos n (res + i) = x01_rule (m (p + i)).
Proof.
  induction n as [|n IH]; intros m p res pos HL HS; cbn [x01_loop].
  - split; [intros a _; reflexivity|intros i Hi; lia].
  - set (x := nth _ _ _). set (m1 := put m (res + pos) x).
    assert (K : forall i, pos <= i < pos + S n -> m1 (p + i) = m (p + i)) by (intros i Hi; unfold m1; apply put_off; lia).
    destruct (IH m1 p res (S pos)) as (O & V); [lia| |].
    { intros i Hi. rewrite K by lia. apply HS. lia. }
    split.
    + intros a Ha. rewrite O by lia. unfold m1. apply put_off. lia.
    + intros i Hi. destruct (Nat.eq_dec i pos) as [->|NE].
      * rewrite O by lia. unfold m1. rewrite put_at. unfold x. apply x01_at, HS. lia.
      * rewrite V by lia. rewrite K by lia. reflexivity.
Qed.
Lemma x01_lanes_ok : forall fuel m p res pos size k, size - pos < fuel -> pos = 16 * k -> p + size <= res ->
  (forall i, pos <= i < size -> std_ulogic (m (p + i))) ->
  (forall a, ~ (res + pos <= a < res + up size 16) -> x01_lanes fuel m p res pos size a = m a) /\
  forall i, pos <= i < size -> x01_lanes fuel m p res pos size (res + i) = x01_rule (m (p + i)).
Proof.
  induction fuel as [|fuel IH]; intros m p res pos size k HF HP HL HS; [lia|]. cbn [x01_lanes].
  destruct (Nat.ltb_spec pos size) as [C|C]; [|split; [reflexivity|intros; lia]].
  set (x := shuffle_epi8 _ _). set (m1 := store128 m (res + pos) x). pose proof (block _ _ _ HP C) as Bl.
  assert (K : forall i, i < size -> m1 (p + i) = m (p + i)) by (intros i Hi; unfold m1; apply store_off; lia).
  destruct (IH m1 p res (pos + 16) size (S k)) as (O & V); [lia|lia|lia| |].
  { intros i Hi. rewrite K by lia. apply HS. lia. }
  split.
  - intros a Ha. rewrite O by lia. unfold m1. apply store_off. lia.
  - intros i Hi. destruct (Nat.lt_ge_cases i (pos + 16)) as [D|D].
    + rewrite O by lia. unfold m1. rewrite store_at by lia. unfold x.
      assert (EL : load128 m (p + pos) (res + i - (res + pos)) = m (p + i)) by (unfold load128; f_equal; lia).
      rewrite x01_lane; rewrite EL; [reflexivity|apply HS; lia].
    + rewrite V by lia. rewrite K by lia. reflexivity.
Qed.

Lemma vec_map : forall f (m m' : nat -> N) p q n, (forall i, i < n -> m' (q + i) = f (m (p + i))) -> vec m' q n = map f (vec m p n).
Proof. intros f m m' p q n H. unfold vec. rewrite map_map. apply map_ext_in. intros i Hi. apply in_seq in Hi. apply H. lia. Qed.

Theorem x01_ok : forall v s, valid s 1 ->
  returns s (std_to_x01 v s) (map x01_rule (operand s 1)) /\
  (forall a, nx (std_to_x01 v s) <= a -> mm (std_to_x01 v s) a = mm s a) /\ warns (std_to_x01 v s) = warns s.
Proof.
  intros v s V1. destruct (valid_holds s 1 V1) as (H1 & F1 & L1). change (1 + 2) with 3 in *.
  set (n := ffi_array_length (ar s 3)) in *. destruct H1 as (B1 & W1). rewrite <- W1 in *. pose proof (vec_std _ _ _ F1) as S1.
  assert (Fin : forall res s0 sz m, step s s0 -> nx s <= res -> n <= sz -> res + sz <= nx s0 -> mm s0 = mm s ->
    (forall a, ~ (res <= a < res + sz) -> m a = mm s a) -> (forall i, i < n -> m (res + i) = x01_rule (mm s (ptr s 1 + i))) ->
    returns s (return_vec (set_mm s0 m) res n) (map x01_rule (vec (mm s) (ptr s 1) n)) /\
    (forall a, nx (return_vec (set_mm s0 m) res n) <= a -> mm (return_vec (set_mm s0 m) res n) a = mm s a) /\
    warns (return_vec (set_mm s0 m) res n) = warns s).
  { intros res s0 sz m P NF SZ B M O V. split; [|split].
    - apply return_vec_ok.
      + apply set_mm_step; [exact P|]. intros a Ha. apply O. lia.
      + split; [cbn; lia|]. cbn. apply vec_map. exact V.
    - intros a Ha. cbn in *. apply O. lia.
    - cbn. exact (st_warns _ _ P). }
  unfold std_to_x01. fold n. destruct v.
  - destruct (tlab_alloc s n 8) as [res s0] eqn:EA. destruct (alloc_ok _ _ _ _ EA) as (P & A & B & C). rewrite C.
    destruct (x01_loop_ok n (mm s) (ptr s 1) res 0) as (O & Vv); [lia|intros i Hi; apply S1; lia|].
    apply (Fin res s0 n); try assumption; try lia; [intros a Ha; apply O; lia|intros i Hi; apply Vv; lia].
  - destruct (tlab_alloc s (up n 16) 16) as [res s0] eqn:EA. destruct (alloc16 _ _ _ _ EA) as (P & A & B & C). rewrite C.
    destruct (up_bounds n 16 ltac:(lia)) as ((U & _) & _).
    destruct (x01_lanes_ok (S n) (mm s) (ptr s 1) res 0 n 0) as (O & Vv); [lia|lia|lia|intros i Hi; apply S1; lia|].
    apply (Fin res s0 (up n 16)); try assumption; try lia; [intros a Ha; apply O; lia|intros i Hi; apply Vv; lia].
  - destruct (tlab_alloc s n 8) as [res s0] eqn:EA. destruct (alloc_ok _ _ _ _ EA) as (P & A & B & C). rewrite C.
    destruct (x01_loop_ok n (mm s) (ptr s 1) res 0) as (O & Vv); [lia|intros i Hi; apply S1; lia|].
    apply (Fin res s0 n); try assumption; try lia; [intros a Ha; apply O; lia|intros i Hi; apply Vv; lia].
Qed.

(* ---- "=" ---- *)

Lemma memcmp_ok : forall n m l r, memcmp_zero m l r n = true <-> vec m l n = vec m r n.
Proof.
  induction n as [|n IH]; intros m l r; [cbn; tauto|]. cbn [memcmp_zero]. rewrite andb_true_iff, N.eqb_eq, IH, !vec_S. split.
  - intros (-> & ->). reflexivity.
  - intros E. injection E as -> ->. tauto.
Qed.

Lemma all_zeros_iff : forall x, all_zeros x = true <-> forall i, i < 16 -> x i = 0%N.
Proof.
  intros x. unfold all_zeros. rewrite forallb_forall. split.
  - intros H i Hi. apply N.eqb_eq, H, in_seq. lia.
  - intros H i Hi. apply in_seq in Hi. apply N.eqb_eq, H. lia.
Qed.
Lemma lxor_255 : forall a b, (a < 256)%N -> (b < 256)%N -> N.land (N.lxor a b) 255 = 0%N <-> a = b.
Proof.
  intros a b Ha Hb. assert (X : (N.lxor a b < 2 ^ 8)%N).
  { destruct (N.eq_dec (N.lxor a b) 0) as [->|NZ]; [reflexivity|]. apply N.log2_lt_pow2; [lia|].
    pose proof (N.log2_lxor a b) as Lg. assert (LA : (N.log2 a < 8)%N).
    { destruct (N.eq_dec a 0) as [->|]; [cbn; lia|]. apply N.log2_lt_pow2; [lia|exact Ha]. }
    assert (LB : (N.log2 b < 8)%N).
    { destruct (N.eq_dec b 0) as [->|]; [cbn; lia|]. apply N.log2_lt_pow2; [lia|exact Hb]. }
    lia. }
  change 255%N with (N.ones 8). rewrite N.land_ones, N.mod_small by exact X. apply N.lxor_eq_0_iff.
Qed.
Lemma mask_at : forall (v : isa) k i, 0 < k < 16 -> i < 16 ->
  (match v with NEON => vcltq_u8 | _ => cmplt_epi8 end) (of_table lane_iota) (set1 (N.of_nat k)) i = if i <? k then 255%N else 0%N.
Proof.
  intros v k i Hk Hi.
  assert (T : forallb (fun k => forallb (fun i =>
     N.eqb ((match v with NEON => vcltq_u8 | _ => cmplt_epi8 end) (of_table lane_iota) (set1 (N.of_nat k)) i) (if i <? k then 255%N else 0%N))
     (seq 0 16)) (seq 1 15) = true) by (destruct v; vm_compute; reflexivity).
  rewrite forallb_forall in T. specialize (T k ltac:(apply in_seq; lia)). rewrite forallb_forall in T.
  apply N.eqb_eq, T, in_seq. lia.
Qed.

Lemma equal_lanes_ok : forall fuel v m l r pos size, size - pos < fuel -> pos <= size ->
  (forall i, i < size -> (m (l + i)%nat < 256)%N /\ (m (r + i)%nat < 256)%N) ->
  equal_lanes fuel v m l r pos size = true <-> forall i, pos <= i < size -> m (l + i) = m (r + i).
Proof.
  induction fuel as [|fuel IH]; intros v m l r pos size HF HP HB; [lia|]. cbn [equal_lanes].
  set (x := xor128 _ _).
  assert (Hx : forall i, x i = N.lxor (m (l + (pos + i))) (m (r + (pos + i)))) by (intros i; unfold x, xor128, load128; rewrite !Nat.add_assoc; reflexivity).
  destruct (Nat.ltb_spec (pos + 15) size) as [C|C].
  - assert (Z : all_zeros (and128 x (set1 255)) = true <-> forall i, pos <= i < pos + 16 -> m (l + i) = m (r + i)).
    { rewrite all_zeros_iff. split.
      - intros H i Hi. specialize (H (i - pos) ltac:(lia)). unfold and128, set1 in H. change (255 mod 256)%N with 255%N in H. rewrite Hx in H.
        replace (pos + (i - pos)) with i in H by lia. destruct (HB i ltac:(lia)) as (Ba & Bb). exact (proj1 (lxor_255 _ _ Ba Bb) H).
      - intros H i Hi. unfold and128, set1. change (255 mod 256)%N with 255%N. rewrite Hx. destruct (HB (pos + i) ltac:(lia)) as (Ba & Bb).
        apply (proj2 (lxor_255 _ _ Ba Bb)). apply H. lia. }
    destruct (all_zeros (and128 x (set1 255))).
    + rewrite IH by (try assumption; lia). split.
      * intros H i Hi. destruct (Nat.lt_ge_cases i (pos + 16)); [apply Z; [reflexivity|lia]|apply H; lia].
      * intros H i Hi. apply H. lia.
    + split; [discriminate|]. intros H. apply Z. intros i Hi. apply H. lia.
  - destruct (Nat.ltb_spec pos size) as [D|D].
    + cbv zeta. rewrite all_zeros_iff. split.
      * intros H i Hi. specialize (H (i - pos) ltac:(lia)). unfold and128 in H. rewrite mask_at in H by lia. rewrite Hx in H.
        replace (pos + (i - pos)) with i in H by lia. destruct (Nat.ltb_spec (i - pos) (size - pos)); [|lia].
        destruct (HB i ltac:(lia)) as (Ba & Bb). exact (proj1 (lxor_255 _ _ Ba Bb) H).
      * intros H i Hi. unfold and128. rewrite mask_at by lia. rewrite Hx. destruct (Nat.ltb_spec i (size - pos)) as [Q|Q].
        -- destruct (HB (pos + i) ltac:(lia)) as (Ba & Bb). apply (proj2 (lxor_255 _ _ Ba Bb)). apply H. lia.
        -- apply N.land_0_r.
    + split; [intros _ i Hi; lia|reflexivity].
Qed.

Theorem equal_ok : forall v s, bytes_valid s 1 -> bytes_valid s 4 ->
  byte_vector_equal v s = set_ar s 0 (if list_eq_dec N.eq_dec (operand s 1) (operand s 4) then 1 else 0)%Z.
Proof.
  intros v s (R1 & F1) (R4 & F4). unfold byte_vector_equal. f_equal.
  assert (L1 : ffi_array_length (ar s 3) = size_of (ar s 3)) by (apply length_ok; change (1 + 2) with 3 in R1; lia).
  assert (L4 : ffi_array_length (ar s 6) = size_of (ar s 6)) by (apply length_ok; change (4 + 2) with 6 in R4; lia).
  rewrite L1, L4. unfold operand, ptr in *. change (1 + 2) with 3 in *. change (4 + 2) with 6 in *.
  set (n := size_of (ar s 3)) in *. set (k := size_of (ar s 6)) in *. set (p := Z.to_nat (ar s 1)) in *. set (q := Z.to_nat (ar s 4)) in *.
  assert (B : forall p n, Forall (fun b => (b < 256)%N) (vec (mm s) p n) -> forall i, i < n -> (mm s (p + i)%nat < 256)%N).
  { intros p0 n0 H i Hi. rewrite Forall_forall in H. apply H, vec_In. exists i. split; [exact Hi|reflexivity]. }
  assert (Main : (match v with
    | Portable => (n =? k) && memcmp_zero (mm s) p q n
    | _ => if negb (n =? k) then false else equal_lanes (S n) v (mm s) p q 0 n
    end) = true <-> vec (mm s) p n = vec (mm s) q k).
  { assert (LE : vec (mm s) p n = vec (mm s) q k -> n = k).
    { intros E. apply (f_equal (@length N)) in E. rewrite !vec_length in E. exact E. }
    assert (Q : n = k -> forall v, equal_lanes (S n) v (mm s) p q 0 n = true <-> vec (mm s) p n = vec (mm s) q k).
    { intros E v0. rewrite <- E in *. rewrite equal_lanes_ok; [|lia|lia|intros i Hi; split; [apply (B p n F1)|apply (B q n F4)]; exact Hi]. split.
      - intros H. apply vec_ext. intros i Hi. apply H. lia.
      - intros H i Hi. rewrite <- (vec_nth (mm s) p n i 0%N), <- (vec_nth (mm s) q n i 0%N), H by lia. reflexivity. }
    destruct (Nat.eqb_spec n k) as [E|E]; cbn [negb andb].
    - specialize (Q E). rewrite <- E in *. destruct v; [apply memcmp_ok|apply Q|apply Q].
    - destruct v; (split; [discriminate|intros H; elim E; apply LE; exact H]). }
  match goal with |- Z.b2z ?b = _ => destruct b end; destruct (list_eq_dec N.eq_dec (vec (mm s) p n) (vec (mm s) q k)) as [E|E]; try reflexivity.
  - elim E. apply Main. reflexivity.
  - apply Main in E. discriminate.
Qed.
