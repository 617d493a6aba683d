(* Vectors in memory and the helpers that convert, resize and invert them. *)
From Coq Require Import List ZArith NArith Arith Bool Lia.
From Verif Require Import Base IntrinModel IntrinSpec IntrinAddProofs.
Import ListNotations.

Lemma vec_length : forall m p n, length (vec m p n) = n.
Proof. intros. unfold vec. rewrite map_length, seq_length. reflexivity. Qed.
Lemma vec_ext : forall (m m' : nat -> N) p q n, (forall i, i < n -> m (p + i) = m' (q + i)) -> vec m p n = vec m' q n.
Proof. intros m m' p q n E. unfold vec. apply map_ext_in. intros i Hi. apply in_seq in Hi. apply E. lia. Qed.
Lemma vec_app : forall m p a b, vec m p (a + b) = vec m p a ++ vec m (p + a) b.
Proof.
  intros m p a b. unfold vec. rewrite seq_app, map_app. f_equal. cbn [Nat.add].
  rewrite <- (map_map (fun i => a + i) (fun i => m (p + i))) || idtac.
  replace (seq a b) with (map (fun i => a + i) (seq 0 b)).
  - rewrite map_map. apply map_ext. intros i. rewrite Nat.add_assoc. reflexivity.
  - clear. revert a. induction b as [|b IH]; intros a; [reflexivity|]. cbn [seq map]. rewrite Nat.add_0_r. f_equal.
    rewrite <- (IH (S a)). rewrite <- seq_shift, map_map. apply map_ext. intros. lia.
Qed.
Lemma vec_S : forall m p n, vec m p (S n) = m p :: vec m (S p) n.
Proof.
  intros m p n. change (S n) with (1 + n). rewrite vec_app. cbn. rewrite Nat.add_0_r, Nat.add_1_r. reflexivity.
Qed.
Lemma vec_nth : forall m p n i d, i < n -> nth i (vec m p n) d = m (p + i).
Proof.
  intros m p n i d H. unfold vec. rewrite (nth_indep _ d (m (p + n))) by (rewrite map_length, seq_length; exact H).
  rewrite (map_nth (fun i => m (p + i))). rewrite seq_nth by exact H. reflexivity.
Qed.
Lemma vec_In : forall m p n x, In x (vec m p n) <-> exists i, i < n /\ m (p + i) = x.
Proof.
  intros m p n x. unfold vec. rewrite in_map_iff. split.
  - intros (i & E & H). apply in_seq in H. exists i. split; [lia|exact E].
  - intros (i & H & E). exists i. split; [exact E|apply in_seq; lia].
Qed.
Lemma vec_skipn : forall m p n k, k <= n -> skipn k (vec m p n) = vec m (p + k) (n - k).
Proof.
  intros m p n k H. replace n with (k + (n - k)) at 1 by lia. rewrite vec_app, skipn_app, vec_length, Nat.sub_diag.
  rewrite skipn_all2 by (rewrite vec_length; lia). reflexivity.
Qed.
Lemma vec_repeat : forall (m : nat -> N) p n x, (forall i, i < n -> m (p + i) = x) -> vec m p n = repeat x n.
Proof.
  intros m p n x. revert p. induction n as [|n IH]; intros p E; [reflexivity|].
  rewrite vec_S. cbn [repeat]. rewrite <- (E 0) by lia. rewrite Nat.add_0_r. f_equal. rewrite (E 0 ltac:(lia)) || idtac.
  replace (m p) with x by (rewrite <- (E 0), Nat.add_0_r by lia; reflexivity). apply IH.
  intros i Hi. rewrite <- (E (S i)) by lia. f_equal. lia.
Qed.
Lemma vec_existsb : forall f m p n, existsb f (vec m p n) = false <-> forall i, i < n -> f (m (p + i)) = false.
Proof.
  intros f m p n. split.
  - intros E i Hi. destruct (f (m (p + i))) eqn:C; [|reflexivity].
    rewrite <- E. symmetry. apply existsb_exists. exists (m (p + i)). split; [apply vec_In; exists i; auto|exact C].
  - intros E. destruct (existsb f (vec m p n)) eqn:C; [|reflexivity].
    apply existsb_exists in C. destruct C as (x & Hx & Fx). apply vec_In in Hx. destruct Hx as (i & Hi & <-).
    rewrite E in Fx by exact Hi. discriminate.
Qed.

(* ---- values ---- *)
Lemma pow_S : forall n, (2 ^ Z.of_nat (S n) = 2 * 2 ^ Z.of_nat n)%Z.
Proof. intros. rewrite Nat2Z.inj_succ, Z.pow_succ_r; lia. Qed.
Lemma pow_pos : forall n, (0 < 2 ^ Z.of_nat n)%Z.
Proof. intros. apply Z.pow_pos_nonneg; lia. Qed.
Lemma weight_01 : forall b, (0 <= weight b <= 1)%Z.
Proof. intros. unfold weight. destruct (high b); lia. Qed.
Lemma uval_app : forall a b, uval (a ++ b) = (uval a * 2 ^ Z.of_nat (length b) + uval b)%Z.
Proof.
  induction a as [|x a IH]; intros b; [reflexivity|]. cbn [app uval]. rewrite IH, app_length, Nat2Z.inj_add, Z.pow_add_r by lia. ring.
Qed.
Lemma uval_range : forall l, (0 <= uval l < 2 ^ Z.of_nat (length l))%Z.
Proof.
  induction l as [|x l IH]; [cbn; lia|]. cbn [uval length]. rewrite pow_S. pose proof (weight_01 x). nia.
Qed.
Lemma uval_zeros : forall n, uval (repeat 2%N n) = 0%Z.
Proof. induction n as [|n IH]; [reflexivity|]. cbn [repeat uval]. rewrite IH. reflexivity. Qed.
Lemma uval_ones : forall b n, weight b = 1%Z -> uval (repeat b n) = (2 ^ Z.of_nat n - 1)%Z.
Proof.
  intros b n E. induction n as [|n IH]; [reflexivity|]. cbn [repeat uval]. rewrite IH, E, repeat_length, pow_S. ring.
Qed.
Lemma uval_sval : forall l, exists k, uval l = (sval l + k * 2 ^ Z.of_nat (length l))%Z.
Proof.
  intros [|b l]; [exists 0%Z; reflexivity|]. exists (weight b). cbn [uval sval length]. rewrite pow_S. ring.
Qed.

Lemma existsb_repeat : forall (f : N -> bool) x n, existsb f (repeat x n) = f x && negb (n =? 0).
Proof.
  intros f x n. induction n as [|n IH]; [rewrite andb_false_r; reflexivity|]. cbn [repeat existsb]. rewrite IH.
  cbn. destruct (f x); reflexivity.
Qed.

Lemma meta_x : meta the_X = true. Proof. reflexivity. Qed.

(* ---- resizing lists upwards ---- *)
Lemma resize_u_length : forall n l, length (resize_u n l) = n.
Proof. intros. unfold resize_u. rewrite app_length, repeat_length, skipn_length. lia. Qed.
Lemma resize_u_grow : forall n l, length l <= n -> resize_u n l = repeat 2%N (n - length l) ++ l.
Proof. intros n l H. unfold resize_u. replace (length l - n) with 0 by lia. reflexivity. Qed.
Lemma resize_u_val : forall n l, length l <= n -> uval (resize_u n l) = uval l.
Proof. intros n l H. rewrite resize_u_grow by exact H. rewrite uval_app, uval_zeros. lia. Qed.
Lemma resize_u_meta : forall n l, length l <= n -> existsb meta (resize_u n l) = existsb meta l.
Proof. intros n l H. rewrite resize_u_grow by exact H. rewrite existsb_app, existsb_repeat. reflexivity. Qed.
Lemma resize_s_length : forall n l, length (resize_s n l) = n.
Proof.
  intros [|n] [|b l]; [reflexivity|reflexivity|apply repeat_length|]. cbn [resize_s length].
  rewrite app_length, repeat_length, skipn_length. lia.
Qed.
Lemma resize_s_grow : forall n b l, length l < n -> resize_s n (b :: l) = repeat b (n - length l) ++ l.
Proof.
  intros [|n] b l H; [lia|]. cbn [resize_s]. replace (length l - n) with 0 by lia.
  replace (S n - length l) with (S (n - length l)) by lia. reflexivity.
Qed.
Lemma resize_s_val : forall n l, length l <= n -> l <> [] ->
  exists k, uval (resize_s n l) = (sval l + k * 2 ^ Z.of_nat n)%Z.
Proof.
  intros n [|b l] H NE; [congruence|]. cbn [length] in H. rewrite resize_s_grow by lia. rewrite uval_app.
  cbn [sval]. unfold weight at 1. destruct (high b) eqn:Hb.
  - exists 1%Z. rewrite uval_ones by (unfold weight; rewrite Hb; reflexivity).
    replace (Z.of_nat n) with (Z.of_nat (n - length l) + Z.of_nat (length l))%Z by lia. rewrite Z.pow_add_r by lia. ring.
  - exists 0%Z. assert (E : uval (repeat b (n - length l)) = 0%Z).
    { generalize (n - length l). intros k. induction k as [|k IH]; [reflexivity|]. cbn [repeat uval]. rewrite IH.
      unfold weight. rewrite Hb. reflexivity. }
    rewrite E. ring.
Qed.
Lemma resize_s_meta : forall n l, length l <= n -> l <> [] -> existsb meta (resize_s n l) = existsb meta l.
Proof.
  intros n [|b l] H NE; [congruence|]. cbn [length] in H. rewrite resize_s_grow by lia.
  rewrite existsb_app, existsb_repeat. cbn [existsb]. destruct (n - length l) eqn:E; [lia|]. cbn [Nat.eqb negb].
  rewrite andb_true_r. reflexivity.
Qed.

Lemma std_resize_u : forall n l, Forall std_ulogic l -> Forall std_ulogic (resize_u n l).
Proof.
  intros n l F. unfold resize_u. apply Forall_app. split.
  - apply Forall_forall. intros x Hx. apply repeat_spec in Hx. subst x. reflexivity.
  - rewrite <- (firstn_skipn (length l - n) l) in F. apply Forall_app in F. apply F.
Qed.
Lemma std_resize_s : forall n l, Forall std_ulogic l -> Forall std_ulogic (resize_s n l).
Proof.
  intros [|n] [|b l] F; [constructor|constructor| |].
  - apply Forall_forall. intros x Hx. apply repeat_spec in Hx. subst x. reflexivity.
  - cbn [resize_s]. inversion F as [|b' l' Fb Fl]; subst. constructor; [exact Fb|]. apply Forall_app. split.
    + apply Forall_forall. intros x Hx. apply repeat_spec in Hx. subst x. exact Fb.
    + rewrite <- (firstn_skipn (length l - n) l) in Fl. apply Forall_app in Fl. apply Fl.
Qed.

(* ---- TO_01 on lists ---- *)
Lemma to01_length : forall x l, length (to01 x l) = length l.
Proof. intros. unfold to01. destruct (existsb meta l); [apply repeat_length|apply map_length]. Qed.
Lemma map01_clean : forall l, clean (map (fun b => bit01 (high b)) l).
Proof. induction l as [|b l IH]; constructor; [destruct (high b); auto|exact IH]. Qed.
Lemma map01_val : forall l, uval (map (fun b => bit01 (high b)) l) = uval l.
Proof.
  induction l as [|b l IH]; [reflexivity|]. cbn [map uval]. rewrite IH, map_length. f_equal. f_equal.
  unfold weight. destruct (high b); reflexivity.
Qed.
Lemma map01_id : forall l, clean l -> map (fun b => bit01 (high b)) l = l.
Proof. intros l F. induction F as [|b l [->| ->] F IH]; cbn [map]; [reflexivity| |]; rewrite IH; reflexivity. Qed.
Lemma clean_meta : forall l, clean l -> existsb meta l = false.
Proof. intros l F. induction F as [|b l [->| ->] F IH]; [reflexivity| |]; exact IH. Qed.
Lemma clean_std : forall l, clean l -> Forall std_ulogic l.
Proof. intros l F. eapply Forall_impl; [|exact F]. intros b [->| ->]; reflexivity. Qed.
Lemma to01_clean : forall x l, clean l -> to01 x l = l.
Proof. intros x l F. unfold to01. rewrite clean_meta by exact F. apply map01_id. exact F. Qed.

(* ---- states ---- *)
Record step (s s' : st) : Prop := {
  st_ar : ar s' = ar s;
  st_warns : warns s' = warns s;
  st_nx : nx s <= nx s';
  st_mm : forall a, a < nx s -> mm s' a = mm s a
}.
Lemma step_refl : forall s, step s s.
Proof. intros. split; auto. Qed.
Lemma step_trans : forall a b c, step a b -> step b c -> step a c.
Proof.
  intros a b c [A1 A2 A3 A4] [B1 B2 B3 B4]. split; [congruence|congruence|lia|].
  intros x Hx. rewrite B4 by lia. apply A4. exact Hx.
Qed.

Definition holds (s : st) (p n : nat) (l : list N) : Prop := p + n <= nx s /\ vec (mm s) p n = l.
Lemma holds_step : forall s s' p n l, step s s' -> holds s p n l -> holds s' p n l.
Proof.
  intros s s' p n l P [H E]. destruct P. split; [lia|]. rewrite <- E. apply vec_ext. intros i Hi. apply st_mm0. lia.
Qed.
Lemma holds_length : forall s p n l, holds s p n l -> length l = n.
Proof. intros s p n l [_ <-]. apply vec_length. Qed.

Lemma up_ge : forall x, x <= up x 8.
Proof.
  intros x. unfold up. pose proof (Nat.div_mod (x + 8 - 1) 8 ltac:(lia)).
  pose proof (Nat.mod_upper_bound (x + 8 - 1) 8 ltac:(lia)). lia.
Qed.
Lemma alloc_ok : forall s size p s', tlab_alloc s size 8 = (p, s') ->
  step s s' /\ nx s <= p /\ p + size <= nx s' /\ mm s' = mm s.
Proof.
  intros s size p s' E. unfold tlab_alloc in E. injection E as <- <-. pose proof (up_ge (nx s)). pose proof (up_ge size).
  cbn [nx mm]. split; [|repeat split; lia]. split; cbn; auto. lia.
Qed.
Lemma set_mm_step : forall s s' m, step s s' -> (forall a, a < nx s -> m a = mm s a) -> step s (set_mm s' m).
Proof. intros s s' m [A B C D] H. split; assumption. Qed.

Lemma put_at : forall m p v, put m p v p = v.
Proof. intros. unfold put. rewrite Nat.eqb_refl. reflexivity. Qed.
Lemma put_off : forall m p v a, a <> p -> put m p v a = m a.
Proof. intros. unfold put. destruct (Nat.eqb_spec a p); [contradiction|reflexivity]. Qed.
Lemma memset_at : forall m p v n a, p <= a < p + n -> memset m p v n a = v.
Proof. intros m p v n a H. unfold memset. apply within_iff in H. rewrite H. reflexivity. Qed.
Lemma memset_off : forall m p v n a, ~ (p <= a < p + n) -> memset m p v n a = m a.
Proof. intros m p v n a H. unfold memset. apply within_not in H. rewrite H. reflexivity. Qed.
Lemma memmove_at : forall m d p n a, d <= a < d + n -> memmove m d p n a = m (p + (a - d)).
Proof. intros m d p n a H. unfold memmove. apply within_iff in H. rewrite H. reflexivity. Qed.
Lemma memmove_off : forall m d p n a, ~ (d <= a < d + n) -> memmove m d p n a = m a.
Proof. intros m d p n a H. unfold memmove. apply within_not in H. rewrite H. reflexivity. Qed.

(* ---- recognising '0' and '1' ---- *)
Definition is01 (b : N) : bool := (b =? 2)%N || (b =? 3)%N.
Lemma std_cases : forall b, std_ulogic b -> b = 0%N \/ b = 1%N \/ b = 2%N \/ b = 3%N \/ b = 4%N \/ b = 5%N \/ b = 6%N \/ b = 7%N \/ b = 8%N.
Proof. intros b H. unfold std_ulogic in H. lia. Qed.
Lemma is_01_8_ok : forall b, std_ulogic b -> is_01_8 b = is01 b.
Proof. intros b H. apply std_cases in H. decompose [or] H; subst b; reflexivity. Qed.
Lemma is01_clean : forall l, forallb is01 l = true <-> clean l.
Proof.
  intros l. rewrite forallb_forall. unfold clean. rewrite Forall_forall. split; intros H x Hx; specialize (H x Hx).
  - unfold is01 in H. apply orb_true_iff in H. destruct H as [H|H]; apply N.eqb_eq in H; subst x; [right|left]; reflexivity.
  - destruct H as [->| ->]; reflexivity.
Qed.

Lemma land14_lt : forall b, (N.land b 14 < 256)%N.
Proof.
  intros b. assert (E : N.land b 14 = (N.land b 14 mod 2 ^ 4)%N).
  { rewrite <- N.land_ones, <- N.land_assoc. reflexivity. }
  rewrite E. pose proof (N.mod_lt (N.land b 14) (2 ^ 4) ltac:(discriminate)). change (2 ^ 4)%N with 16%N in *. lia.
Qed.
Lemma tower : forall a b x y, (a < 256)%N -> (b < 256)%N -> ((a + 256 * x =? b + 256 * y) = (a =? b) && (x =? y))%N.
Proof.
  intros a b x y A B. destruct (N.eqb_spec (a + 256 * x) (b + 256 * y)) as [E|E].
  - assert (a = b /\ x = y) as [-> ->] by lia. rewrite !N.eqb_refl. reflexivity.
  - symmetry. apply andb_false_iff. destruct (N.eqb_spec a b); [right|left; reflexivity].
    apply N.eqb_neq. lia.
Qed.
Lemma is_01_64_ok : forall m p, bytes m p 8 ->
  is_01_64 (load64 m p) = forallb is_01_8 (vec m p 8).
Proof.
  intros m p B. unfold is_01_64, load64. cbn [load_le].
  replace 0x0e0e0e0e0e0e0e0e%N with (14 + 256 * (14 + 256 * (14 + 256 * (14 + 256 * (14 + 256 * (14 + 256 * (14 + 256 * (14 + 256 * 0))))))))%N by reflexivity.
  replace 0x0202020202020202%N with (2 + 256 * (2 + 256 * (2 + 256 * (2 + 256 * (2 + 256 * (2 + 256 * (2 + 256 * (2 + 256 * 0))))))))%N by reflexivity.
  pose proof (B 0 ltac:(lia)) as B0. pose proof (B 1 ltac:(lia)) as B1. pose proof (B 2 ltac:(lia)) as B2.
  pose proof (B 3 ltac:(lia)) as B3. pose proof (B 4 ltac:(lia)) as B4. pose proof (B 5 ltac:(lia)) as B5.
  pose proof (B 6 ltac:(lia)) as B6. pose proof (B 7 ltac:(lia)) as B7.
  replace (S (S (S (S (S (S (S p))))))) with (p + 7) by lia. replace (S (S (S (S (S (S p)))))) with (p + 6) by lia.
  replace (S (S (S (S (S p))))) with (p + 5) by lia. replace (S (S (S (S p)))) with (p + 4) by lia.
  replace (S (S (S p))) with (p + 3) by lia. replace (S (S p)) with (p + 2) by lia. replace (S p) with (p + 1) by lia.
  rewrite Nat.add_0_r in *.
  rewrite !land_step by (assumption || reflexivity).
  rewrite !tower by (apply land14_lt || reflexivity). rewrite N.land_0_r.
  unfold vec, is_01_8. cbn [seq map forallb]. rewrite Nat.add_0_r. reflexivity.
Qed.

Lemma all_01_bytes_ok : forall n m p pos, all_01_bytes m p pos n = forallb is_01_8 (vec m (p + pos) n).
Proof.
  induction n as [|n IH]; intros m p pos; [reflexivity|]. cbn [all_01_bytes]. rewrite vec_S. cbn [forallb].
  rewrite IH. replace (p + S pos) with (S (p + pos)) by lia. destruct (is_01_8 (m (p + pos))); reflexivity.
Qed.
Lemma all_01_words_ok : forall fuel m p pos size, size - pos < fuel -> bytes m p size -> pos <= size ->
  all_01_words fuel m p pos size = forallb is_01_8 (vec m (p + pos) (size - pos)).
Proof.
  induction fuel as [|fuel IH]; intros m p pos size F B H; [lia|]. cbn [all_01_words].
  destruct (Nat.ltb_spec (pos + 7) size) as [C|C].
  - rewrite is_01_64_ok by (intros i Hi; rewrite <- Nat.add_assoc; apply B; lia).
    replace (size - pos) with (8 + (size - (pos + 8))) by lia. rewrite vec_app, forallb_app.
    rewrite IH by (lia || assumption). rewrite Nat.add_assoc.
    destruct (forallb is_01_8 (vec m (p + pos) 8)); reflexivity.
  - apply all_01_bytes_ok.
Qed.
Lemma std_bytes : forall m p n, Forall std_ulogic (vec m p n) -> bytes m p n.
Proof.
  intros m p n F i Hi. rewrite Forall_forall in F. specialize (F (m (p + i)) (proj2 (vec_In m p n _) (ex_intro _ i (conj Hi eq_refl)))).
  unfold std_ulogic in F. lia.
Qed.
Lemma forallb_std : forall l, Forall std_ulogic l -> forallb is_01_8 l = forallb is01 l.
Proof. intros l F. induction F as [|b l Hb F IH]; [reflexivity|]. cbn [forallb]. rewrite IH, is_01_8_ok by exact Hb. reflexivity. Qed.
Lemma all_01_ok : forall m p n, Forall std_ulogic (vec m p n) -> all_01 m p n = forallb is01 (vec m p n).
Proof.
  intros m p n F. unfold all_01. rewrite all_01_words_ok by (try apply std_bytes; assumption || lia).
  rewrite Nat.add_0_r, Nat.sub_0_r. apply forallb_std. exact F.
Qed.

(* ---- TO_01 in memory ---- *)
Lemma slow_elt : forall b, high b = (b =? sl_1)%N || (b =? sl_H)%N. Proof. reflexivity. Qed.
Lemma slow_elt0 : forall b, low b = (b =? sl_0)%N || (b =? sl_L)%N. Proof. reflexivity. Qed.
Lemma to_01_loop_ok : forall n m input result i bad m' bad', to_01_loop m input result i n bad = (m', bad') ->
  input + i + n <= result ->
  outside m m' (result + i) n /\
  bad' = bad || existsb meta (vec m (input + i) n) /\
  (forall j, i <= j < i + n -> meta (m (input + j)) = false -> m' (result + j) = bit01 (high (m (input + j)))).
Proof.
  induction n as [|n IH]; intros m input result i bad m' bad' E H; cbn [to_01_loop] in E.
  - injection E as <- <-. split; [intros a _; reflexivity|]. split; [cbn; rewrite orb_false_r; reflexivity|intros; lia].
  - rewrite vec_S. cbn [existsb]. set (b := m (input + i)) in *.
    rewrite <- slow_elt, <- slow_elt0 in E.
    assert (K : forall m1 bad1, outside m m1 (result + i) 1 -> bad1 = bad || meta b ->
      (meta b = false -> m1 (result + i) = bit01 (high b)) ->
      to_01_loop m1 input result (S i) n bad1 = (m', bad') ->
      outside m m' (result + i) (S n) /\ bad' = bad || (meta b || existsb meta (vec m (S (input + i)) n)) /\
      (forall j, i <= j < i + S n -> meta (m (input + j)) = false -> m' (result + j) = bit01 (high (m (input + j))))).
    { intros m1 bad1 O1 Eb V1 E1. destruct (IH _ _ _ _ _ _ _ E1 ltac:(lia)) as (O & B & V). split; [|split].
      - intros a Ha. rewrite O by lia. apply O1. lia.
      - rewrite B, Eb, <- orb_assoc. f_equal. f_equal. replace (input + S i) with (S (input + i)) by lia.
        f_equal. apply vec_ext. intros j Hj. apply O1. lia.
      - intros j Hj M. destruct (Nat.eq_dec j i) as [->|NE].
        + rewrite O by lia. apply V1. exact M.
        + assert (Em : m1 (input + j) = m (input + j)) by (apply O1; lia).
          rewrite <- Em in M |- *. apply V; [lia|exact M]. }
    assert (OP : forall v, outside m (put m (result + i) v) (result + i) 1) by (intros v a Ha; apply put_off; lia).
    assert (Mb : meta b = negb (high b || low b)) by reflexivity. clearbody b. rewrite Mb in K |- *. clear Mb.
    destruct (high b) eqn:Hb; [|destruct (low b) eqn:Lb]; cbn [orb negb] in K |- *.
    + apply (K (put m (result + i) sl_1) bad (OP _) ltac:(rewrite orb_false_r; reflexivity)); [|exact E].
      intros _. apply put_at.
    + apply (K (put m (result + i) sl_0) bad (OP _) ltac:(rewrite orb_false_r; reflexivity)); [|exact E].
      intros _. apply put_at.
    + apply (K m true ltac:(intros a _; reflexivity) ltac:(rewrite orb_true_r; reflexivity)); [|exact E].
      discriminate.
Qed.

Lemma to_01_ok : forall s p n x l q s', holds s p n l -> Forall std_ulogic l ->
  to_01 s p n x = (q, s') -> step s s' /\ holds s' q n (to01 x l).
Proof.
  intros s p n x l q s' [H Ev] F E. unfold to_01 in E. rewrite all_01_ok in E by (rewrite Ev; exact F). rewrite Ev in E.
  destruct (forallb is01 l) eqn:A.
  - injection E as <- <-. split; [apply step_refl|]. apply is01_clean in A. rewrite to01_clean by exact A. split; assumption.
  - unfold to_01_slow in E. destruct (tlab_alloc s n 8) as [result s1] eqn:EA.
    destruct (alloc_ok _ _ _ _ EA) as (P & R1 & R2 & Em).
    destruct (to_01_loop (mm s1) p result 0 n false) as [m bad] eqn:EL.
    destruct (to_01_loop_ok _ _ _ _ _ _ _ _ EL ltac:(lia)) as (O & B & V).
    rewrite Nat.add_0_r in O, B. rewrite Em in *. rewrite Ev in B. cbn [orb] in B.
    injection E as <- <-.
    split.
    + apply set_mm_step; [exact P|]. intros a Ha. destruct bad; [rewrite memset_off by lia|]; apply O; lia.
    + split; [exact R2|]. cbn [set_mm mm]. unfold to01. rewrite <- B. assert (Ll : length l = n) by (rewrite <- Ev; apply vec_length).
      destruct bad.
      * rewrite Ll. apply vec_repeat. intros i Hi. apply memset_at. lia.
      * rewrite <- Ev. unfold vec. rewrite map_map. apply map_ext_in. intros i Hi. apply in_seq in Hi.
        apply V; [lia|]. symmetry in B. rewrite <- Ev in B. rewrite vec_existsb in B. apply B. lia.
Qed.

(* ---- RESIZE in memory ---- *)
Lemma resize_unsigned_ok : forall s p n k l q s', holds s p n l -> 0 < k -> resize_unsigned s p n k = (q, s') ->
  step s s' /\ holds s' q k (resize_u k l).
Proof.
  intros s p n k l q s' [H Ev] K E. unfold resize_unsigned in E.
  assert (Ll : length l = n) by (rewrite <- Ev; apply vec_length).
  destruct (Nat.ltb_spec k 1); [lia|]. destruct (Nat.leb_spec k n) as [C|C].
  - injection E as <- <-. split; [apply step_refl|]. split; [lia|]. unfold resize_u. rewrite Ll.
    replace (k - n) with 0 by lia. cbn [repeat app]. rewrite <- Ev, vec_skipn by lia.
    replace (p + n - k) with (p + (n - k)) by lia. f_equal. lia.
  - destruct (tlab_alloc s k 8) as [result s1] eqn:EA. destruct (alloc_ok _ _ _ _ EA) as (P & R1 & R2 & Em).
    injection E as <- <-. rewrite Em. split.
    + apply set_mm_step; [exact P|]. intros a Ha. rewrite memmove_off by lia. apply memset_off. lia.
    + split; [exact R2|]. cbn [set_mm mm]. rewrite resize_u_grow by lia. rewrite Ll.
      match goal with |- vec ?m _ _ = _ => replace (vec m result k) with (vec m result ((k - n) + n)) by (f_equal; lia) end.
      rewrite vec_app. f_equal.
      * apply vec_repeat. intros i Hi. rewrite memmove_off by lia. apply memset_at. lia.
      * rewrite <- Ev. apply vec_ext. intros i Hi. rewrite memmove_at by lia. rewrite memset_off by lia. f_equal. lia.
Qed.

Lemma resize_signed_ok : forall s p n k l q s', holds s p n l -> 0 < k -> resize_signed s p n k = (q, s') ->
  step s s' /\ holds s' q k (resize_s k l).
Proof.
  intros s p n k l q s' [H Ev] K E. unfold resize_signed in E.
  assert (Ll : length l = n) by (rewrite <- Ev; apply vec_length).
  destruct (Nat.ltb_spec k 1); [lia|]. destruct (Nat.eqb_spec n k) as [C|C].
  - injection E as <- <-. subst k. split; [apply step_refl|]. split; [exact H|].
    destruct l as [|b l]; [cbn in Ll; lia|]. cbn in Ll. rewrite resize_s_grow by lia.
    replace (n - length l) with 1 by lia. exact Ev.
  - destruct (Nat.eqb_spec n 0) as [Z0|Z0].
    + destruct (tlab_alloc s k 8) as [result s1] eqn:EA. destruct (alloc_ok _ _ _ _ EA) as (P & R1 & R2 & Em).
      injection E as <- <-. split.
      * apply set_mm_step; [exact P|]. intros a Ha. rewrite Em. apply memset_off. lia.
      * split; [exact R2|]. cbn [set_mm mm]. destruct l; [|cbn in Ll; lia]. destruct k as [|k]; [lia|].
        cbn [resize_s]. apply vec_repeat. intros i Hi. apply memset_at. lia.
    + destruct (tlab_alloc s k 8) as [result s1] eqn:EA. destruct (alloc_ok _ _ _ _ EA) as (P & R1 & R2 & Em).
      set (bound := Nat.min n k - 1) in *. injection E as <- <-. rewrite Em. split.
      * apply set_mm_step; [exact P|]. intros a Ha. rewrite memmove_off by lia. apply memset_off. lia.
      * split; [exact R2|]. cbn [set_mm mm]. destruct l as [|b l]; [cbn in Ll; lia|]. cbn in Ll.
        assert (Eb : mm s p = b /\ vec (mm s) (S p) (n - 1) = l).
        { replace n with (S (n - 1)) in Ev by lia. rewrite vec_S in Ev. injection Ev as -> ->. auto. }
        destruct Eb as (Eb & El).
        destruct k as [|k]; [lia|]. cbn [resize_s].
        assert (B1 : bound = Nat.min (length l) k) by (unfold bound; lia).
        rewrite app_comm_cons. change (b :: repeat b (k - length l)) with (repeat b (S (k - length l))).
        replace (vec _ result (S k)) with (vec (memmove (memset (mm s) result (mm s p) (S k - bound)) (result + S k - bound) (p + n - bound) bound)
          result (S (k - length l) + bound)) by (f_equal; lia).
        rewrite vec_app. f_equal.
        -- apply vec_repeat. intros i Hi. rewrite memmove_off by lia. rewrite memset_at by lia. exact Eb.
        -- transitivity (skipn (length l - k) (vec (mm s) (S p) (n - 1))); [|rewrite El; reflexivity].
           rewrite vec_skipn by lia. replace (n - 1 - (length l - k)) with bound by lia.
           apply vec_ext. intros i Hi. rewrite memmove_at by lia. rewrite memset_off by lia. f_equal. lia.
Qed.

(* ---- inversion in memory ---- *)
Lemma invert_ok : forall n m input i result,
  (forall j, i <= j < i + n -> m (input + j) = bit01 true \/ m (input + j) = bit01 false) ->
  same_or_apart input result (i + n) ->
  exists m', invert_bits m input i n result = Ok m' /\ outside m m' (result + i) n /\
    (forall j, i <= j < i + n -> m' (result + j) = bit01 (negb (high (m (input + j))))).
Proof.
  induction n as [|n IH]; intros m input i result C SA; cbn [invert_bits].
  - exists m. split; [reflexivity|]. split; [intros a _; reflexivity|intros; lia].
  - assert (T : N.eqb (m (input + i)) sl_0 || N.eqb (m (input + i)) sl_1 = true) by (destruct (C i ltac:(lia)) as [->| ->]; reflexivity).
    rewrite T. set (m1 := put m (result + i) (N.lxor (m (input + i)) 1)).
    assert (Q : forall j, S i <= j < S i + n -> m1 (input + j) = m (input + j)).
    { intros j Hj. unfold m1. apply put_off. destruct SA as [->|[SA|SA]]; lia. }
    destruct (IH m1 input (S i) result) as (m' & E & O & V).
    { intros j Hj. rewrite Q by lia. apply C. lia. }
    { replace (S i + n) with (i + S n) by lia. exact SA. }
    exists m'. split; [exact E|]. split.
    + intros a Ha. rewrite O by lia. unfold m1. apply put_off. lia.
    + intros j Hj. destruct (Nat.eq_dec j i) as [->|NE].
      * rewrite O by lia. unfold m1. rewrite put_at. destruct (C i ltac:(lia)) as [->| ->]; reflexivity.
      * rewrite V by lia. rewrite Q by lia. reflexivity.
Qed.

(* ---- numbers in memory ---- *)
Lemma vec_snoc : forall m p n, vec m p (S n) = vec m p n ++ [m (p + n)].
Proof. intros. rewrite <- Nat.add_1_r, vec_app. cbn. rewrite Nat.add_0_r. reflexivity. Qed.
Lemma lv_uval : forall m n p, clean (vec m p n) -> Z.of_N (lv m p n) = uval (vec m p n).
Proof.
  intros m. induction n as [|n IH]; intros p C; [reflexivity|]. cbn [lv]. rewrite vec_snoc in *.
  unfold clean in C. apply Forall_app in C. destruct C as (C & C1). rewrite uval_app, <- IH by exact C. cbn [uval length].
  inversion C1 as [|b l Hb _]; subst. change (2 ^ Z.of_nat 1)%Z with 2%Z. change (2 ^ Z.of_nat 0)%Z with 1%Z.
  assert (E : Z.of_N (m (p + n)%nat mod 2) = weight (m (p + n))) by (destruct Hb as [->| ->]; reflexivity).
  rewrite N2Z.inj_add, N2Z.inj_mul, E. lia.
Qed.
Lemma lv_bits : forall n m p V, (forall i, i < n -> m (p + i) = b01 (N.testbit V (N.of_nat (n - 1 - i)))) ->
  lv m p n = (V mod 2 ^ N.of_nat n)%N.
Proof.
  induction n as [|n IH]; intros m p V E; [cbn; rewrite N.mod_1_r; reflexivity|]. cbn [lv].
  rewrite (IH m p (V / 2)%N).
  - rewrite (E n) by lia. replace (S n - 1 - n) with 0 by lia. rewrite Nat2N.inj_succ, N.pow_succ_r'.
    rewrite N.mod_mul_r by (try apply N.pow_nonzero; discriminate).
    assert (T : (b01 (N.testbit V (N.of_nat 0)) mod 2 = V mod 2)%N).
    { rewrite <- (N.bit0_mod V). change (N.of_nat 0) with 0%N. destruct (N.testbit V 0); reflexivity. }
    rewrite T. lia.
  - intros i Hi. rewrite E by lia. f_equal. replace (S n - 1 - i) with (S (n - 1 - i)) by lia.
    rewrite Nat2N.inj_succ. rewrite <- N.div2_div, N.div2_spec, N.shiftr_spec'. f_equal. lia.
Qed.
Lemma b01_bit01 : forall h, b01 h = bit01 h. Proof. reflexivity. Qed.
Lemma bits_clean : forall n m p V, (forall i, i < n -> m (p + i) = b01 (N.testbit V (N.of_nat (n - 1 - i)))) ->
  clean (vec m p n).
Proof.
  intros n m p V E. apply Forall_forall. intros x Hx. apply vec_In in Hx. destruct Hx as (i & Hi & <-). rewrite E by exact Hi.
  destruct (N.testbit V (N.of_nat (n - 1 - i))); auto.
Qed.

(* Packed addition of clean vectors. *)
Lemma clean_at : forall m p n, clean (vec m p n) -> forall i, i < n -> m (p + i) = bit01 true \/ m (p + i) = bit01 false.
Proof. intros m p n C i Hi. unfold clean in C. rewrite Forall_forall in C. apply C. apply vec_In. exists i. auto. Qed.
Lemma add_ok : forall m l r n c res, (c <= 1)%N -> same_or_apart l res n -> same_or_apart r res n ->
  clean (vec m l n) -> clean (vec m r n) ->
  outside m (packed_add m l r n c res) res n /\ clean (vec (packed_add m l r n c res) res n) /\
  uval (vec (packed_add m l r n c res) res n) =
    ((uval (vec m l n) + uval (vec m r n) + Z.of_N c) mod 2 ^ Z.of_nat n)%Z.
Proof.
  intros m l r n c res Hc SL SR CL CR.
  destruct (packed_add_ok m l r n c res Hc SL SR (std_bytes _ _ _ (clean_std _ CL)) (std_bytes _ _ _ (clean_std _ CR))) as (O & B).
  split; [exact O|]. pose proof (bits_clean _ _ _ _ B) as C. split; [exact C|].
  rewrite <- lv_uval by exact C. rewrite (lv_bits _ _ _ _ B), <- !lv_uval by assumption.
  rewrite N2Z.inj_mod, N2Z.inj_pow, !N2Z.inj_add, nat_N_Z. reflexivity.
Qed.
Lemma inverted : forall m m' p q n, clean (vec m p n) -> (forall j, 0 <= j < 0 + n -> m' (q + j) = bit01 (negb (high (m (p + j))))) ->
  clean (vec m' q n) /\ uval (vec m' q n) = (2 ^ Z.of_nat n - 1 - uval (vec m p n))%Z.
Proof.
  intros m m' p q n. revert p q. induction n as [|n IH]; intros p q C V.
  - split; [constructor|reflexivity].
  - rewrite vec_S in C. inversion C as [|b l Hb Cl]; subst. rewrite !vec_S.
    destruct (IH (S p) (S q) Cl) as (C' & E).
    { intros j Hj. specialize (V (S j) ltac:(lia)). rewrite !Nat.add_succ_r in V. exact V. }
    specialize (V 0 ltac:(lia)). rewrite !Nat.add_0_r in V. split.
    + constructor; [|exact C']. rewrite V. destruct (high (m p)); cbn; auto.
    + cbn [uval]. rewrite E, !vec_length, pow_S, V. destruct Hb as [->| ->]; cbn; lia.
Qed.
