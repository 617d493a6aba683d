(* The operators of the Synopsys packages. *)
From Coq Require Import List ZArith NArith Arith Bool Lia.
From Verif Require Import Base IntrinModel IntrinSpec IntrinAddProofs IntrinProofs IntrinOpProofs IntrinMulProofs IntrinLogicModel IntrinLogicProofs SynopsysModel SynopsysSpec.
Import ListNotations.

Lemma is_x_meta : forall b, std_ulogic b -> is_x b = meta b.
Proof. intros b H. destruct (std_cases b H) as [->|[->|[->|[->|[->|[->|[->|[->| ->]]]]]]]]; reflexivity. Qed.
Lemma binary_at : forall b, std_ulogic b -> meta b = false -> nth (N.to_nat b) tbl_BINARY 0%N = bit01 (high b).
Proof. intros b H. destruct (std_cases b H) as [->|[->|[->|[->|[->|[->|[->|[->| ->]]]]]]]]; try reflexivity; discriminate. Qed.

Lemma make_binary_ok : forall n m p q i size m' w, make_binary m p q i n size = (m', w) -> i + n = size ->
  p + size <= q -> (forall j, j < size -> std_ulogic (m (p + j))) ->
  w = existsb meta (vec m (p + i) n) /\ outside m m' q size /\
  (w = true -> forall j, j < size -> m' (q + j) = sl_X) /\
  (w = false -> forall j, i <= j < size -> m' (q + j) = bit01 (high (m (p + j)))) /\
  (w = false -> forall j, j < i -> m' (q + j) = m (q + j)).
Proof.
  induction n as [|n IH]; intros m p q i size m' w E Hi Hq HS; cbn [make_binary] in E.
  - injection E as <- <-. repeat split; try discriminate; intros; lia.
  - rewrite vec_S. cbn [existsb]. pose proof (HS i ltac:(lia)) as Si. rewrite is_x_meta in E by exact Si.
    destruct (meta (m (p + i))) eqn:M; cbn [orb].
    + injection E as <- <-. split; [reflexivity|]. split; [intros a Ha; apply memset_off; lia|].
      split; [intros _ j Hj; apply memset_at; lia|]. split; discriminate.
    + rewrite binary_at in E by assumption. set (m1 := put m (q + i) (bit01 (high (m (p + i))))) in *.
      assert (K : forall j, j < size -> m1 (p + j) = m (p + j)) by (intros j Hj; unfold m1; apply put_off; lia).
      destruct (IH _ _ _ _ _ _ _ E) as (W & O & T & F & G); [lia|lia|intros j Hj; rewrite K by lia; apply HS; lia|].
      assert (EV : vec m1 (p + S i) n = vec m (S (p + i)) n).
      { apply vec_ext. intros j Hj. replace (p + S i + j) with (p + (S i + j)) by lia. rewrite K by lia. f_equal. lia. }
      rewrite EV in W. split; [exact W|]. split; [intros a Ha; rewrite O by lia; unfold m1; apply put_off; lia|].
      split; [exact T|]. split; intros Hw j Hj.
      * destruct (Nat.eq_dec j i) as [->|NE].
        -- rewrite G by (assumption || lia). unfold m1. apply put_at.
        -- rewrite F by (assumption || lia). rewrite K by lia. reflexivity.
      * rewrite G by (assumption || lia). unfold m1. apply put_off. lia.
Qed.

(* The vector the conversions make. *)
Definition cv (g : bool) (n : nat) (l : list N) : list N :=
  if existsb meta l then repeat the_X n
  else repeat (if g then hd 2%N l else 2%N) (n - length l) ++ map (fun b => bit01 (high b)) l.
Definition warn_if (b : bool) (s : st) : st := if b then ieee_warn s else s.

Lemma step_warn : forall b s s', step s s' -> step (warn_if b s) (warn_if b s').
Proof. intros [] s s' [A W X M]; split; cbn; try assumption. now rewrite W. Qed.
Lemma holds_warn : forall b s p n l, holds (warn_if b s) p n l <-> holds s p n l.
Proof. intros [] s p n l; reflexivity. Qed.

Lemma conv_ok : forall g s p k n l q s', holds s p k l -> Forall std_ulogic l -> 0 < k <= n ->
  conv g s p k n = (q, s') ->
  step (warn_if (existsb meta l) s) s' /\ holds s' q n (cv g n l) /\ (q + n <= nx s \/ nx s <= q).
Proof.
  intros g s p k n l q s' H F K E. pose proof (holds_length _ _ _ _ H) as Ll. destruct H as (B & V). unfold conv in E.
  destruct ((k =? n) && all_01 (mm s) p k) eqn:Q.
  - apply andb_true_iff in Q. destruct Q as (Q1 & Q2). apply Nat.eqb_eq in Q1. subst k. rewrite all_01_ok, V in Q2 by (rewrite V; exact F).
    apply is01_clean in Q2. injection E as <- <-. unfold cv. rewrite (clean_meta _ Q2). split; [apply step_refl|]. split; [|left; exact B].
    split; [exact B|]. rewrite Ll, Nat.sub_diag. cbn [repeat app]. rewrite map01_id by exact Q2. exact V.
  - clear Q. destruct (tlab_alloc s (Nat.max k n) 8) as [res s0] eqn:EA. destruct (alloc_ok _ _ _ _ EA) as (P & A & Bd & M).
    replace (Nat.max k n) with n in Bd by lia.
    rewrite M in E. destruct (make_binary (mm s) p (res + (n - k)) 0 k k) as [m w] eqn:EM.
    destruct (make_binary_ok _ _ _ _ _ _ _ _ EM) as (W & O & T & Fa & _); [lia|lia| |].
    { intros j Hj. apply (vec_std (mm s) p k); [rewrite V; exact F|exact Hj]. }
    rewrite Nat.add_0_r, V in W. subst w. cbv zeta in E.
    assert (St : forall m', (forall a, a < nx s -> m' a = mm s a) ->
      step (warn_if (existsb meta l) s) (set_mm (set_mm (if existsb meta l then ieee_warn s0 else s0) m) m')).
    { intros m' Hm. apply set_mm_step; [apply set_mm_step; [apply (step_warn _ _ _ P)|]|].
      - intros a Ha. rewrite O by (destruct (existsb meta l); cbn in *; lia). destruct (existsb meta l); reflexivity.
      - intros a Ha. rewrite Hm by (destruct (existsb meta l); cbn in *; lia). destruct (existsb meta l); reflexivity. }
    assert (NX : nx s0 <= nx (set_mm (set_mm (if existsb meta l then ieee_warn s0 else s0) m) m)) by (destruct (existsb meta l); cbn; lia).
    assert (Old : forall a, a < nx s -> m a = mm s a) by (intros a Ha; apply O; lia).
    unfold cv. destruct (existsb meta l) eqn:ML.
    + assert (EX : m (res + (n - k)) = sl_X) by (specialize (T eq_refl 0 ltac:(lia)); rewrite Nat.add_0_r in T; exact T).
      rewrite EX in E. cbn [N.eqb sl_X Pos.eqb] in E. injection E as <- <-. split; [|split].
      * apply St. intros a Ha. rewrite memset_off by lia. apply Old. exact Ha.
      * split; [cbn; lia|]. cbn. apply vec_repeat. intros i Hi. apply memset_at. lia.
      * right. exact A.
    + assert (EX : m (res + (n - k)) = bit01 (high (mm s p))) by (specialize (Fa eq_refl 0 ltac:(lia)); rewrite !Nat.add_0_r in Fa; exact Fa).
      assert (NX' : N.eqb (m (res + (n - k))) sl_X = false) by (rewrite EX; destruct (high (mm s p)); reflexivity).
      rewrite NX' in E. injection E as <- <-. set (x := if g then m p else sl_0). split; [|split].
      * apply St. intros a Ha. rewrite memset_off by lia. apply Old. exact Ha.
      * split; [cbn; lia|]. cbn [set_mm mm]. replace n with ((n - k) + k) at 2 by lia. rewrite vec_app, Ll. f_equal.
        -- apply vec_repeat. intros i Hi. rewrite memset_at by lia. unfold x. destruct g; [|reflexivity].
           rewrite Old by lia. destruct k as [|k]; [lia|]. rewrite vec_S in V. subst l. reflexivity.
        -- rewrite <- V. apply vec_map. intros i Hi. rewrite memset_off by lia. apply Fa; [reflexivity|lia].
      * right. exact A.
Qed.

Lemma cv_length : forall g n l, length l <= n -> length (cv g n l) = n.
Proof. intros g n l H. unfold cv. destruct (existsb meta l); [apply repeat_length|]. rewrite app_length, repeat_length, map_length. lia. Qed.

(* Without metavalues: odd elements count. *)
Definition known (l : list N) : Prop := Forall (fun b => b = 2%N \/ b = 3%N \/ b = 6%N \/ b = 7%N) l.
Lemma known_of : forall l, Forall std_ulogic l -> existsb meta l = false -> known l.
Proof.
  intros l F M. apply Forall_forall. intros b Hb. rewrite Forall_forall in F. specialize (F b Hb).
  assert (Mb : meta b = false) by (destruct (meta b) eqn:E; [|reflexivity]; rewrite <- M; symmetry; apply existsb_exists; exists b; tauto).
  destruct (std_cases b F) as [->|[->|[->|[->|[->|[->|[->|[->| ->]]]]]]]]; try discriminate; tauto.
Qed.
Lemma clean_known : forall l, clean l -> known l.
Proof. intros l. apply Forall_impl. intros b [->| ->]; cbn; tauto. Qed.
Lemma known_cv : forall g n l, Forall std_ulogic l -> l <> [] -> existsb meta l = false -> known (cv g n l).
Proof.
  intros g n l F NE M. unfold cv. rewrite M. apply Forall_app. split; [|apply clean_known, map01_clean].
  apply Forall_forall. intros b Hb. apply repeat_spec in Hb. subst b. destruct g; [|tauto].
  pose proof (known_of l F M) as K. destruct l as [|b l]; [congruence|]. inversion K. assumption.
Qed.
Lemma lv_known : forall m n p, known (vec m p n) -> Z.of_N (lv m p n) = uval (vec m p n).
Proof.
  intros m n. induction n as [|n IH]; intros p H; [reflexivity|]. rewrite vec_snoc in *. apply Forall_app in H. destruct H as (H1 & H2).
  rewrite uval_app. cbn [lv length uval]. inversion H2 as [|? ? Hb _]; subst.
  assert (E : Z.of_N (m (p + n)%nat mod 2) = weight (m (p + n))) by (destruct Hb as [->|[->|[->| ->]]]; reflexivity).
  rewrite N2Z.inj_add, N2Z.inj_mul, IH, E by exact H1. change (2 ^ Z.of_nat 1)%Z with 2%Z. change (2 ^ Z.of_nat 0)%Z with 1%Z. lia.
Qed.
Lemma known_bytes : forall m p n, known (vec m p n) -> bytes m p n.
Proof.
  intros m p n H i Hi. unfold known in H. rewrite Forall_forall in H. destruct (H (m (p + i))) as [E|[E|[E|E]]]; [apply vec_In; exists i; tauto|..]; rewrite E; reflexivity.
Qed.
Lemma add_known : forall m l r n c res, (c <= 1)%N -> same_or_apart l res n -> same_or_apart r res n ->
  known (vec m l n) -> known (vec m r n) ->
  outside m (packed_add m l r n c res) res n /\ clean (vec (packed_add m l r n c res) res n) /\
  uval (vec (packed_add m l r n c res) res n) =
    ((uval (vec m l n) + uval (vec m r n) + Z.of_N c) mod 2 ^ Z.of_nat n)%Z.
Proof.
  intros m l r n c res Hc Sl Sr Cl Cr.
  destruct (packed_add_ok m l r n c res Hc Sl Sr (known_bytes _ _ _ Cl) (known_bytes _ _ _ Cr)) as (O & B).
  split; [exact O|]. pose proof (bits_clean _ _ _ _ B) as C. split; [exact C|].
  rewrite <- (lv_uval _ _ _ C), (lv_bits _ _ _ _ B), N2Z.inj_mod.
  rewrite !N2Z.inj_add, (lv_known _ _ _ Cl), (lv_known _ _ _ Cr), N2Z.inj_pow, nat_N_Z. reflexivity.
Qed.

Lemma cv_val : forall g n l, length l <= n -> l <> [] -> existsb meta l = false -> exists k, uval (cv g n l) = (num g l + k * 2 ^ Z.of_nat n)%Z.
Proof.
  intros g n l H NE M. destruct (rs_val g n l H NE) as (k & E). exists k. rewrite <- E. unfold cv. rewrite M, uval_app, map01_val, map_length.
  destruct g; cbn [rs].
  - destruct l as [|b l]; [congruence|]. cbn [length hd] in *. rewrite resize_s_grow by lia.
    replace (n - length l) with (n - S (length l) + 1) by lia. rewrite repeat_app, <- app_assoc, uval_app. cbn [repeat app length]. reflexivity.
  - rewrite resize_u_grow by exact H. rewrite uval_app. reflexivity.
Qed.
Lemma cv_head : forall g n l, Forall std_ulogic l -> l <> [] -> length l <= n -> (hd 0 (cv g n l) =? sl_X)%N = existsb meta l.
Proof.
  intros g n l F NE H. assert (0 < n) by (destruct l; [congruence|cbn in H; lia]). unfold cv. destruct (existsb meta l) eqn:M.
  - destruct n; [lia|]. reflexivity.
  - destruct l as [|b l]; [congruence|]. pose proof (known_of _ F M) as K. inversion K as [|? ? Hb _]; subst.
    destruct (n - length (b :: l)) as [|j].
    + cbn. destruct (high b); reflexivity.
    + cbn [repeat app hd]. destruct g; [|reflexivity]. destruct Hb as [->|[->|[->| ->]]]; reflexivity.
Qed.
Lemma holds_hd : forall s p n l, holds s p n l -> 0 < n -> mm s p = hd 0%N l.
Proof. intros s p n l (_ & V) H. destruct n; [lia|]. rewrite vec_S in V. subst l. reflexivity. Qed.

(* The two conversions one after the other. *)
Lemma conv_two : forall g s p1 k1 n1 l1 p2 k2 n2 l2 q1 s1 q2 s2,
  holds s p1 k1 l1 -> Forall std_ulogic l1 -> 0 < k1 <= n1 -> holds s p2 k2 l2 -> Forall std_ulogic l2 -> 0 < k2 <= n2 ->
  conv g s p1 k1 n1 = (q1, s1) -> conv g s1 p2 k2 n2 = (q2, s2) ->
  holds s2 q1 n1 (cv g n1 l1) /\ holds s2 q2 n2 (cv g n2 l2) /\ (q1 + n1 <= nx s \/ nx s <= q1) /\ (q2 + n2 <= nx s \/ nx s <= q2 ) /\
  ar s2 = ar s /\ nx s <= nx s2 /\ (forall a, a < nx s -> mm s2 a = mm s a) /\ warns s2 = warned l1 l2 (warns s).
Proof.
  intros g s p1 k1 n1 l1 p2 k2 n2 l2 q1 s1 q2 s2 H1 F1 K1 H2 F2 K2 E1 E2.
  destruct (conv_ok _ _ _ _ _ _ _ _ H1 F1 K1 E1) as (P1 & C1 & D1).
  assert (H2' : holds s1 p2 k2 l2) by (apply (holds_step _ _ _ _ _ P1), holds_warn, H2).
  destruct (conv_ok _ _ _ _ _ _ _ _ H2' F2 K2 E2) as (P2 & C2 & D2).
  assert (N1 : nx s <= nx s1) by (pose proof (st_nx _ _ P1) as X; destruct (existsb meta l1); exact X).
  assert (N2 : nx s1 <= nx s2) by (pose proof (st_nx _ _ P2) as X; destruct (existsb meta l2); exact X).
  split; [apply (holds_step _ _ _ _ _ P2), holds_warn, C1|]. split; [exact C2|]. split; [exact D1|]. split.
  { unfold conv in E2. destruct ((k2 =? n2) && all_01 (mm s1) p2 k2) eqn:Q.
    - apply andb_true_iff in Q. destruct Q as (Q & _). apply Nat.eqb_eq in Q. injection E2 as <- _. left. subst n2. apply H2.
    - destruct (tlab_alloc s1 (Nat.max k2 n2) 8) as [res t] eqn:EA. destruct (alloc_ok _ _ _ _ EA) as (_ & A & _).
      destruct (make_binary (mm t) p2 (res + (n2 - k2)) 0 k2 k2) as [m w]. cbv zeta in E2.
      destruct (N.eqb (m (res + (n2 - k2))) sl_X); injection E2 as <- _; right; lia. }
  split; [rewrite (st_ar _ _ P2); destruct (existsb meta l2); cbn; rewrite (st_ar _ _ P1); destruct (existsb meta l1); reflexivity|].
  split; [lia|]. split.
  - intros a Ha. rewrite (st_mm _ _ P2) by (destruct (existsb meta l2); cbn; lia).
    assert (X : mm (warn_if (existsb meta l2) s1) a = mm s1 a) by (destruct (existsb meta l2); reflexivity). rewrite X.
    rewrite (st_mm _ _ P1) by (destruct (existsb meta l1); cbn; lia). destruct (existsb meta l1); reflexivity.
  - rewrite (st_warns _ _ P2). unfold warned. pose proof (st_warns _ _ P1) as W.
    destruct (existsb meta l1), (existsb meta l2); cbn in *; rewrite W; reflexivity.
Qed.
