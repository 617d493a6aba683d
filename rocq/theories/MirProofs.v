(* Proofs about the import of vcode into MIR. *)
From Coq Require Import List ZArith Arith Bool Lia.
From Verif Require Import Base JitModel ArithSpec ArithModel ArithProofs ArithRun MirModel.
Import ListNotations.
Local Open Scope Z_scope.

Lemma exec_nodes_app inputs e l m :
  exec_nodes inputs e (l ++ m) = ebind (exec_nodes inputs e l) (fun e => exec_nodes inputs e m).
Proof.
  revert e. induction l as [| o l IH]; intros e; cbn [exec_nodes app ebind]; [reflexivity |].
  destruct (exec_node inputs e o); cbn [ebind]; auto.
Qed.

Lemma machine_holds t v : within (machine (tlow t, thigh t)) v <-> holds t v.
Proof. rewrite within_machine. destruct t. reflexivity. Qed.

Lemma holds_dec t v : holds t v \/ ~ holds t v.
Proof. unfold holds. lia. Qed.

Lemma trapping_inv f t loc a b v :
  holds t a -> holds t b -> i64 (f a b) -> trapping f t loc a b = Val v -> v = f a b.
Proof.
  intros A B D. unfold trapping, checked, holds in *.
  destruct (vtype_repr_signed (vtype_repr t)) eqn:E.
  - apply repr_signed_bits in E. destruct E as (L & H & S). rewrite L, H in *. rewrite S.
    rewrite (strunc_id _ a), (strunc_id _ b) by lia.
    destruct (Z.eqb_spec (strunc (jit_size t) (f a b)) (f a b)) as [Q | Q]; cbn; congruence.
  - apply repr_unsigned_bits in E. destruct E as (L & _ & H & S). rewrite L in *. rewrite S.
    rewrite (utrunc_id _ a), (utrunc_id _ b) by lia.
    destruct (Z.eqb_spec (utrunc (jit_size t) (f a b)) (f a b)) as [Q | Q]; cbn; [| congruence].
    rewrite Q, wrap_i64 by exact D. congruence.
Qed.

Lemma trapping_fails f t loc a b x l :
  holds t a -> holds t b -> i64 (f a b) -> trapping f t loc a b = Err x l -> ~ holds t (f a b).
Proof. intros A B D E H. rewrite (trapping_val f t loc a b) in E by auto. discriminate. Qed.

(* A value of the unit is the integer z. *)
Definition is (me : env) (v : value) (z : Z) : Prop :=
  val me v = Val z /\ match v with Small z => i64 z | Node _ => True end.

Definition node_ok (me : env) (d : node) (v : Z) : Prop :=
  (forall lo hi, nstamp d = Some (lo, hi) -> lo <= v <= hi /\ i64 lo /\ i64 hi) /\
  match nop d with
  | NConst c => v = c /\ i64 c /\ nstamp d <> None
  | NNot a => exists x, is me a x /\ bit x /\ v = b2z (x =? 0)
  | _ => True
  end.

Record minv (inputs : nat -> Z) (u : unit_) (me : env) : Prop := {
  m_run : exec_unit u inputs = Val me;
  m_len : length me = length u;
  m_ok : forall n d v, nth_error u n = Some d -> nth_error me n = Some v -> node_ok me d v
}.

Lemma is_ext me more v z : is me v z -> is (me ++ more) v z.
Proof.
  intros [A B]. split; [| exact B]. destruct v as [s | n]; cbn [val] in *; [exact A |].
  unfold get in *. destruct (nth_error me n) eqn:E; [| discriminate].
  now rewrite (nth_app_some _ _ _ _ E).
Qed.

Lemma node_ok_ext me more d v : node_ok me d v -> node_ok (me ++ more) d v.
Proof.
  intros [A B]. split; [exact A |]. destruct (nop d); auto.
  destruct B as (x & P & Q). exists x. split; [now apply is_ext | exact Q].
Qed.

Lemma is_node me n z : is me (Node n) z <-> nth_error me n = Some z.
Proof.
  unfold is, val, get. destruct (nth_error me n); split; intros H; try discriminate; try split; try now destruct H.
  - destruct H. congruence.
  - congruence.
Qed.

Section Unit.
Variable inputs : nat -> Z.

Definition gives (me : env) (v : Z) (out : unit_ * value) : Prop :=
  exists more, minv inputs (fst out) (me ++ more) /\ is (me ++ more) (snd out) v.

Section At.
Variables (u : unit_) (me : env).
Hypothesis I : minv inputs u me.

Lemma gives_same a v : is me a v -> gives me v (u, a).
Proof. intros A. exists []. rewrite app_nil_r. auto. Qed.

Lemma add_node_gives o t s v :
  exec_node inputs me (Nd o t s) = Val v -> node_ok me (Nd o t s) v -> gives me v (add_node u o t s).
Proof.
  intros E N. exists [v]. cbn [add_node fst snd]. split; [constructor |].
  - unfold exec_unit. rewrite exec_nodes_app. fold (exec_unit u inputs). rewrite (m_run _ _ _ I).
    cbn [ebind exec_nodes]. now rewrite E.
  - rewrite !app_length, (m_len _ _ _ I). reflexivity.
  - intros n d w A B. apply node_ok_ext.
    destruct (Nat.lt_ge_cases n (length u)) as [L | L].
    + rewrite nth_error_app1 in A by exact L.
      rewrite nth_error_app1 in B by (rewrite (m_len _ _ _ I); exact L).
      exact (m_ok _ _ _ I n d w A B).
    + assert (n = length u) as ->.
      { assert (nth_error (u ++ [Nd o t s]) n <> None) by congruence.
        apply nth_error_Some in H. rewrite app_length in H. cbn in H. lia. }
      rewrite nth_app_last in A. rewrite <- (m_len _ _ _ I), nth_app_last in B.
      injection A as <-. injection B as <-. exact N.
  - apply is_node. rewrite <- (m_len _ _ _ I). apply nth_app_last.
Qed.

Lemma add_node_err o t s f loc :
  exec_node inputs me (Nd o t s) = Err f loc -> exec_unit (fst (add_node u o t s)) inputs = Err f loc.
Proof.
  intros E. unfold exec_unit. cbn [add_node fst]. rewrite exec_nodes_app. fold (exec_unit u inputs).
  rewrite (m_run _ _ _ I). cbn [ebind exec_nodes]. now rewrite E.
Qed.

Lemma plain_gives o t v :
  match o with NConst _ | NNot _ => False | _ => True end ->
  exec_node inputs me (Nd o t None) = Val v -> gives me v (add_node u o t None).
Proof.
  intros O E. apply add_node_gives; [exact E |]. split; [discriminate |].
  cbn [nop]. destruct o; auto; contradiction.
Qed.

Lemma const_gives t v : i64 v -> gives me v (mir_const u t v).
Proof.
  intros H. unfold mir_const. destruct (_ && _).
  - apply gives_same. split; [reflexivity | exact H].
  - apply add_node_gives; [reflexivity |]. split; cbn [nstamp nop].
    + intros lo hi E. injection E as <- <-. split; [lia |]. auto.
    + split; [reflexivity |]. split; [exact H | discriminate].
Qed.

Lemma const_is a x c : is me a x -> get_const u a = Some c -> c = x /\ i64 c.
Proof.
  intros A. destruct a as [s | n]; cbn [get_const].
  - destruct A as [A B]. cbn in A. intros E. injection E as <-. injection A as <-. auto.
  - apply is_node in A. destruct (nth_error u n) as [d |] eqn:E; [| discriminate].
    pose proof (m_ok _ _ _ I n d x E A) as [_ N]. destruct d as [o t s]. cbn [nop] in N.
    destruct o; try discriminate. intros Q. injection Q as <-. destruct N as (-> & N & _). auto.
Qed.

Lemma stamp_is a x lo hi : is me a x -> get_stamp u a = Some (lo, hi) -> lo <= x <= hi /\ i64 lo /\ i64 hi.
Proof.
  intros A. destruct a as [s | n]; cbn [get_stamp].
  - destruct A as [A B]. cbn in A. intros E. injection E as <- <-. injection A as <-.
    split; [lia |]. auto.
  - apply is_node in A. destruct (nth_error u n) as [d |] eqn:E; [| discriminate].
    pose proof (m_ok _ _ _ I n d x E A) as [N _]. apply N.
Qed.

Lemma value_eqb_eq a b : value_eqb a b = true -> a = b.
Proof.
  destruct a, b; cbn; try discriminate; intros H; f_equal;
    [now apply Z.eqb_eq | now apply Nat.eqb_eq].
Qed.
Lemma value_eqb_refl a : value_eqb a a = true.
Proof. destruct a; cbn; [apply Z.eqb_refl | apply Nat.eqb_refl]. Qed.

Lemma is_fun a x y : is me a x -> is me a y -> x = y.
Proof. intros [A _] [B _]. congruence. Qed.

Lemma int_stamp_ok lo hi s l h : int_stamp lo hi = Ok s -> s = Some (l, h) -> lo = l /\ hi = h.
Proof. unfold int_stamp. destruct (lo <=? hi); [| discriminate]. intros A B. subst. injection A. auto. Qed.

Lemma is_const_spec c v : is_const c v = true <-> c = Some v.
Proof.
  destruct c as [x |]; cbn; [| split; discriminate]. rewrite Z.eqb_eq. split; congruence.
Qed.

Definition stamp_ok (s : stamp) (v : Z) : Prop :=
  forall lo hi, s = Some (lo, hi) -> lo <= v <= hi /\ i64 lo /\ i64 hi.

(* A node that executes like an operation of two operands. *)
Lemma arith_gives k t l r loc s a b v :
  is me l a -> is me r b -> exec_arith k t loc a b = Val v -> stamp_ok s v ->
  gives me v (add_node u (NArith k l r loc) t s).
Proof.
  intros [A _] [B _] E S. apply add_node_gives.
  - unfold exec_node. cbn [nop ntype]. rewrite A, B. exact E.
  - split; [exact S | exact Logic.I].
Qed.
Lemma arith_err k t l r loc s a b f x :
  is me l a -> is me r b -> exec_arith k t loc a b = Err f x ->
  exec_unit (fst (add_node u (NArith k l r loc) t s)) inputs = Err f x.
Proof.
  intros [A _] [B _] E. apply add_node_err.
  unfold exec_node. cbn [nop ntype]. rewrite A, B. exact E.
Qed.

Lemma stamp_add_ok a b x y s :
  stamp_ok a x -> stamp_ok b y -> i64 (x + y) -> stamp_add a b = Ok s -> stamp_ok s (x + y).
Proof.
  intros A B V E lo hi S. unfold stamp_add in E.
  destruct a as [[al ah] |]; [destruct b as [[bl bh] |] |]; try congruence.
  destruct (int_stamp_ok _ _ _ _ _ E S) as [<- <-].
  destruct (A _ _ eq_refl) as (A1 & A2 & A3). destruct (B _ _ eq_refl) as (B1 & B2 & B3).
  rewrite !sadd_clamp by auto. rewrite <- (clamp_id (x + y)) by exact V.
  split; [split; apply clamp_mono; lia | split; apply clamp_i64].
Qed.
Lemma stamp_sub_ok a b x y s :
  stamp_ok a x -> stamp_ok b y -> i64 (x - y) -> stamp_sub a b = Ok s -> stamp_ok s (x - y).
Proof.
  intros A B V E lo hi S. unfold stamp_sub in E.
  destruct a as [[al ah] |]; [destruct b as [[bl bh] |] |]; try congruence.
  destruct (int_stamp_ok _ _ _ _ _ E S) as [<- <-].
  destruct (A _ _ eq_refl) as (A1 & A2 & A3). destruct (B _ _ eq_refl) as (B1 & B2 & B3).
  rewrite !ssub_clamp by auto. rewrite <- (clamp_id (x - y)) by exact V.
  split; [split; apply clamp_mono; lia | split; apply clamp_i64].
Qed.

Lemma clamp_min a b : Z.min (clamp a) (clamp b) = clamp (Z.min a b).
Proof. unfold clamp. lia. Qed.
Lemma clamp_max a b : Z.max (clamp a) (clamp b) = clamp (Z.max a b).
Proof. unfold clamp, I64_MIN, I64_MAX. lia. Qed.

Lemma stamp_mul_ok a b x y s :
  stamp_ok a x -> stamp_ok b y -> i64 (x * y) -> stamp_mul a b = Ok s -> stamp_ok s (x * y).
Proof.
  intros A B V E lo hi S. unfold stamp_mul in E.
  destruct a as [[al ah] |]; [destruct b as [[bl bh] |] |]; try congruence.
  destruct (int_stamp_ok _ _ _ _ _ E S) as [<- <-].
  destruct (A _ _ eq_refl) as (A1 & A2 & A3). destruct (B _ _ eq_refl) as (B1 & B2 & B3).
  rewrite !smul_clamp by auto. rewrite !clamp_min, !clamp_max.
  rewrite <- (clamp_id (x * y)) by exact V.
  pose proof (corners al ah bl bh x y A1 B1) as [C D].
  split; [split; now apply clamp_mono | split; apply clamp_i64].
Qed.

Lemma rem_quot a b : a - Z.quot a b * b = Z.rem a b.
Proof. pose proof (Z.quot_rem' a b). lia. Qed.

Lemma rem_bounds a b : 0 <= a -> b <> 0 -> 0 <= Z.rem a b < Z.abs b.
Proof.
  intros A B. pose proof (Z.rem_bound_abs a b B). pose proof (Z.rem_nonneg a b B A). lia.
Qed.

Lemma stamp_rem_ok a b x y s :
  stamp_ok a x -> stamp_ok b y -> y <> 0 -> (forall lo hi, b = Some (lo, hi) -> Z.abs y <= hi) ->
  stamp_rem a b = Ok s -> stamp_ok s (Z.rem x y).
Proof.
  intros A B Y H E lo hi S. unfold stamp_rem in E.
  destruct a as [[al ah] |]; [destruct b as [[bl bh] |] |]; try congruence.
  destruct (A _ _ eq_refl) as (A1 & A2 & A3). destruct (B _ _ eq_refl) as (B1 & B2 & B3).
  destruct (Z.leb_spec 0 al); cbn [andb] in E; [| congruence].
  destruct (Z.ltb_spec 0 bh); [| congruence].
  destruct (int_stamp_ok _ _ _ _ _ E S) as [<- <-].
  pose proof (rem_bounds x y ltac:(lia) Y). specialize (H _ _ eq_refl).
  unfold i64, I64_MIN, I64_MAX in *. lia.
Qed.

Lemma b2z_bit b : bit (b2z b).
Proof. destruct b; [right | left]; reflexivity. Qed.
Lemma bit_i64 z : bit z -> i64 z.
Proof. unfold i64, I64_MIN, I64_MAX. intros [-> | ->]; lia. Qed.

Lemma stamp_cmp_ok k a b x y s :
  stamp_ok a x -> stamp_ok b y -> stamp_cmp k a b = Ok s -> stamp_ok s (b2z (cmp_value k x y)).
Proof.
  intros A B E lo hi S. unfold stamp_cmp in E.
  destruct a as [[al ah] |]; [destruct b as [[bl bh] |] |]; try congruence.
  destruct (A _ _ eq_refl) as (A1 & A2 & A3). destruct (B _ _ eq_refl) as (B1 & B2 & B3).
  assert (K : forall v w, int_stamp (b2z v) (b2z v) = Ok s -> w = v ->
              lo <= b2z w <= hi /\ i64 lo /\ i64 hi).
  { intros v w H ->. destruct (int_stamp_ok _ _ _ _ _ H S) as [<- <-].
    split; [lia |]. split; apply bit_i64, b2z_bit. }
  unfold cmp_value. destruct k; cbn [negb] in E;
    repeat match type of E with
           | context[if ?c then _ else _] => destruct c eqn:?; try congruence
           end; apply (K _ _ E); lia.
Qed.

Lemma stamp_union_ok a b x y (c : bool) s :
  stamp_ok a x -> stamp_ok b y ->
  (forall lo hi, (a = None /\ b = Some (lo, hi) \/ a = Some (lo, hi) /\ b = None) ->
   lo <= (if c then x else y) <= hi) ->
  (forall lo hi, a = Some (lo, hi) \/ b = Some (lo, hi) -> i64 lo /\ i64 hi) ->
  stamp_union a b = Ok s -> stamp_ok s (if c then x else y).
Proof.
  intros A B H R E lo hi S. unfold stamp_union in E.
  destruct a as [[al ah] |]; [destruct b as [[bl bh] |] |].
  - destruct (int_stamp_ok _ _ _ _ _ E S) as [<- <-].
    destruct (A _ _ eq_refl) as (A1 & A2 & A3). destruct (B _ _ eq_refl) as (B1 & B2 & B3).
    unfold i64 in *. destruct c; lia.
  - assert (Some (al, ah) = Some (lo, hi)) as Q by congruence. injection Q as -> ->.
    split; [apply H; auto | apply R; auto].
  - assert (b = Some (lo, hi)) as -> by congruence.
    split; [apply H; auto | apply R; auto].
Qed.

Lemma stamp_cast_ok t a x s :
  stamp_ok a x -> (a <> None -> tlow t <= x <= thigh t) -> stamp_cast t a = Ok s -> stamp_ok s x.
Proof.
  intros A H E lo hi S. unfold stamp_cast in E. destruct a as [[al ah] |]; [| congruence].
  destruct (int_stamp_ok _ _ _ _ _ E S) as [<- <-].
  destruct (A _ _ eq_refl) as (A1 & A2 & A3). specialize (H ltac:(discriminate)).
  unfold i64 in *. lia.
Qed.

(* What the builder of an operation of two operands has to do. *)
Definition correct (k : kind) (t : vtype) (loc : nat) (a b : Z) (out : unit_ * value) : Prop :=
  match exec_arith k t loc a b with
  | Val v => gives me v out
  | Err f x => exec_unit (fst out) inputs = Err f x
  | Crash => True
  end.

Lemma node_correct k t l r loc s a b :
  is me l a -> is me r b -> (forall v, exec_arith k t loc a b = Val v -> stamp_ok s v) ->
  correct k t loc a b (add_node u (NArith k l r loc) t s).
Proof.
  intros A B S. unfold correct. destruct (exec_arith k t loc a b) eqn:E; auto.
  - now apply (arith_err k t l r loc s a b).
  - apply (arith_gives k t l r loc s a b); auto.
Qed.

Lemma stamp_of a x : is me a x -> stamp_ok (get_stamp u a) x.
Proof. intros A lo hi. now apply stamp_is. Qed.

Lemma fold_consts_ok f l r a b v :
  is me l a -> is me r b -> fold_consts f (get_const u l) (get_const u r) = Some v ->
  v = f a b /\ i64 v /\ get_const u l <> None /\ get_const u r <> None.
Proof.
  intros A B. unfold fold_consts.
  destruct (get_const u l) as [x |] eqn:L; [| discriminate].
  destruct (get_const u r) as [y |] eqn:R; [| discriminate].
  destruct (const_is _ _ _ A L) as [-> _]. destruct (const_is _ _ _ B R) as [-> _].
  destruct (in_i64 (f a b)) eqn:E; [| discriminate]. intros Q. injection Q as <-.
  apply in_i64_spec in E. repeat split; try apply E; discriminate.
Qed.

Lemma zero_is l a : is me l a -> is_const (get_const u l) 0 = true -> a = 0 /\ get_const u l = Some 0.
Proof. intros A Z. apply is_const_spec in Z. destruct (const_is _ _ _ A Z). auto. Qed.

(* The condition on a sum f a b of kind k to be computed as such if it does not fail. *)
Definition exact (f : Z -> Z -> Z) (k : kind) (t : vtype) (loc : nat) (l r : value) (a b : Z) : Prop :=
  i64 (f a b) /\
  (forall v, exec_arith k t loc a b = Val v -> v = f a b) /\
  (forall e x, exec_arith k t loc a b = Err e x ->
   get_const u l <> Some 0 /\ get_const u r <> Some 0 /\ (get_const u l = None \/ get_const u r = None)).

Lemma add_ok k t l r loc a b out :
  is me l a -> is me r b -> exact Z.add k t loc l r a b ->
  build_add_op u k t l r loc = Ok out -> correct k t loc a b out.
Proof.
  intros A B (V & X & Y) E. unfold build_add_op in E.
  destruct (is_const (get_const u l) 0) eqn:L.
  { destruct (zero_is _ _ A L) as [-> L0]. injection E as <-. unfold correct.
    destruct (exec_arith k t loc 0 b) eqn:Q; auto.
    - destruct (Y _ _ eq_refl) as [N _]. contradiction.
    - rewrite (X _ eq_refl). now apply gives_same. }
  destruct (is_const (get_const u r) 0) eqn:R.
  { destruct (zero_is _ _ B R) as [-> R0]. injection E as <-. unfold correct.
    destruct (exec_arith k t loc a 0) eqn:Q; auto.
    - destruct (Y _ _ eq_refl) as (_ & N & _). contradiction.
    - rewrite (X _ eq_refl), Z.add_0_r. now apply gives_same. }
  destruct (fold_consts Z.add (get_const u l) (get_const u r)) as [v |] eqn:F.
  { destruct (fold_consts_ok _ _ _ _ _ _ A B F) as (-> & I1 & N1 & N2). injection E as <-.
    unfold correct. destruct (exec_arith k t loc a b) eqn:Q; auto.
    - destruct (Y _ _ eq_refl) as (_ & _ & [N | N]); contradiction.
    - rewrite (X _ eq_refl). now apply const_gives. }
  destruct (stamp_add (get_stamp u l) (get_stamp u r)) as [s |] eqn:S; [| discriminate].
  cbn [bind] in E. injection E as <-. apply node_correct; auto.
  intros v Q. rewrite (X _ Q). eapply stamp_add_ok; eauto using stamp_of.
Qed.

Lemma sub_ok k t l r loc a b out :
  is me l a -> is me r b -> exact Z.sub k t loc l r a b -> get_const u l <> Some 0 ->
  (l = r -> forall f x, exec_arith k t loc a b <> Err f x) ->
  build_sub_op u k t l r loc = Ok out -> correct k t loc a b out.
Proof.
  intros A B (V & X & Y) L0 D E. unfold build_sub_op in E.
  destruct (is_const (get_const u l) 0) eqn:L.
  { destruct (zero_is _ _ A L) as [_ L1]. contradiction. }
  destruct (is_const (get_const u r) 0) eqn:R.
  { destruct (zero_is _ _ B R) as [-> R0]. injection E as <-. unfold correct.
    destruct (exec_arith k t loc a 0) eqn:Q; auto.
    - destruct (Y _ _ eq_refl) as (_ & N & _). contradiction.
    - rewrite (X _ eq_refl), Z.sub_0_r. now apply gives_same. }
  destruct (fold_consts Z.sub (get_const u l) (get_const u r)) as [v |] eqn:F.
  { destruct (fold_consts_ok _ _ _ _ _ _ A B F) as (-> & I1 & N1 & N2). injection E as <-.
    unfold correct. destruct (exec_arith k t loc a b) eqn:Q; auto.
    - destruct (Y _ _ eq_refl) as (_ & _ & [N | N]); contradiction.
    - rewrite (X _ eq_refl). now apply const_gives. }
  destruct (value_eqb l r) eqn:W.
  { apply value_eqb_eq in W. subst r. pose proof (is_fun _ _ _ A B) as <-.
    injection E as <-. unfold correct. destruct (exec_arith k t loc a a) eqn:Q; auto.
    - exfalso. now apply (D eq_refl f locus).
    - rewrite (X _ eq_refl), Z.sub_diag. apply const_gives. apply bit_i64. now left. }
  destruct (stamp_sub (get_stamp u l) (get_stamp u r)) as [s |] eqn:S; [| discriminate].
  cbn [bind] in E. injection E as <-. apply node_correct; auto.
  intros v Q. rewrite (X _ Q). eapply stamp_sub_ok; eauto using stamp_of.
Qed.

Lemma mul_ok k t l r loc a b out :
  is me l a -> is me r b -> exact Z.mul k t loc l r a b ->
  build_mul_op u k t l r loc = Ok out -> correct k t loc a b out.
Proof.
  intros A B (V & X & Y) E. unfold build_mul_op in E.
  destruct (is_const (get_const u l) 0) eqn:L.
  { destruct (zero_is _ _ A L) as [-> L0]. injection E as <-. unfold correct.
    destruct (exec_arith k t loc 0 b) eqn:Q; auto.
    - destruct (Y _ _ eq_refl) as [N _]. contradiction.
    - rewrite (X _ eq_refl). now apply gives_same. }
  destruct (is_const (get_const u r) 0) eqn:R.
  { destruct (zero_is _ _ B R) as [-> R0]. injection E as <-. unfold correct.
    destruct (exec_arith k t loc a 0) eqn:Q; auto.
    - destruct (Y _ _ eq_refl) as (_ & N & _). contradiction.
    - rewrite (X _ eq_refl), Z.mul_0_r. now apply gives_same. }
  destruct (fold_consts Z.mul (get_const u l) (get_const u r)) as [v |] eqn:F.
  { destruct (fold_consts_ok _ _ _ _ _ _ A B F) as (-> & I1 & N1 & N2). injection E as <-.
    unfold correct. destruct (exec_arith k t loc a b) eqn:Q; auto.
    - destruct (Y _ _ eq_refl) as (_ & _ & [N | N]); contradiction.
    - rewrite (X _ eq_refl). now apply const_gives. }
  destruct (stamp_mul (get_stamp u l) (get_stamp u r)) as [s |] eqn:S; [| discriminate].
  cbn [bind] in E. injection E as <-. apply node_correct; auto.
  intros v Q. rewrite (X _ Q). eapply stamp_mul_ok; eauto using stamp_of.
Qed.

(* A checked product with the builder of differences. *)
Lemma trap_mul_ok t l r loc a b out :
  is me l a -> is me r b -> get_const u l <> Some 0 -> get_const u r <> Some 0 -> l <> r ->
  get_stamp u l = None \/ get_stamp u r = None ->
  build_trap_mul u t l r loc = Ok out -> correct KTrapMul t loc a b out.
Proof.
  intros A B L0 R0 N S E. unfold build_trap_mul, build_sub_op in E.
  destruct (is_const (get_const u l) 0) eqn:L.
  { destruct (zero_is _ _ A L). contradiction. }
  destruct (is_const (get_const u r) 0) eqn:R.
  { destruct (zero_is _ _ B R). contradiction. }
  assert (C : forall v x, is me v x -> get_stamp u v = None -> get_const u v = None).
  { intros [z | n] x K H; [discriminate |]. apply is_node in K. cbn in H |- *.
    destruct (nth_error u n) as [d |] eqn:Q; [| auto].
    pose proof (m_ok _ _ _ I n d x Q K) as [_ M]. destruct d as [o ty st]. cbn in H, M.
    destruct o; auto. subst st. destruct M as (_ & _ & M). contradiction. }
  destruct (fold_consts Z.sub (get_const u l) (get_const u r)) as [v |] eqn:F.
  { destruct (fold_consts_ok _ _ _ _ _ _ A B F) as (-> & I1 & N1 & N2). injection E as <-.
    exfalso. destruct S as [S | S]; [apply N1 | apply N2]; eauto. }
  destruct (value_eqb l r) eqn:W.
  { apply value_eqb_eq in W. contradiction. }
  assert (stamp_sub (get_stamp u l) (get_stamp u r) = Ok None) as Q.
  { unfold stamp_sub. destruct S as [-> | ->]; [reflexivity |]. now destruct (get_stamp u l) as [[] |]. }
  rewrite Q in E. cbn [bind] in E. injection E as <-. apply node_correct; auto.
  discriminate.
Qed.

Lemma div_ok t l r loc a b out :
  is me l a -> is me r b -> build_div u t l r = Ok out -> correct KDiv t loc a b out.
Proof.
  intros A B E. unfold build_div in E. unfold correct. cbn [exec_arith].
  destruct (div_crash a b) eqn:D; [exact Logic.I |].
  assert (G : (if is_const (get_const u r) 1 then Ok (u, l)
               else do! s <- stamp_div (get_stamp u l) (get_stamp u r); build_arith u KDiv t l r 0 s) = Ok out ->
              gives me (Z.quot a b) out).
  { destruct (is_const (get_const u r) 1) eqn:R.
    - apply is_const_spec in R. destruct (const_is _ _ _ B R) as [<- _].
      intros Q. injection Q as <-. rewrite Z.quot_1_r. now apply gives_same.
    - unfold stamp_div. cbn [bind]. intros Q. injection Q as <-.
      apply (arith_gives KDiv t l r 0 None a b); auto; [| discriminate].
      cbn [exec_arith]. now rewrite D. }
  destruct (get_const u l) as [x |] eqn:L; [destruct (get_const u r) as [y |] eqn:R |]; auto.
  destruct (const_is _ _ _ A L) as [-> _]. destruct (const_is _ _ _ B R) as [-> _].
  destruct (b =? 0) eqn:Z0; [auto |].
  unfold c_int64 in E. destruct (in_i64 (Z.quot a b)) eqn:F; [| discriminate].
  cbn [bind] in E. injection E as <-. apply const_gives. now apply in_i64_spec.
Qed.

Lemma fold_rem_ok l r a b v :
  is me l a -> is me r b -> fold_rem (get_const u l) (get_const u r) = Some v ->
  v = Z.rem a b /\ 0 < a /\ 0 < b /\ i64 v.
Proof.
  intros A B. unfold fold_rem.
  destruct (get_const u l) as [x |] eqn:L; [| discriminate].
  destruct (get_const u r) as [y |] eqn:R; [| discriminate].
  destruct (const_is _ _ _ A L) as [-> _]. destruct (const_is _ _ _ B R) as [-> J].
  destruct (Z.ltb_spec 0 a); [| discriminate]. destruct (Z.ltb_spec 0 b); [| discriminate].
  cbn [andb]. intros Q. injection Q as <-.
  pose proof (rem_bounds a b ltac:(lia) ltac:(lia)). unfold i64, I64_MIN in *.
  repeat split; lia.
Qed.

Lemma div_crash_zero a b : div_crash a b = false -> b <> 0.
Proof. unfold div_crash. intros H ->. discriminate. Qed.

Lemma rem_node_ok t l r a b out :
  is me l a -> is me r b -> div_crash a b = false ->
  (forall lo hi, get_stamp u r = Some (lo, hi) -> Z.abs b <= hi) ->
  (do! s <- stamp_rem (get_stamp u l) (get_stamp u r); build_arith u KRem t l r 0 s) = Ok out ->
  gives me (Z.rem a b) out.
Proof.
  intros A B D H E.
  destruct (stamp_rem (get_stamp u l) (get_stamp u r)) as [s |] eqn:S; [| discriminate].
  cbn [bind] in E. injection E as <-.
  apply (arith_gives KRem t l r 0 s a b); auto.
  - cbn [exec_arith]. now rewrite D, rem_quot.
  - eapply stamp_rem_ok; [apply (stamp_of l); eassumption | apply (stamp_of r); eassumption
      | eapply div_crash_zero; eassumption | exact H | exact S].
Qed.

Lemma rem_ok t l r loc a b out :
  is me l a -> is me r b -> (forall lo hi, get_stamp u r = Some (lo, hi) -> Z.abs b <= hi) ->
  build_rem u t l r = Ok out -> correct KRem t loc a b out.
Proof.
  intros A B H E. unfold build_rem in E. unfold correct. cbn [exec_arith].
  destruct (div_crash a b) eqn:D; [exact Logic.I |]. rewrite rem_quot.
  destruct (fold_rem (get_const u l) (get_const u r)) as [v |] eqn:F.
  - destruct (fold_rem_ok _ _ _ _ _ A B F) as (-> & _ & _ & J). injection E as <-. now apply const_gives.
  - eapply rem_node_ok; eassumption.
Qed.

Lemma mod_nonneg t loc a b : 0 <= a -> 0 <= b -> div_crash a b = false ->
  exec_arith KMod t loc a b = Val (Z.rem a b).
Proof.
  intros A B D. cbn [exec_arith]. rewrite D, rem_quot.
  pose proof (div_crash_zero _ _ D). pose proof (rem_bounds a b A ltac:(lia)).
  destruct (Z.ltb_spec b 0); [lia |]. destruct (Z.ltb_spec (Z.rem a b) 0); [lia |].
  rewrite andb_false_r. reflexivity.
Qed.

Lemma mod_ok t l r loc a b out :
  is me l a -> is me r b -> build_mod u t l r = Ok out -> correct KMod t loc a b out.
Proof.
  intros A B E. unfold build_mod in E.
  assert (P : forall ty, correct KMod ty loc a b (add_node u (NArith KMod l r 0) ty None)).
  { intros ty. pose proof (node_correct KMod ty l r 0 None a b A B ltac:(discriminate)) as N.
    unfold correct in *. cbn [exec_arith] in *. exact N. }
  destruct (div_crash a b) eqn:D.
  { unfold correct. cbn [exec_arith]. now rewrite D. }
  destruct (fold_rem (get_const u l) (get_const u r)) as [v |] eqn:F.
  { destruct (fold_rem_ok _ _ _ _ _ A B F) as (-> & A0 & B0 & J). injection E as <-.
    unfold correct. rewrite mod_nonneg by (auto; lia). now apply const_gives. }
  destruct (get_stamp u l) as [[ll lh] |] eqn:L; [destruct (get_stamp u r) as [[rl rh] |] eqn:R |].
  - pose proof (stamp_is _ _ _ _ A L) as (A1 & _). pose proof (stamp_is _ _ _ _ B R) as (B1 & _).
    destruct (Z.leb_spec 0 ll); [destruct (Z.leb_spec 0 rl) |]; cbn [andb] in E; try (injection E as <-; apply P).
    unfold correct. rewrite mod_nonneg by (auto; lia). eapply (rem_node_ok t l r a b); try eassumption.
    + intros lo hi Q. rewrite R in Q. injection Q as <- <-. lia.
    + rewrite L, R. exact E.
  - injection E as <-. apply P.
  - injection E as <-. apply P.
Qed.

Definition logical (k : kind) : bool :=
  match k with KAnd | KOr | KXor | KXnor | KNand | KNor => true | _ => false end.

Lemma logical_node k t l r loc a b : logical k = true ->
  is me l a -> is me r b -> correct k t loc a b (add_node u (NArith k l r 0) vtype_bool None).
Proof.
  intros K A B. pose proof (node_correct k vtype_bool l r 0 None a b A B ltac:(discriminate)) as N.
  unfold correct in *. destruct k; try discriminate; exact N.
Qed.

Lemma logic_ok k t l r loc a b out :
  logical k = true -> is me l a -> is me r b -> bit a -> bit b ->
  build_kind u k t l r loc = Ok out -> correct k t loc a b out.
Proof.
  intros K A B BA BB E.
  assert (P : build_logical u k l r = Ok out -> correct k t loc a b out).
  { intros Q. injection Q as <-. now apply logical_node. }
  assert (C : forall v ty, bit v -> gives me v (mir_const u ty v)).
  { intros v ty V. now apply const_gives, bit_i64. }
  destruct k; try discriminate; cbn [build_kind] in E;
    unfold build_and, build_or, build_xor, build_xnor, build_nand, build_nor in E;
    destruct (get_const u l) as [x |] eqn:L; destruct (get_const u r) as [y |] eqn:R; auto;
    repeat match goal with
           | L : get_const u l = Some _ |- _ => destruct (const_is _ _ _ A L) as [<- _]; clear L
           | L : get_const u r = Some _ |- _ => destruct (const_is _ _ _ B L) as [<- _]; clear L
           end;
    try (destruct (value_eqb l r) eqn:W;
         [apply value_eqb_eq in W; subst r; pose proof (is_fun _ _ _ A B) as <- | now auto]);
    injection E as <-; unfold correct; cbn [exec_arith];
    destruct BA as [BA | BA]; destruct BB as [BB | BB]; try (rewrite BA in BB; discriminate BB);
    rewrite ?BA, ?BB; cbn -[mir_const]; try (apply C; unfold bit; auto; fail);
    apply gives_same; try rewrite BA in A; try rewrite BB in B; assumption.
Qed.

(* An operation of two operands. *)
Theorem kind_ok k t l r loc a b out :
  is me l a -> is me r b -> fits_arith u k t l r a b ->
  build_kind u k t l r loc = Ok out -> correct k t loc a b out.
Proof.
  intros A B F E.
  assert (W : forall f k' q, (forall v, exec_arith k' t q a b = Val v -> v = wrap (f a b)) ->
    (forall e x, exec_arith k' t q a b <> Err e x) ->
    within int64 (f a b) -> exact f k' t q l r a b).
  { intros f k' q V N H. apply within_i64 in H. split; [exact H |]. split.
    - intros v Q. rewrite (V v Q). now apply wrap_i64.
    - intros e x Q. now apply N in Q. }
  assert (T : forall f k', exec_arith k' t loc a b = trapping f t loc a b ->
    within int64 (f a b) ->
    within (machine (tlow t, thigh t)) a /\ within (machine (tlow t, thigh t)) b /\
    (~ within (machine (tlow t, thigh t)) (f a b) ->
     get_const u l <> Some 0 /\ get_const u r <> Some 0 /\
     (get_const u l = None \/ get_const u r = None)) -> exact f k' t loc l r a b).
  { intros f k' Q H (HA & HB & HC). apply within_i64 in H. rewrite machine_holds in HA, HB, HC.
    split; [exact H |]. split.
    - intros v V. rewrite Q in V. eapply trapping_inv; eassumption.
    - intros e x V. rewrite Q in V. apply HC. eapply trapping_fails; eassumption. }
  destruct k; cbn [build_kind fits_arith] in E, F;
    try solve [destruct F; eapply logic_ok; eauto].
  - enough (correct KAdd t 0 a b out) by assumption. eapply add_ok; eauto. apply W; auto.
    + cbn. congruence.
    + cbn. discriminate.
  - destruct F as [F G]. enough (correct KSub t 0 a b out) by assumption. eapply sub_ok; eauto.
    + apply W; auto.
      * cbn. congruence.
      * cbn. discriminate.
    + cbn. discriminate.
  - enough (correct KMul t 0 a b out) by assumption. eapply mul_ok; eauto. apply W; auto.
    + cbn. congruence.
    + cbn. discriminate.
  - destruct F as [F G]. eapply add_ok; eauto.
  - destruct F as (F & G & H). eapply sub_ok; eauto.
    intros <- f x Q. pose proof (is_fun _ _ _ A B) as <-. cbn in Q.
    destruct G as (G & _). apply machine_holds in G. apply within_i64 in F.
    eapply (trapping_fails Z.sub t loc a a); eauto.
    rewrite Z.sub_diag. unfold holds. apply repr_zero.
  - destruct F as (F1 & F2 & F3 & F4). eapply trap_mul_ok; eauto.
  - eapply div_ok; eauto.
  - eapply mod_ok; eauto.
  - eapply rem_ok; eauto.
Qed.

Lemma neg_ok t a x out : is me a x -> build_neg u t a = Ok out -> gives me (wrap (- x)) out.
Proof.
  intros A E. unfold build_neg in E. destruct (get_const u a) as [v |] eqn:C.
  - destruct (const_is _ _ _ A C) as [-> _]. unfold c_int64 in E.
    destruct (in_i64 (- x)) eqn:F; [| discriminate]. apply in_i64_spec in F.
    cbn [bind] in E. injection E as <-. rewrite wrap_i64 by exact F. now apply const_gives.
  - injection E as <-. apply plain_gives; [exact Logic.I |].
    unfold exec_node. cbn [nop]. destruct A as [-> _]. reflexivity.
Qed.

Lemma size_min_neg t : size_min (jit_size t) < 0.
Proof. unfold jit_size. destruct (vtype_repr t); reflexivity. Qed.

Lemma trap_neg_ok t a x loc out : is me a x -> build_trap_neg u t a loc = Ok out ->
  if size_min (jit_size t) <? x then gives me (wrap (- x)) out
  else exec_unit (fst out) inputs = Err Overflow loc.
Proof.
  intros A E. unfold build_trap_neg in E.
  assert (P : Ok (add_node u (NTrapNeg a loc) t None) = Ok out ->
    if size_min (jit_size t) <? x then gives me (wrap (- x)) out
    else exec_unit (fst out) inputs = Err Overflow loc).
  { intros Q. injection Q as <-. destruct (size_min (jit_size t) <? x) eqn:S.
    - apply plain_gives; [exact Logic.I |]. unfold exec_node. cbn [nop ntype]. destruct A as [-> _].
      cbn [ebind]. now rewrite S.
    - apply add_node_err. unfold exec_node. cbn [nop ntype]. destruct A as [-> _].
      cbn [ebind]. now rewrite S. }
  destruct (get_const u a) as [v |] eqn:C; [| exact (P E)].
  destruct (const_is _ _ _ A C) as [-> _]. destruct (Z.leb_spec 0 x); [| exact (P E)].
  pose proof (size_min_neg t). destruct (Z.ltb_spec (size_min (jit_size t)) x); [| lia].
  unfold c_int64 in E. destruct (in_i64 (- x)) eqn:F; [| discriminate]. apply in_i64_spec in F.
  cbn [bind] in E. injection E as <-. rewrite wrap_i64 by exact F. now apply const_gives.
Qed.

Lemma abs_ok t a x out : is me a x -> build_abs u t a = Ok out ->
  gives me (if x <? 0 then wrap (- x) else x) out.
Proof.
  intros A E. unfold build_abs in E. destruct (get_const u a) as [v |] eqn:C.
  - destruct (const_is _ _ _ A C) as [-> _]. unfold c_int64 in E.
    destruct (in_i64 (Z.abs x)) eqn:F; [| discriminate]. apply in_i64_spec in F.
    cbn [bind] in E. injection E as <-.
    destruct (Z.ltb_spec x 0).
    + rewrite Z.abs_neq in * by lia. rewrite wrap_i64 by exact F. now apply const_gives.
    + rewrite Z.abs_eq in * by lia. now apply const_gives.
  - injection E as <-. apply plain_gives; [exact Logic.I |].
    unfold exec_node. cbn [nop]. destruct A as [-> _]. reflexivity.
Qed.

Lemma not_ok a x out : is me a x -> bit x -> build_not u a = Ok out -> gives me (b2z (x =? 0)) out.
Proof.
  intros A X E. unfold build_not in E. destruct (get_const u a) as [v |] eqn:C.
  - destruct (const_is _ _ _ A C) as [-> _]. injection E as <-.
    unfold truth. rewrite negb_involutive. apply const_gives, bit_i64, b2z_bit.
  - assert (P : Ok (add_node u (NNot a) vtype_bool None) = Ok out -> gives me (b2z (x =? 0)) out).
    { intros Q. injection Q as <-. apply add_node_gives.
      - unfold exec_node. cbn [nop]. destruct A as [-> _]. reflexivity.
      - split; [discriminate |]. cbn [nop]. eauto. }
    destruct a as [z | n]; [auto |].
    pose proof A as A'. apply is_node in A'.
    destruct (nth_error u n) as [d |] eqn:D; [| auto].
    pose proof (m_ok _ _ _ I n d x D A') as [_ M]. destruct d as [o t s]. cbn [nop] in M.
    destruct o; auto. injection E as <-. destruct M as (y & Y & BY & ->).
    apply gives_same. destruct BY as [-> | ->]; exact Y.
Qed.

Lemma cmp_ok k l r a b out : is me l a -> is me r b -> build_cmp u k l r = Ok out ->
  gives me (b2z (cmp_value k a b)) out.
Proof.
  intros A B E. unfold build_cmp in E.
  assert (P : (do! s <- stamp_cmp k (get_stamp u l) (get_stamp u r);
    match stamp_const s with
    | Some v => Ok (mir_const u vtype_bool v)
    | None => Ok (add_node u (NCmp k l r) vtype_bool s)
    end) = Ok out -> gives me (b2z (cmp_value k a b)) out).
  { destruct (stamp_cmp k (get_stamp u l) (get_stamp u r)) as [s |] eqn:S; [| discriminate].
    cbn [bind]. pose proof (stamp_cmp_ok _ _ _ _ _ _ (stamp_of _ _ A) (stamp_of _ _ B) S) as K.
    destruct (stamp_const s) as [v |] eqn:V; intros Q; injection Q as <-.
    - unfold stamp_const in V. destruct s as [[lo hi] |]; [| discriminate].
      destruct (Z.eqb_spec lo hi); [| discriminate]. injection V as <-. subst hi.
      destruct (K _ _ eq_refl) as (K1 & K2 & _).
      replace (b2z (cmp_value k a b)) with lo by lia. now apply const_gives.
    - apply add_node_gives.
      + unfold exec_node. cbn [nop]. destruct A as [-> _]. destruct B as [-> _]. reflexivity.
      + split; [exact K | exact Logic.I]. }
  destruct (get_const u l) as [x |] eqn:L; [destruct (get_const u r) as [y |] eqn:R |]; auto.
  destruct (const_is _ _ _ A L) as [-> _]. destruct (const_is _ _ _ B R) as [-> _].
  injection E as <-. apply const_gives, bit_i64, b2z_bit.
Qed.

Lemma select_ok ty t a b z x y out :
  is me t z -> is me a x -> is me b y ->
  (forall lo hi, (get_stamp u a = None /\ get_stamp u b = Some (lo, hi) \/
                  get_stamp u a = Some (lo, hi) /\ get_stamp u b = None) ->
   lo <= (if truth z then x else y) <= hi) ->
  build_select u ty t a b = Ok out -> gives me (if truth z then x else y) out.
Proof.
  intros T A B H E. unfold build_select in E. destruct (get_const u t) as [v |] eqn:C.
  { destruct (const_is _ _ _ T C) as [-> _]. injection E as <-. apply gives_same.
    now destruct (truth z). }
  destruct (value_eqb a b) eqn:W.
  { apply value_eqb_eq in W. subst b. pose proof (is_fun _ _ _ A B) as <-.
    injection E as <-. apply gives_same. now destruct (truth z). }
  destruct (stamp_union (get_stamp u a) (get_stamp u b)) as [s |] eqn:S; [| discriminate].
  cbn [bind] in E. injection E as <-. apply add_node_gives.
  - unfold exec_node. cbn [nop]. destruct T as [-> _]. destruct A as [-> _]. destruct B as [-> _]. reflexivity.
  - split; [| exact Logic.I]. cbn [nstamp].
    eapply stamp_union_ok; [apply (stamp_of a); eassumption | apply (stamp_of b); eassumption
      | exact H | | exact S].
    intros lo hi [Q | Q]; [apply (stamp_is _ _ _ _ A Q) | apply (stamp_is _ _ _ _ B Q)].
Qed.

Lemma cast_ok t a x out :
  is me a x -> (get_stamp u a <> None -> tlow t <= x <= thigh t) ->
  build_cast u t a = Ok out -> gives me x out.
Proof.
  intros A H E. unfold build_cast in E.
  destruct (match get_type u a with Some f => vtype_eqb f t | None => false end).
  { injection E as <-. now apply gives_same. }
  destruct (get_const u a) as [v |] eqn:C.
  { destruct (const_is _ _ _ A C) as [-> J]. injection E as <-. now apply const_gives. }
  destruct (stamp_cast t (get_stamp u a)) as [s |] eqn:S; [| discriminate].
  cbn [bind] in E. injection E as <-. apply add_node_gives.
  - unfold exec_node. cbn [nop]. destruct A as [-> _]. reflexivity.
  - split; [| exact Logic.I]. cbn [nstamp]. eapply stamp_cast_ok; eauto using stamp_of.
Qed.

End At.

(* ---- import ---- *)

Definition maps (me : env) (m : list value) (e : env) : Prop := Forall2 (is me) m e.

Lemma maps_ext me more m e : maps me m e -> maps (me ++ more) m e.
Proof. intros M. induction M; constructor; auto. now apply is_ext. Qed.

Lemma maps_get me m e r v x : maps me m e -> mapped m r = Ok v -> get e r = Val x -> is me v x.
Proof.
  intros M. unfold mapped, get. revert r. induction M as [| a b m e H M IH]; intros [| r]; cbn;
    try discriminate.
  - intros P Q. injection P as <-. injection Q as <-. exact H.
  - exact (IH r).
Qed.

Lemma maps_total me m e r v : maps me m e -> mapped m r = Ok v -> exists x, get e r = Val x.
Proof.
  intros M. unfold mapped, get. revert r. induction M as [| a b m e H M IH]; intros [| r]; cbn;
    try discriminate; [eauto | exact (IH r)].
Qed.

Lemma mapped_nth m r v : mapped m r = Ok v -> nth_error m r = Some v.
Proof. unfold mapped. destruct (nth_error m r); congruence. Qed.
Lemma get_nth e r v : get e r = Val v -> nth_error e r = Some v.
Proof. unfold get. destruct (nth_error e r); congruence. Qed.

Lemma gives_maps me m e v out : maps me m e -> gives me v out ->
  exists me', minv inputs (fst out) me' /\ maps me' (m ++ [snd out]) (e ++ [v]).
Proof.
  intros M (more & J & S). exists (me ++ more). split; [exact J |].
  apply Forall2_app; [now apply maps_ext | auto].
Qed.

Definition same (x : eff env) (out : unit_ * list value) : Prop :=
  match x with
  | Val e => exists me, minv inputs (fst out) me /\ maps me (snd out) e
  | Err f loc => exec_unit (fst out) inputs = Err f loc
  | Crash => True
  end.

Ltac operands :=
  repeat match goal with
         | E : context[mapped ?m ?r] |- _ =>
           let v := fresh "v" in let Q := fresh "Q" in
           destruct (mapped m r) as [v |] eqn:Q; cbn [bind] in E; [| discriminate E];
           let x := fresh "x" in let G := fresh "G" in
           destruct (maps_total _ _ _ _ _ ltac:(eassumption) Q) as [x G];
           rewrite G; cbn [ebind];
           pose proof (maps_get _ _ _ _ _ _ ltac:(eassumption) Q G);
           pose proof (mapped_nth _ _ _ Q); pose proof (get_nth _ _ _ G)
         end.

Lemma op_ok rt u me m e o out :
  minv inputs u me -> maps me m e -> fits_op u m e o ->
  import_op rt u m o = Ok out -> same (exec_op inputs e o) out.
Proof.
  intros J M F E.
  assert (K : forall (x : res (unit_ * value)) v,
    (do! (u, v) <- x; Ok (u, m ++ [v])) = Ok out ->
    (forall o1, x = Ok o1 -> gives me v o1) -> same (Val (e ++ [v])) out).
  { intros x v Q G. destruct x as [[u1 v1] |]; [| discriminate]. cbn [bind] in Q.
    injection Q as <-. apply (gives_maps me m e v (u1, v1) M). now apply G. }
  destruct o; cbn [import_op exec_op fits_op] in *; operands.
  - eapply K; [exact E |]. intros o1 Q. injection Q as <-.
    apply plain_gives; [exact J | exact Logic.I | reflexivity].
  - eapply K; [exact E |]. intros o1 Q. injection Q as <-.
    apply const_gives; [exact J | now apply within_i64].
  - assert (G' : forall o1, build_kind u k t v v0 locus = Ok o1 -> correct me k t locus x x0 o1).
    { intros o1 Q'. eapply kind_ok; eauto. }
    unfold correct in G'. destruct (exec_arith k t locus x x0) as [| f loc | w]; cbn [ebind]; [exact Logic.I | |].
    + destruct (build_kind u k t v v0 locus) as [[u1 v1] |] eqn:Q'; [| discriminate].
      cbn [bind] in E. injection E as <-. exact (G' _ eq_refl).
    + eapply K; [exact E | exact G'].
  - eapply K; [exact E |]. intros o1 Q'. eapply neg_ok; eauto.
  - destruct (build_trap_neg u t v locus) as [o1 |] eqn:Q'; [| discriminate].
    pose proof (trap_neg_ok u me J t v x locus o1 ltac:(assumption) Q') as G'.
    destruct (size_min (jit_size t) <? x).
    + eapply K; [exact E |]. intros o2 Q2. injection Q2 as <-. exact G'.
    + destruct o1 as [u1 v1]. cbn [bind] in E. injection E as <-. exact G'.
  - eapply K; [exact E |]. intros o1 Q'. eapply abs_ok; eauto.
  - eapply K; [exact E |]. intros o1 Q'. eapply not_ok; eauto.
  - eapply K; [exact E |]. intros o1 Q'. eapply cmp_ok; eauto.
  - eapply K; [exact E |]. intros o1 Q'. eapply select_ok; eauto.
  - eapply K; [exact E |]. intros o1 Q'. eapply cast_ok; eauto.
  - injection E as <-. unfold build_zero_check.
    assert (P : same (if x =? 0 then Err DivZero locus else Val e)
                  (fst (add_node u (NZeroCheck v locus) vtype_bool None), m)).
    { destruct (x =? 0) eqn:Z0.
      - apply (add_node_err u me J). unfold exec_node. cbn [nop]. destruct H as [-> _]. cbn [ebind]. now rewrite Z0.
      - destruct (plain_gives u me J (NZeroCheck v locus) vtype_bool 0 Logic.I) as (more & J' & _).
        + unfold exec_node. cbn [nop]. destruct H as [-> _]. cbn [ebind]. now rewrite Z0.
        + exists (me ++ more). split; [exact J' | now apply maps_ext]. }
    destruct (get_const u v) as [c |] eqn:C; [| exact P].
    destruct (const_is u me J _ _ _ H C) as [-> _]. destruct (x =? 0) eqn:Z0; [exact P |].
    exists me. auto.
  - injection E as <-. unfold build_range_check.
    set (low := if x2 =? RANGE_DOWNTO then x1 else x0). set (high := if x2 =? RANGE_DOWNTO then x0 else x1).
    cbv zeta. fold low high.
    assert (X : exec_node inputs me (Nd (NRangeCheck v v0 v1 v2 locus) vtype_bool None) =
                if (low <=? x) && (x <=? high) then Val 0 else Err OutOfRange locus).
    { unfold exec_node. cbn [nop].
      rewrite (proj1 H), (proj1 H2), (proj1 H5), (proj1 H8). reflexivity. }
    destruct ((low <=? x) && (x <=? high)).
    + destruct (plain_gives u me J (NRangeCheck v v0 v1 v2 locus) vtype_bool 0 Logic.I X) as (more & J' & _).
      exists (me ++ more). split; [exact J' | now apply maps_ext].
    + now apply (add_node_err u me J).
Qed.

(* The import only adds nodes. *)
Definition adds (u u' : unit_) : Prop := exists more, u' = u ++ more.
Lemma adds_refl u : adds u u.
Proof. exists []. now rewrite app_nil_r. Qed.
Lemma adds_node u o t s : adds u (fst (add_node u o t s)).
Proof. now exists [Nd o t s]. Qed.
Lemma adds_const u t v : adds u (fst (mir_const u t v)).
Proof. unfold mir_const. destruct (_ && _); [apply adds_refl | apply adds_node]. Qed.

Ltac adding :=
  repeat match goal with
         | H : Fault = Ok _ |- _ => discriminate H
         | H : Ok _ = Ok _ |- _ => injection H as <-
         | H : (if ?c then _ else _) = Ok _ |- _ => destruct c
         | H : match ?c with _ => _ end = Ok _ |- _ => destruct c; cbn [bind] in H
         | H : bind ?c _ = Ok _ |- _ => destruct c; cbn [bind] in H
         | |- adds _ (fst (if ?c then _ else _)) => destruct c
         end; try apply adds_refl; try apply adds_node; try apply adds_const.

Lemma adds_sub u k t l r loc out : build_sub_op u k t l r loc = Ok out -> adds u (fst out).
Proof. unfold build_sub_op, build_arith. intros E. adding. Qed.

Lemma adds_kind u k t l r loc out : build_kind u k t l r loc = Ok out -> adds u (fst out).
Proof.
  intros E. destruct k; cbn [build_kind] in E; unfold build_trap_mul in E; try (eapply adds_sub; exact E);
    unfold build_add_op, build_mul_op, build_div, build_mod, build_rem, build_and, build_or, build_xor,
      build_xnor, build_nand, build_nor, build_logical, build_arith in E; adding.
Qed.

Lemma adds_op rt u m o out : import_op rt u m o = Ok out -> adds u (fst out).
Proof.
  intros E.
  assert (K : forall (x : res (unit_ * value)),
    (do! (u, v) <- x; Ok (u, m ++ [v])) = Ok out ->
    (forall o1, x = Ok o1 -> adds u (fst o1)) -> adds u (fst out)).
  { intros x Q G. destruct x as [[u1 v1] |]; [| discriminate]. cbn [bind] in Q.
    injection Q as <-. exact (G _ eq_refl). }
  destruct o; cbn [import_op] in E;
    repeat match type of E with
           | bind (mapped _ _) _ = _ => destruct (mapped _ _); cbn [bind] in E; [| discriminate]
           end;
    try (apply K in E; [exact E |]; intros o1 Q);
    try (eapply adds_kind; exact Q);
    try (unfold build_neg, build_trap_neg, build_abs, build_not, build_cmp, build_select, build_cast in Q; adding).
  - injection E as <-. unfold build_zero_check. cbn [fst].
    destruct (get_const u _) as [z |]; [destruct (z =? 0) |]; try apply adds_node; apply adds_refl.
  - injection E as <-. apply adds_node.
Qed.

Lemma adds_ops rt l u m out : import_ops rt u m l = Ok out -> adds u (fst out).
Proof.
  revert u m. induction l as [| o l IH]; intros u m E; cbn [import_ops] in E.
  - injection E as <-. apply adds_refl.
  - destruct (import_op rt u m o) as [[u1 m1] |] eqn:Q; [| discriminate]. cbn [bind] in E.
    apply adds_op in Q. apply IH in E. destruct Q as [a Q], E as [b E]. cbn [fst] in Q. subst u1.
    exists (a ++ b). now rewrite app_assoc.
Qed.

Theorem ops_ok rt l u me m e out :
  minv inputs u me -> maps me m e -> fits_ops rt inputs u m e l ->
  import_ops rt u m l = Ok out -> same (exec_ops inputs e l) out.
Proof.
  revert u me m e. induction l as [| o l IH]; intros u me m e J M F E; cbn [import_ops exec_ops fits_ops] in *.
  - injection E as <-. exists me. auto.
  - destruct F as [F G]. destruct (import_op rt u m o) as [[u1 m1] |] eqn:Q; [| discriminate]. cbn [bind] in E.
    pose proof (op_ok _ _ _ _ _ _ _ J M F Q) as S.
    destruct (exec_op inputs e o) as [| f loc | e1]; cbn [ebind].
    + exact Logic.I.
    + cbn [same fst] in S |- *. apply adds_ops in E. destruct E as [more ->].
      unfold exec_unit. rewrite exec_nodes_app. fold (exec_unit u1 inputs). now rewrite S.
    + destruct S as (me1 & J1 & M1). cbn [fst snd] in *. eapply IH; eassumption.
Qed.

Lemma minv_empty : minv inputs [] [].
Proof. constructor; auto. intros [| n]; discriminate. Qed.

Theorem import_ok c out :
  import c = Ok out -> fits c inputs -> same (exec_code c inputs) out.
Proof. intros E F. eapply ops_ok; [apply minv_empty | constructor | exact F | exact E]. Qed.

End Unit.
