(* The state of local value numbering describes the machine. *)
From Coq Require Import List ZArith NArith Arith Bool Lia.
From Verif Require Import Base JitModel JitPassModel JitSpec LvnModel.
Import ListNotations.
Local Open Scope Z_scope.

(* The value an arithmetic instruction computes, and the flag if it sets it. *)
Definition peval (o : opcode) (s : size) (c : ccode) (a b : Z) : option (Z * option bool) :=
  match o with
  | J_ADD => checked Z.add s c a b
  | J_SUB => checked Z.sub s c a b
  | J_MUL => checked Z.mul s c a b
  | J_DIV => if (b =? 0) || ((a =? - M63) && (b =? -1)) then None else Some (Z.quot a b, None)
  | J_SHL => if (0 <=? b) && (b <? 64) then Some (wrap (Z.shiftl a b), None) else None
  | J_ASR => if (0 <=? b) && (b <? 64) then Some (Z.shiftr a b, None) else None
  | J_XOR => Some (Z.lxor a b, None)
  | J_NEG => Some (wrap (- a), None)
  | J_CLAMP => Some (if a <? 0 then 0 else a, None)
  | J_MOV => Some (a, None)
  | _ => None
  end.

Definition in64 (z : Z) : Prop := - M63 <= z < M63.

Section Proofs.
Variable nregs tabsz : nat.
Variable cpool_load : size -> Z -> Z.
Variable cpool_base : Z.
Variable cover_addr : Z -> Z.
Notation fetch := (fetch cpool_base cover_addr).

Definition ieval (i : ir) (rg : nat -> Z) : option (Z * option bool) :=
  match fetch (mode1 (op i)) rg (arg1 i), fetch (mode2 (op i)) rg (arg2 i) with
  | Some a, Some b => peval (op i) (sz i) (cc i) a b
  | _, _ => None
  end.

(* ---- what is known ---- *)

Definition known (st : lvn) (k : N) : Prop :=
  (k < 100 \/ (100 <= k /\ k < 100 + N.of_nat (length (consts st))) \/ (132 <= k /\ k < nextvn st))%N.

Definition argsin (M : nat -> Prop) (i : ir) : Prop :=
  forall r, In r (value_regs (arg1 i) ++ value_regs (arg2 i)) -> M r.

Record sinv (M : nat -> Prop) (st : lvn) : Prop := Sinv {
  s_len : (length (consts st) <= 32)%nat;
  s_next : (132 <= nextvn st)%N;
  s_reg : forall r k, regvn st r = Some k -> known st k;
  s_low : forall r, regvn st r <> None -> (r < nregs)%nat -> M r;
  s_below : forall r, M r -> (r < nregs)%nat;
  s_tab : forall idx e k, tab st idx = Some (e, k) ->
    known st k /\ (exists r, result e = Some r /\ M r) /\ argsin M e }.

Record dinv (val : N -> Z) (st : lvn) (rg : nat -> Z) (fl : bool) (ar : nat -> Z) (D : nat -> Prop)
  : Prop := Dinv {
  d_const : forall k z, known st k -> get_const st k = Some z -> val k = z;
  d_reg : forall r k, (r < nregs)%nat -> regvn st r = Some k -> rg r = val k;
  d_flag : forall k, regvn st nregs = Some k -> k = if fl then 1%N else 0%N;
  d_arg : forall a k, (a < 8)%nat -> regvn st (nregs + 1 + a) = Some k -> D a \/ ar a = val k;
  d_tab : forall idx e k r, tab st idx = Some (e, k) -> result e = Some r -> regvn st r = Some k ->
    op e = MACRO_EXP \/ exists fo, ieval e rg = Some (rg r, fo) }.

Definition agree (st : lvn) (val val' : N -> Z) : Prop := forall k, known st k -> val' k = val k.

Record grows (st st1 : lvn) : Prop := Grows {
  g_tab : tab st1 = tab st;
  g_reg : forall r k, regvn st r = Some k -> regvn st1 r = Some k;
  g_high : forall r, (nregs <= r)%nat -> regvn st1 r = regvn st r;
  g_known : forall k, known st k -> known st1 k }.

Lemma grows_refl st : grows st st.
Proof. constructor; auto. Qed.
Lemma grows_trans a b c : grows a b -> grows b c -> grows a c.
Proof.
  intros [T1 R1 H1 K1] [T2 R2 H2 K2]. constructor; auto.
  - now rewrite T2.
  - intros r Hr. rewrite H2 by exact Hr. now apply H1.
Qed.

Lemma ieval_ext i rg rg' :
  (forall r, In r (value_regs (arg1 i) ++ value_regs (arg2 i)) -> rg' r = rg r) ->
  ieval i rg' = ieval i rg.
Proof.
  intros H. unfold ieval.
  assert (E1 : fetch (mode1 (op i)) rg' (arg1 i) = fetch (mode1 (op i)) rg (arg1 i)).
  { assert (H1 : forall r, In r (value_regs (arg1 i)) -> rg' r = rg r)
      by (intros r Hr; apply H, in_or_app; auto).
    destruct (mode1 (op i)), (arg1 i); cbn in *; try reflexivity; now rewrite H1 by auto. }
  assert (E2 : fetch (mode2 (op i)) rg' (arg2 i) = fetch (mode2 (op i)) rg (arg2 i)).
  { assert (H1 : forall r, In r (value_regs (arg2 i)) -> rg' r = rg r)
      by (intros r Hr; apply H, in_or_app; auto).
    destruct (mode2 (op i)), (arg2 i); cbn in *; try reflexivity; now rewrite H1 by auto. }
  now rewrite E1, E2.
Qed.

Lemma get_const_cases st k :
  get_const st k = if (k <? 100)%N then Some (Z.of_N k)
                   else if (k <? 132)%N then Some (nth (N.to_nat (k - 100)) (consts st) 0) else None.
Proof. reflexivity. Qed.

Lemma index_of_spec z l n m : index_of z l n = Some m ->
  (n <= m < n + length l)%nat /\ nth (m - n) l 0 = z.
Proof.
  revert n. induction l as [|x l IH]; intros n; cbn [index_of length]; [discriminate|].
  destruct (Z.eqb_spec x z) as [E|_]; intros H.
  - injection H as <-. split; [lia|]. now rewrite Nat.sub_diag.
  - destruct (IH _ H) as [B E]. split; [lia|].
    replace (m - n)%nat with (S (m - S n)) by lia. exact E.
Qed.

Lemma new_known M st : sinv M st -> known (snd (new_value st)) (nextvn st).
Proof. intros H. right. right. cbn. pose proof (s_next _ _ H). lia. Qed.

Lemma known_new_ne st k : known st k -> sinv (fun _ => True) st \/ (length (consts st) <= 32)%nat ->
  (132 <= nextvn st)%N -> k <> nextvn st.
Proof.
  intros K [S0|L] N0 ->; unfold known in K; [pose proof (s_len _ _ S0)|]; lia.
Qed.

(* ---- numbering an operand ---- *)

Lemma fetch_scalar m rg v z : m = MInt \/ m = MScalar \/ m = MReal ->
  fetch m rg v = Some z -> fetch MScalar rg v = Some z.
Proof. intros [->|[->| ->]]; destruct v; cbn; intros H; now inversion H. Qed.

Lemma dinv_fresh val st st1 rg fl ar D M x :
  sinv M st -> dinv val st rg fl ar D ->
  st1 = snd (new_value st) ->
  exists val', dinv val' st1 rg fl ar D /\ agree st val val' /\ val' (nextvn st) = x.
Proof.
  intros HS HD ->.
  exists (fun k => if (k =? nextvn st)%N then x else val k).
  assert (A : agree st val (fun k => if (k =? nextvn st)%N then x else val k)).
  { intros k K. destruct (N.eqb_spec k (nextvn st)) as [E|_]; [|reflexivity].
    exfalso. unfold known in K. pose proof (s_len _ _ HS). pose proof (s_next _ _ HS). lia. }
  split; [|split; [exact A|now rewrite N.eqb_refl]].
  constructor.
  - intros k z K G. cbn [new_value snd] in *.
    destruct (N.eqb_spec k (nextvn st)) as [E|NE].
    + exfalso. rewrite get_const_cases in G. pose proof (s_next _ _ HS).
      destruct (N.ltb_spec k 100); [lia|]. destruct (N.ltb_spec k 132); [lia|discriminate].
    + apply (d_const _ _ _ _ _ _ HD).
      * unfold known in *. cbn [nextvn consts] in K. lia.
      * exact G.
  - intros r k Hr E. cbn [new_value snd regvn] in E. rewrite (A k (s_reg _ _ HS _ _ E)).
    exact (d_reg _ _ _ _ _ _ HD _ _ Hr E).
  - intros k E. exact (d_flag _ _ _ _ _ _ HD _ E).
  - intros a k Ha E. cbn [new_value snd regvn] in E. rewrite (A k (s_reg _ _ HS _ _ E)).
    exact (d_arg _ _ _ _ _ _ HD _ _ Ha E).
  - intros idx e k r. exact (d_tab _ _ _ _ _ _ HD idx e k r).
Qed.

Lemma sinv_fresh M st : sinv M st -> sinv M (snd (new_value st)).
Proof.
  intros HS. assert (K : forall k, known st k -> known (snd (new_value st)) k).
  { intros k K. unfold known in *. cbn [new_value snd nextvn consts]. lia. }
  constructor; cbn [new_value snd nextvn consts regvn tab].
  - exact (s_len _ _ HS).
  - pose proof (s_next _ _ HS). lia.
  - intros r k E. apply K. exact (s_reg _ _ HS _ _ E).
  - exact (s_low _ _ HS).
  - exact (s_below _ _ HS).
  - intros idx e k E. destruct (s_tab _ _ HS _ _ _ E) as [H1 H2]. split; [now apply K|exact H2].
Qed.

Lemma grows_fresh st : grows st (snd (new_value st)).
Proof.
  constructor; auto. intros k K. unfold known in *. cbn [new_value snd nextvn consts]. lia.
Qed.

(* A register in M that has no number gets a known one. *)
Lemma sinv_set (M M' : nat -> Prop) st r k : sinv M st -> (forall x, M x -> M' x) ->
  (forall x, M' x -> (x < nregs)%nat) ->
  ((r < nregs)%nat -> M' r) -> (forall k', k = Some k' -> known st k') ->
  sinv M' (set_vn st r k).
Proof.
  intros HS HM HB Hr Hk. constructor; cbn [set_vn regvn nextvn consts tab].
  - exact (s_len _ _ HS).
  - exact (s_next _ _ HS).
  - intros x k' E. unfold upd in E. destruct (Nat.eqb_spec x r) as [->|_].
    + exact (Hk _ E).
    + exact (s_reg _ _ HS _ _ E).
  - intros x. unfold upd. destruct (Nat.eqb_spec x r) as [->|_]; intros E Hx.
    + exact (Hr Hx).
    + apply HM. exact (s_low _ _ HS _ E Hx).
  - exact HB.
  - intros idx e k' E. destruct (s_tab _ _ HS _ _ _ E) as [H1 [(q & Q1 & Q2) H3]].
    split; [exact H1|]. split; [exists q; auto|]. intros y Hy. apply HM, H3, Hy.
Qed.

Lemma sinv_mono (M M' : nat -> Prop) st : sinv M st -> (forall x, M x -> M' x) ->
  (forall x, M' x -> (x < nregs)%nat) -> sinv M' st.
Proof.
  intros HS HM HB. constructor.
  - exact (s_len _ _ HS).
  - exact (s_next _ _ HS).
  - exact (s_reg _ _ HS).
  - intros r E Hr. apply HM. exact (s_low _ _ HS _ E Hr).
  - exact HB.
  - intros idx e k' E. destruct (s_tab _ _ HS _ _ _ E) as [H1 [(q & Q1 & Q2) H3]].
    split; [exact H1|]. split; [exists q; auto|]. intros y Hy. apply HM, H3, Hy.
Qed.

(* The contents of a low register get a number that is not in use by a valid entry of the table. *)
Lemma dinv_number M val st rg fl ar D r k :
  sinv M st -> dinv val st rg fl ar D -> (r < nregs)%nat -> rg r = val k ->
  (forall idx e, tab st idx = Some (e, k) -> result e = Some r -> False) ->
  dinv val (set_vn st r (Some k)) rg fl ar D.
Proof.
  intros HS HD Hr V F. constructor; cbn [set_vn regvn nextvn consts tab].
  - exact (d_const _ _ _ _ _ _ HD).
  - intros x k' Hx E. unfold upd in E. destruct (Nat.eqb_spec x r) as [->|_].
    + injection E as <-. exact V.
    + exact (d_reg _ _ _ _ _ _ HD _ _ Hx E).
  - intros k' E. unfold upd in E. destruct (Nat.eqb_spec nregs r) as [E0|_]; [lia|].
    exact (d_flag _ _ _ _ _ _ HD _ E).
  - intros a k' Ha E. unfold upd in E. destruct (Nat.eqb_spec (nregs + 1 + a) r) as [E0|_]; [lia|].
    exact (d_arg _ _ _ _ _ _ HD _ _ Ha E).
  - intros idx e k' q T R E. unfold upd in E. destruct (Nat.eqb_spec q r) as [E0|_].
    + subst q. injection E as <-. destruct (F _ _ T R).
    + exact (d_tab _ _ _ _ _ _ HD _ _ _ _ T R E).
Qed.

Lemma value_num_ok M st v o st1 :
  sinv M st -> (forall r, In r (value_regs v) -> M r) -> value_num st v = Ok (o, st1) ->
  sinv M st1 /\ grows st st1 /\ (o = None -> v = VInvalid) /\ (forall k, o = Some k -> known st1 k) /\
  (forall r, regvn st1 r <> None -> regvn st r <> None \/ In r (value_regs v)) /\
  forall val rg fl ar D, dinv val st rg fl ar D ->
    exists val', dinv val' st1 rg fl ar D /\ agree st val val' /\
      forall k z, o = Some k -> fetch MScalar rg v = Some z -> val' k = z.
Proof.
  intros HS HV H. pose proof (s_len _ _ HS) as HL. pose proof (s_next _ _ HS) as HN.
  assert (Fr : forall rr, regvn (snd (new_value st)) rr <> None ->
                 regvn st rr <> None \/ In rr (value_regs v)) by (intros rr Hr; left; exact Hr).
  destruct v; cbn [value_num] in H; try discriminate.
  - injection H as <- <-. split; [exact HS|]. split; [apply grows_refl|].
    split; [reflexivity|]. split; [discriminate|]. split; [auto|].
    intros val rg fl ar D HD. exists val. split; [exact HD|]. split; [intros k _; reflexivity|discriminate].
  - rename r into x. assert (Mx : M x) by (apply HV; cbn; auto).
    pose proof (s_below _ _ HS _ Mx) as Hx.
    destruct (regvn st x) as [k|] eqn:Rx; cbn [new_value] in H.
    + injection H as <- <-. split; [exact HS|]. split; [apply grows_refl|].
      split; [discriminate|]. split; [intros k' E; injection E as <-; exact (s_reg _ _ HS _ _ Rx)|].
      split; [auto|].
      intros val rg fl ar D HD. exists val. split; [exact HD|]. split; [intros k' _; reflexivity|].
      intros k' z E F. injection E as <-. cbn in F. injection F as <-. symmetry.
      exact (d_reg _ _ _ _ _ _ HD _ _ Hx Rx).
    + injection H as <- <-.
      change (Lvn (regvn st) (N.succ (nextvn st)) (tab st) (consts st)) with (snd (new_value st)).
      pose proof (sinv_fresh _ _ HS) as HS1. pose proof (new_known _ _ HS) as HK.
      split; [apply (sinv_set M); auto; [exact (s_below _ _ HS)|intros k' E; now injection E as <-]|].
      split.
      { constructor.
        - reflexivity.
        - intros r k E. cbn [set_vn regvn new_value snd]. rewrite upd_other; [exact E|].
          intros ->. congruence.
        - intros r Hr. cbn [set_vn regvn new_value snd]. apply upd_other. lia.
        - intros k K. apply (g_known _ _ (grows_fresh st)) in K. exact K. }
      split; [discriminate|]. split; [intros k E; injection E as <-; exact HK|].
      split.
      { intros r Hr. cbn [set_vn regvn new_value snd] in Hr. unfold upd in Hr.
        destruct (Nat.eqb_spec r x) as [E|_]; [right; cbn; auto|now left]. }
      intros val rg fl ar D HD.
      destruct (dinv_fresh val st _ rg fl ar D M (rg x) HS HD eq_refl) as (val' & HD' & A & V).
      exists val'. split; [|split; [exact A|]].
      * apply (dinv_number M); auto.
        intros idx e T R. cbn [new_value snd tab] in T.
        destruct (s_tab _ _ HS _ _ _ T) as [K _]. unfold known in K. lia.
      * intros k z E F. injection E as <-. cbn in F. injection F as <-. exact V.
  - destruct ((0 <=? z) && (z <? 100)) eqn:Z0.
    + apply andb_true_iff in Z0. destruct Z0 as [Z1 Z2]. apply Z.leb_le in Z1. apply Z.ltb_lt in Z2.
      injection H as <- <-. split; [exact HS|]. split; [apply grows_refl|]. split; [discriminate|].
      assert (K : known st (Z.to_N z)) by (left; lia).
      split; [intros k E; injection E as <-; exact K|]. split; [auto|].
      intros val rg fl ar D HD. exists val. split; [exact HD|]. split; [intros k' _; reflexivity|].
      intros k z' E F. injection E as <-. cbn in F. injection F as <-.
      apply (d_const _ _ _ _ _ _ HD); [exact K|]. rewrite get_const_cases.
      destruct (N.ltb_spec (Z.to_N z) 100); [|lia]. f_equal. lia.
    + destruct (index_of z (consts st) 0) as [m|] eqn:IX.
      * destruct (index_of_spec _ _ _ _ IX) as [B E0]. rewrite Nat.sub_0_r in E0.
        injection H as <- <-. split; [exact HS|]. split; [apply grows_refl|]. split; [discriminate|].
        assert (K : known st (SMALL_CONST + N.of_nat m)%N)
          by (right; left; unfold SMALL_CONST; lia).
        split; [intros k E; injection E as <-; exact K|]. split; [auto|].
        intros val rg fl ar D HD. exists val. split; [exact HD|]. split; [intros k' _; reflexivity|].
        intros k z' E F. injection E as <-. cbn in F. injection F as <-.
        apply (d_const _ _ _ _ _ _ HD); [exact K|]. rewrite get_const_cases. unfold SMALL_CONST.
        destruct (N.ltb_spec (100 + N.of_nat m) 100); [lia|].
        destruct (N.ltb_spec (100 + N.of_nat m) 132); [|lia]. f_equal.
        replace (N.to_nat (100 + N.of_nat m - 100)) with m by lia. exact E0.
      * destruct (Nat.ltb_spec (length (consts st)) MAX_CONSTS) as [LT|_].
        -- injection H as <- <-. unfold MAX_CONSTS in LT.
           set (st1 := Lvn (regvn st) (nextvn st) (tab st) (consts st ++ [z])).
           assert (KG : forall k, known st k -> known st1 k).
           { intros k K. unfold known in *. cbn [st1 nextvn consts]. rewrite app_length. cbn. lia. }
           assert (K : known st1 (SMALL_CONST + N.of_nat (length (consts st)))%N).
           { right. left. unfold SMALL_CONST. cbn [st1 consts]. rewrite app_length. cbn. lia. }
           split.
           { constructor; cbn [st1 nextvn consts regvn tab].
             - rewrite app_length. cbn. lia.
             - exact HN.
             - intros r k E. apply KG. exact (s_reg _ _ HS _ _ E).
             - exact (s_low _ _ HS).
             - exact (s_below _ _ HS).
             - intros idx e k E. destruct (s_tab _ _ HS _ _ _ E) as [H1 H2].
               split; [now apply KG|exact H2]. }
           split; [constructor; auto|]. split; [discriminate|].
           split; [intros k E; injection E as <-; exact K|]. split; [auto|].
           intros val rg fl ar D HD.
           set (k0 := (SMALL_CONST + N.of_nat (length (consts st)))%N) in *.
           assert (K0 : forall k, known st k -> k <> k0).
           { intros k K' ->. unfold known, k0, SMALL_CONST in K'. lia. }
           exists (fun k => if (k =? k0)%N then z else val k).
           assert (A : agree st val (fun k => if (k =? k0)%N then z else val k)).
           { intros k K'. destruct (N.eqb_spec k k0) as [E|_]; [|reflexivity]. destruct (K0 k K' E). }
           split; [|split; [exact A|]].
           ++ constructor.
              ** intros k z' K' G. destruct (N.eqb_spec k k0) as [E|NE].
                 --- subst k. rewrite get_const_cases in G. unfold k0, SMALL_CONST in G.
                     destruct (N.ltb_spec (100 + N.of_nat (length (consts st))) 100); [lia|].
                     destruct (N.ltb_spec (100 + N.of_nat (length (consts st))) 132); [|lia].
                     injection G as G. cbn [st1 consts] in G.
                     replace (N.to_nat (100 + N.of_nat (length (consts st)) - 100))
                       with (length (consts st)) in G by lia.
                     rewrite app_nth2, Nat.sub_diag in G by lia. exact G.
                 --- assert (KK : known st k).
                     { unfold known in *. cbn [st1 nextvn consts] in K'.
                       rewrite app_length in K'. cbn in K'. unfold k0, SMALL_CONST in NE. lia. }
                     apply (d_const _ _ _ _ _ _ HD); [exact KK|].
                     rewrite get_const_cases in *.
                     destruct (N.ltb_spec k 100); [exact G|]. destruct (N.ltb_spec k 132); [|discriminate].
                     cbn [st1 consts] in G. rewrite app_nth1 in G; [exact G|]. unfold known in KK. lia.
              ** intros r k Hr E. cbn [st1 regvn] in E. rewrite (A k (s_reg _ _ HS _ _ E)).
                 exact (d_reg _ _ _ _ _ _ HD _ _ Hr E).
              ** intros k E. exact (d_flag _ _ _ _ _ _ HD _ E).
              ** intros a k Ha E. cbn [st1 regvn] in E. rewrite (A k (s_reg _ _ HS _ _ E)).
                 exact (d_arg _ _ _ _ _ _ HD _ _ Ha E).
              ** intros idx e k r. exact (d_tab _ _ _ _ _ _ HD idx e k r).
           ++ intros k z' E F. injection E as <-. cbn in F. injection F as <-. now rewrite N.eqb_refl.
        -- cbn [new_value] in H. injection H as <- <-.
           split; [exact (sinv_fresh _ _ HS)|]. split; [exact (grows_fresh st)|]. split; [discriminate|].
           split; [intros k E; injection E as <-; exact (new_known _ _ HS)|]. split; [exact Fr|].
           intros val rg fl ar D HD.
           destruct (dinv_fresh val st _ rg fl ar D M z HS HD eq_refl) as (val' & HD' & A & V).
           exists val'. split; [exact HD'|]. split; [exact A|].
           intros k z' E F. injection E as <-. cbn in F. now injection F as <-.
  - cbn [new_value] in H. injection H as <- <-.
    split; [exact (sinv_fresh _ _ HS)|]. split; [exact (grows_fresh st)|]. split; [discriminate|].
    split; [intros k E; injection E as <-; exact (new_known _ _ HS)|]. split; [exact Fr|].
    intros val rg fl ar D HD.
    destruct (dinv_fresh val st _ rg fl ar D M bits HS HD eq_refl) as (val' & HD' & A & V).
    exists val'. split; [exact HD'|]. split; [exact A|].
    intros k z' E F. injection E as <-. cbn in F. now injection F as <-.
  - cbn [new_value] in H. injection H as <- <-.
    split; [exact (sinv_fresh _ _ HS)|]. split; [exact (grows_fresh st)|]. split; [discriminate|].
    split; [intros k E; injection E as <-; exact (new_known _ _ HS)|]. split; [exact Fr|].
    intros val rg fl ar D HD.
    destruct (dinv_fresh val st _ rg fl ar D M h HS HD eq_refl) as (val' & HD' & A & V).
    exists val'. split; [exact HD'|]. split; [exact A|].
    intros k z' E F. injection E as <-. cbn in F. now injection F as <-.
Qed.

(* ---- tuples ---- *)

Definition sorted2 (o : opcode) (a b : vnum) : vnum * vnum :=
  if commutative o && vn_gt a b then (b, a) else (a, b).

Lemma get_tuple_ok M st i t0 t1 t2 st2 :
  sinv M st -> argsin M i -> get_tuple st i = Ok (t0, t1, t2, st2) ->
  sinv M st2 /\ grows st st2 /\
  (forall r, regvn st2 r <> None -> regvn st r <> None \/ In r (value_regs (arg1 i) ++ value_regs (arg2 i))) /\
  exists n1 n2, (t1, t2) = sorted2 (op i) n1 n2 /\
    t0 = Z.lor (Z.lor (opnum (op i)) (Z.shiftl (sznum (sz i)) 8)) (Z.shiftl (ccnum (cc i)) 11) /\
    (n1 = None -> arg1 i = VInvalid) /\ (n2 = None -> arg2 i = VInvalid) /\
    (forall k, n1 = Some k \/ n2 = Some k -> known st2 k) /\
    forall val rg fl ar D, dinv val st rg fl ar D ->
      exists val', dinv val' st2 rg fl ar D /\ agree st val val' /\
        (forall k z, n1 = Some k -> fetch MScalar rg (arg1 i) = Some z -> val' k = z) /\
        (forall k z, n2 = Some k -> fetch MScalar rg (arg2 i) = Some z -> val' k = z).
Proof.
  intros HS HA H. unfold get_tuple in H.
  destruct (value_num st (arg1 i)) as [[n1 st1]|] eqn:E1; [|discriminate].
  cbn [bind] in H. destruct (value_num st1 (arg2 i)) as [[n2 st3]|] eqn:E2; [|discriminate].
  cbn [bind] in H.
  destruct (value_num_ok M _ _ _ _ HS (fun r Hr => HA r (in_or_app _ _ _ (or_introl Hr))) E1)
    as (S1 & G1 & N1 & K1 & R1 & F1).
  destruct (value_num_ok M _ _ _ _ S1 (fun r Hr => HA r (in_or_app _ _ _ (or_intror Hr))) E2)
    as (S2 & G2 & N2 & K2 & R2 & F2).
  assert (Hst : st2 = st3 /\ (t1, t2) = sorted2 (op i) n1 n2 /\
    t0 = Z.lor (Z.lor (opnum (op i)) (Z.shiftl (sznum (sz i)) 8)) (Z.shiftl (ccnum (cc i)) 11)).
  { unfold sorted2. destruct (commutative (op i) && vn_gt n1 n2); injection H as <- <- <- <-; auto. }
  destruct Hst as (-> & HT & H0).
  split; [exact S2|]. split; [exact (grows_trans _ _ _ G1 G2)|].
  split.
  { intros r Hr. destruct (R2 r Hr) as [Hr1|Hr1]; [|right; apply in_or_app; auto].
    destruct (R1 r Hr1) as [Hr2|Hr2]; [auto|right; apply in_or_app; auto]. }
  exists n1, n2. split; [exact HT|]. split; [exact H0|]. split; [exact N1|]. split; [exact N2|].
  split.
  { intros k [E|E]; [apply (g_known _ _ G2), (K1 _ E)|exact (K2 _ E)]. }
  intros val rg fl ar D HD. destruct (F1 _ _ _ _ _ HD) as (v1 & D1 & A1 & V1).
  destruct (F2 _ _ _ _ _ D1) as (v2 & D2 & A2 & V2). exists v2. split; [exact D2|].
  split.
  { intros k K. rewrite (A2 k (g_known _ _ G1 _ K)). exact (A1 k K). }
  split; [|exact V2].
  intros k z E F. rewrite (A2 k (K1 _ E)). exact (V1 _ _ E F).
Qed.

Lemma opnum_inj a b : opnum a = opnum b -> a = b.
Proof. destruct a, b; cbn; intros H; first [reflexivity|discriminate H]. Qed.
Lemma sznum_inj a b : sznum a = sznum b -> a = b.
Proof. destruct a, b; cbn; intros H; first [reflexivity|discriminate H]. Qed.
Lemma ccnum_inj a b : ccnum a = ccnum b -> a = b.
Proof. destruct a, b; cbn; intros H; first [reflexivity|discriminate H]. Qed.

Definition tuple0 (i : ir) : Z :=
  Z.lor (Z.lor (opnum (op i)) (Z.shiftl (sznum (sz i)) 8)) (Z.shiftl (ccnum (cc i)) 11).

Lemma lor_shift a b n : 0 <= n -> 0 <= a < 2 ^ n -> Z.lor a (Z.shiftl b n) = a + b * 2 ^ n.
Proof.
  intros Hn Ha. rewrite <- Z.shiftl_mul_pow2 by exact Hn.
  assert (L0 : Z.land a (Z.shiftl b n) = 0); [|now rewrite Z.add_nocarry_lxor, Z.lxor_lor by exact L0].
  apply Z.bits_inj'. intros k Hk. rewrite Z.land_spec, Z.bits_0.
  destruct (Z.lt_ge_cases k n) as [L|L].
  - rewrite Z.shiftl_spec_low by lia. apply andb_false_r.
  - rewrite <- (Z.mod_small a (2 ^ n)) by lia. rewrite Z.mod_pow2_bits_high by lia. reflexivity.
Qed.

Lemma tuple0_decode i : tuple0 i mod 256 = opnum (op i) /\
  (tuple0 i / 256) mod 8 = sznum (sz i) /\ tuple0 i / 2048 = ccnum (cc i).
Proof.
  assert (A : 0 <= opnum (op i) < 256) by (destruct (op i); cbn; lia).
  assert (B : 0 <= sznum (sz i) < 8) by (destruct (sz i); cbn; lia).
  unfold tuple0. rewrite (lor_shift (opnum (op i))) by (cbn; lia).
  rewrite lor_shift by (cbn; lia).
  change (2 ^ 8) with 256. change (2 ^ 11) with 2048.
  set (a := opnum (op i)) in *. set (b := sznum (sz i)) in *. set (c := ccnum (cc i)).
  split; [|split].
  - replace (a + b * 256 + c * 2048) with (a + (b + c * 8) * 256) by lia.
    rewrite Z.mod_add by lia. apply Z.mod_small. lia.
  - replace (a + b * 256 + c * 2048) with (a + (b + c * 8) * 256) by lia.
    rewrite Z.div_add by lia. rewrite (Z.div_small a) by lia. rewrite Z.add_0_l, Z.mod_add by lia.
    apply Z.mod_small. lia.
  - rewrite Z.div_add by lia. rewrite Z.div_small by lia. lia.
Qed.

Lemma tuple0_inj i j : tuple0 i = tuple0 j -> op i = op j /\ sz i = sz j /\ cc i = cc j.
Proof.
  intros E. destruct (tuple0_decode i) as (A1 & A2 & A3). destruct (tuple0_decode j) as (B1 & B2 & B3).
  rewrite E in A1, A2, A3. split; [|split].
  - apply opnum_inj. congruence.
  - apply sznum_inj. congruence.
  - apply ccnum_inj. congruence.
Qed.

Lemma sorted2_eq o a b c d : sorted2 o a b = sorted2 o c d ->
  (a = c /\ b = d) \/ (commutative o = true /\ a = d /\ b = c).
Proof.
  unfold sorted2. destruct (commutative o); cbn [andb].
  - destruct (vn_gt a b), (vn_gt c d); intros H; injection H as H1 H2; auto.
  - intros H. injection H as H1 H2. auto.
Qed.

Lemma vnum_eqb_eq a b : vnum_eqb a b = true -> a = b.
Proof.
  destruct a as [x|], b as [y|]; cbn; intros H; try discriminate; [|reflexivity].
  apply N.eqb_eq in H. now subst.
Qed.

Lemma checked_comm f s c a b : (forall x y, f x y = f y x) -> checked f s c a b = checked f s c b a.
Proof.
  intros H. unfold checked. destruct c; now rewrite H.
Qed.

Lemma peval_modes o s c a b r : peval o s c a b = Some r ->
  (mode1 o = MInt \/ mode1 o = MScalar) /\ (mode2 o = MInt \/ mode2 o = MNone).
Proof. destruct o; cbn; intros H; try discriminate; auto. Qed.

(* Two instructions with the same tuple compute the same. *)
Lemma same_tuple i j rg (val : N -> Z) n1 n2 m1 m2 v fo w go :
  ieval i rg = Some (v, fo) -> ieval j rg = Some (w, go) ->
  op i = op j -> sz i = sz j -> cc i = cc j -> sorted2 (op i) n1 n2 = sorted2 (op j) m1 m2 ->
  (n1 = None -> arg1 i = VInvalid) -> (n2 = None -> arg2 i = VInvalid) ->
  (m1 = None -> arg1 j = VInvalid) -> (m2 = None -> arg2 j = VInvalid) ->
  (forall k z, n1 = Some k -> fetch MScalar rg (arg1 i) = Some z -> val k = z) ->
  (forall k z, n2 = Some k -> fetch MScalar rg (arg2 i) = Some z -> val k = z) ->
  (forall k z, m1 = Some k -> fetch MScalar rg (arg1 j) = Some z -> val k = z) ->
  (forall k z, m2 = Some k -> fetch MScalar rg (arg2 j) = Some z -> val k = z) ->
  v = w /\ fo = go.
Proof.
  intros Ei Ej Ho Hs Hc T I1 I2 J1 J2 VI1 VI2 VJ1 VJ2.
  assert (E : ieval i rg = ieval j rg); [|rewrite E, Ej in Ei; injection Ei as -> ->; auto].
  unfold ieval in *. rewrite <- Ho in Ej, T |- *. rewrite <- Hs in Ej |- *. rewrite <- Hc in Ej |- *.
  destruct (fetch (mode1 (op i)) rg (arg1 i)) as [a1|] eqn:A1; [|discriminate].
  destruct (fetch (mode2 (op i)) rg (arg2 i)) as [a2|] eqn:A2; [|discriminate].
  destruct (fetch (mode1 (op i)) rg (arg1 j)) as [b1|] eqn:B1; [|discriminate].
  destruct (fetch (mode2 (op i)) rg (arg2 j)) as [b2|] eqn:B2; [|discriminate].
  destruct (peval_modes _ _ _ _ _ _ Ei) as [M1 M2].
  assert (SC : forall m x z, m = MInt \/ m = MScalar -> fetch m rg x = Some z -> fetch MScalar rg x = Some z /\ x <> VInvalid).
  { intros m x z Hm F. split; [apply (fetch_scalar m); tauto|].
    intros ->. destruct Hm as [-> | ->]; cbn in F; discriminate. }
  destruct (SC _ _ _ M1 A1) as [SA1 NA1]. destruct (SC _ _ _ M1 B1) as [SB1 NB1].
  destruct n1 as [k1|]; [|destruct (NA1 (I1 eq_refl))].
  destruct m1 as [l1|]; [|destruct (NB1 (J1 eq_refl))].
  destruct (sorted2_eq _ _ _ _ _ T) as [[X1 X2]|(CO & X1 & X2)].
  - injection X1 as <-. subst m2.
    assert (a1 = b1) by (rewrite <- (VI1 _ _ eq_refl SA1); exact (VJ1 _ _ eq_refl SB1)).
    subst b1. destruct M2 as [M2|M2].
    + rewrite M2 in *. destruct (SC _ _ _ (or_introl eq_refl) A2) as [SA2 NA2].
      destruct (SC _ _ _ (or_introl eq_refl) B2) as [SB2 NB2].
      destruct n2 as [k2|]; [|destruct (NA2 (I2 eq_refl))].
      now rewrite <- (VI2 _ _ eq_refl SA2), (VJ2 _ _ eq_refl SB2).
    + rewrite M2 in *. cbn in A2, B2. congruence.
  - subst n2 m2.
    assert (M2' : mode2 (op i) = MInt).
    { revert CO. destruct (op i); cbn; intros CO; try discriminate; reflexivity. }
    rewrite M2' in *. destruct (SC _ _ _ (or_introl eq_refl) A2) as [SA2 NA2].
    destruct (SC _ _ _ (or_introl eq_refl) B2) as [SB2 NB2].
    assert (a1 = b2) by (rewrite <- (VI1 _ _ eq_refl SA1); exact (VJ2 _ _ eq_refl SB2)).
    assert (a2 = b1) by (rewrite <- (VI2 _ _ eq_refl SA2); exact (VJ1 _ _ eq_refl SB1)).
    subst b1 b2. revert CO Ei. destruct (op i); cbn [commutative peval]; intros CO Ei; try discriminate.
    + apply checked_comm. intros; lia.
    + apply checked_comm. intros; lia.
Qed.

(* ---- a new register ---- *)

(* A register that nothing was known about is given a value. *)
Lemma dinv_new_reg M val st rg fl ar D r v vn :
  sinv M st -> dinv val st rg fl ar D -> (r < nregs)%nat -> ~ M r ->
  (forall k, vn = Some k -> val k = v) ->
  dinv val (set_vn st r vn) (upd rg r v) fl ar D.
Proof.
  intros HS HD Hr NM V. constructor; cbn [set_vn regvn nextvn consts tab].
  - exact (d_const _ _ _ _ _ _ HD).
  - intros x k Hx E. unfold upd in *. destruct (Nat.eqb_spec x r) as [->|_].
    + symmetry. exact (V _ E).
    + exact (d_reg _ _ _ _ _ _ HD _ _ Hx E).
  - intros k E. unfold upd in E. destruct (Nat.eqb_spec nregs r) as [E0|_]; [lia|].
    exact (d_flag _ _ _ _ _ _ HD _ E).
  - intros a k Ha E. unfold upd in E. destruct (Nat.eqb_spec (nregs + 1 + a) r) as [E0|_]; [lia|].
    exact (d_arg _ _ _ _ _ _ HD _ _ Ha E).
  - intros idx e k q T R E. destruct (s_tab _ _ HS _ _ _ T) as [_ [(q' & R' & Mq) AM]].
    assert (q' = q) by congruence. subst q'.
    rewrite upd_other in E by (intros ->; auto).
    destruct (d_tab _ _ _ _ _ _ HD _ _ _ _ T R E) as [X|(fo & X)]; [auto|].
    right. exists fo. rewrite upd_other by (intros ->; auto).
    rewrite ieval_ext with (rg := rg); [exact X|].
    intros y Hy. apply upd_other. intros ->. exact (NM (AM _ Hy)).
Qed.

Lemma regvn_none M st r : sinv M st -> (r < nregs)%nat -> ~ M r -> regvn st r = None.
Proof.
  intros HS Hr NM. destruct (regvn st r) eqn:E; [|reflexivity].
  exfalso. apply NM. apply (s_low _ _ HS); [congruence|exact Hr].
Qed.

Lemma set_vn_none st r : regvn st r = None ->
  forall x, regvn (set_vn st r None) x = regvn st x.
Proof. intros E x. cbn [set_vn regvn]. unfold upd. destruct (Nat.eqb_spec x r) as [->|_]; auto. Qed.

Lemma dinv_upd M val st rg fl ar D r v :
  sinv M st -> dinv val st rg fl ar D -> (r < nregs)%nat -> ~ M r ->
  dinv val st (upd rg r v) fl ar D.
Proof.
  intros HS HD Hr NM. pose proof (regvn_none _ _ _ HS Hr NM) as RN.
  pose proof (dinv_new_reg _ _ _ _ _ _ _ _ v None HS HD Hr NM ltac:(discriminate)) as H.
  pose proof (set_vn_none _ _ RN) as X.
  constructor.
  - exact (d_const _ _ _ _ _ _ H).
  - intros x k Hx E. apply (d_reg _ _ _ _ _ _ H); [exact Hx|]. now rewrite X.
  - intros k E. apply (d_flag _ _ _ _ _ _ H). now rewrite X.
  - intros a k Ha E. apply (d_arg _ _ _ _ _ _ H); [exact Ha|]. now rewrite X.
  - intros idx e k q T R E. apply (d_tab _ _ _ _ _ _ H idx e k q T R). now rewrite X.
Qed.

Definition plus (M : nat -> Prop) (r : nat) : nat -> Prop := fun x => M x \/ x = r.

Lemma plus_below (M : nat -> Prop) r : (forall x, M x -> (x < nregs)%nat) -> (r < nregs)%nat ->
  forall x, plus M r x -> (x < nregs)%nat.
Proof. intros H Hr x [Hx| ->]; auto. Qed.

(* ---- the table ---- *)

(* Adding an entry for an instruction. *)
Lemma sinv_insert M st i r k place : sinv M st -> result i = Some r -> (r < nregs)%nat -> argsin M i ->
  known st k ->
  sinv (plus M r) (Lvn (upd (regvn st) r (Some k)) (nextvn st) (upd (tab st) place (Some (i, k)))
                       (consts st)).
Proof.
  intros HS R Hr AI K.
  pose proof (sinv_set M (plus M r) st r (Some k) HS ltac:(unfold plus; auto)
    (plus_below M r (s_below _ _ HS) Hr) ltac:(unfold plus; auto) ltac:(intros k' E; now injection E as <-)) as H.
  constructor; cbn [regvn nextvn tab consts].
  - exact (s_len _ _ H).
  - exact (s_next _ _ H).
  - exact (s_reg _ _ H).
  - exact (s_low _ _ H).
  - exact (s_below _ _ H).
  - intros idx e k' E. unfold upd in E. destruct (Nat.eqb_spec idx place) as [_|_].
    + injection E as <- <-. split; [exact K|]. split; [exists r; unfold plus; auto|].
      intros y Hy. left. exact (AI y Hy).
    + exact (s_tab _ _ H _ _ _ E).
Qed.

Lemma dinv_insert M val st rg fl ar D i r k v place :
  sinv M st -> dinv val st rg fl ar D -> result i = Some r -> (r < nregs)%nat -> ~ M r -> argsin M i ->
  val k = v -> (op i = MACRO_EXP \/ exists fo, ieval i rg = Some (v, fo)) ->
  dinv val (Lvn (upd (regvn st) r (Some k)) (nextvn st) (upd (tab st) place (Some (i, k)))
                (consts st)) (upd rg r v) fl ar D.
Proof.
  intros HS HD R Hr NM AI V X.
  pose proof (dinv_new_reg _ _ _ _ _ _ _ _ v (Some k) HS HD Hr NM
    ltac:(intros k' E; injection E as <-; exact V)) as H.
  constructor; cbn [regvn nextvn tab consts].
  - exact (d_const _ _ _ _ _ _ H).
  - exact (d_reg _ _ _ _ _ _ H).
  - exact (d_flag _ _ _ _ _ _ H).
  - exact (d_arg _ _ _ _ _ _ H).
  - intros idx e k' q T Rq E. unfold upd in T at 1. destruct (Nat.eqb_spec idx place) as [_|_].
    + injection T as <- <-. assert (q = r) by congruence. subst q.
      destruct X as [X|(fo & X)]; [auto|]. right. exists fo. rewrite upd_same.
      rewrite ieval_ext with (rg := rg); [exact X|].
      intros y Hy. apply upd_other. intros ->. exact (NM (AI _ Hy)).
    + exact (d_tab _ _ _ _ _ _ H _ _ _ _ T Rq E).
Qed.

Lemma probe_ok M i r limit : forall idx stale t0 t1 t2 vn st i' st' n1 n2,
  sinv M st -> result i = Some r -> (r < nregs)%nat -> ~ M r -> argsin M i ->
  (forall k, vn = Some k -> known st k) ->
  (t1, t2) = sorted2 (op i) n1 n2 -> t0 = tuple0 i ->
  (n1 = None -> arg1 i = VInvalid) -> (n2 = None -> arg2 i = VInvalid) ->
  (forall k, n1 = Some k \/ n2 = Some k -> known st k) ->
  probe tabsz limit idx stale t0 t1 t2 vn i r st = Ok (i', st') ->
  sinv (plus M r) st' /\ (i' = i \/ exists x, i' = mov_of i x) /\
  forall val rg fl ar D v fo, dinv val st rg fl ar D ->
    (forall k z, n1 = Some k -> fetch MScalar rg (arg1 i) = Some z -> val k = z) ->
    (forall k z, n2 = Some k -> fetch MScalar rg (arg2 i) = Some z -> val k = z) ->
    (op i = MACRO_EXP /\ i' = i \/ ieval i rg = Some (v, fo)) ->
    (forall k, vn = Some k -> val k = v) ->
    exists val', dinv val' st' (upd rg r v) fl ar D /\
      (i' = i \/ exists x, i' = mov_of i x /\ fetch MScalar rg x = Some v).
Proof.
  induction limit as [|limit IH];
    intros idx stale t0 t1 t2 vn st i' st' n1 n2 HS R Hr NM AI KV HT H0 N1 N2 KN H.
  - cbn [probe] in H. injection H as <- <-.
    split; [apply (sinv_mono M); auto; [unfold plus; auto|exact (plus_below _ _ (s_below _ _ HS) Hr)]|].
    split; [auto|]. intros val rg fl ar D v fo HD _ _ _ _. exists val.
    split; [|auto]. exact (dinv_upd M _ _ _ _ _ _ _ _ HS HD Hr NM).
  - cbn [probe] in H. destruct (tab st idx) as [[e k]|] eqn:T.
    + destruct (s_tab _ _ HS _ _ _ T) as [KK [(re & RE & MRE) AE]]. rewrite RE in H.
      destruct (vnum_eqb (regvn st re) (Some k)) eqn:VE; cbn [negb] in H.
      2:{ exact (IH _ _ _ _ _ _ _ _ _ _ _ HS R Hr NM AI KV HT H0 N1 N2 KN H). }
      apply vnum_eqb_eq in VE.
      destruct (get_tuple st e) as [[[[c0 c1] c2] st1]|] eqn:GT; [|discriminate].
      cbn [bind] in H.
      destruct (get_tuple_ok M _ _ _ _ _ _ HS AE GT) as (S1 & G1 & RR & m1 & m2 & CT & C0 & P1 & P2 & KM & F).
      destruct ((c0 =? t0) && vnum_eqb c1 t1 && vnum_eqb c2 t2) eqn:EQ.
      * apply andb_true_iff in EQ. destruct EQ as [EQ X2]. apply andb_true_iff in EQ.
        destruct EQ as [X0 X1]. apply Z.eqb_eq in X0. apply vnum_eqb_eq in X1, X2. subst c0 c1 c2.
        destruct (tuple0_inj e i) as (Oe & Se & Ce).
        { change (tuple0 e = tuple0 i). unfold tuple0 at 1. rewrite <- C0. congruence. }
        injection H as <- <-.
        pose proof (g_reg _ _ G1 _ _ VE) as VE1.
        split.
        { apply (sinv_set M); auto.
          - unfold plus; auto.
          - exact (plus_below _ _ (s_below _ _ HS) Hr).
          - unfold plus; auto.
          - intros k' E. injection E as <-. exact (g_known _ _ G1 _ KK). }
        split; [right; eexists; reflexivity|].
        intros val rg fl ar D v fo HD V1 V2 X V.
        assert (X' : ieval i rg = Some (v, fo)).
        { destruct X as [[XE XI]|X]; [|exact X]. exfalso.
          assert (op i = J_MOV) by (rewrite <- XI; reflexivity). congruence. }
        destruct (F _ _ _ _ _ HD) as (val' & HD' & A & W1 & W2).
        destruct (d_tab _ _ _ _ _ _ HD _ _ _ _ T RE VE) as [XX|(fo' & XX)].
        { exfalso. rewrite Oe in XX. unfold ieval in X'. rewrite XX in X'.
          cbn [mode1 mode2 peval] in X'.
          destruct (fetch MInt rg (arg1 i)), (fetch MInt rg (arg2 i)); discriminate X'. }
        assert (VV : v = rg re /\ fo = fo').
        { apply (same_tuple i e rg val' n1 n2 m1 m2 v fo (rg re) fo'); auto; try congruence.
          - intros k' z E Fz. rewrite (A k' (KN _ (or_introl E))). exact (V1 _ _ E Fz).
          - intros k' z E Fz. rewrite (A k' (KN _ (or_intror E))). exact (V2 _ _ E Fz). }
        destruct VV as [-> _].
        pose proof (s_below _ _ HS _ MRE) as Hre.
        pose proof (d_reg _ _ _ _ _ _ HD' _ _ Hre VE1) as VR.
        exists val'. split.
        { apply (dinv_new_reg M); auto. intros k' E. injection E as <-. congruence. }
        right. eexists. split; [reflexivity|]. rewrite VE1. cbn [vn_const].
        destruct (get_const st1 k) as [z|] eqn:GC; cbn; [|reflexivity].
        rewrite (d_const _ _ _ _ _ _ HD' _ _ (g_known _ _ G1 _ KK) GC) in VR. congruence.
      * destruct (IH _ _ _ _ _ _ _ _ _ _ _ S1 R Hr NM AI
          (fun k' E => g_known _ _ G1 _ (KV _ E)) HT H0 N1 N2
          (fun k' E => g_known _ _ G1 _ (KN _ E)) H) as (Q1 & Q2 & Q3).
        split; [exact Q1|]. split; [exact Q2|].
        intros val rg fl ar D v fo HD V1 V2 X V.
        destruct (F _ _ _ _ _ HD) as (val' & HD' & A & _).
        apply (Q3 val' rg fl ar D v fo HD').
        -- intros k' z E Fz. rewrite (A k' (KN _ (or_introl E))). exact (V1 _ _ E Fz).
        -- intros k' z E Fz. rewrite (A k' (KN _ (or_intror E))). exact (V2 _ _ E Fz).
        -- exact X.
        -- intros k' E. rewrite (A k' (KV _ E)). exact (V _ E).
    + destruct vn as [k|].
      * injection H as <- <-. split; [apply sinv_insert; auto|]. split; [auto|].
        intros val rg fl ar D v fo HD V1 V2 X V. exists val. split; [|auto].
        apply (dinv_insert M); auto. destruct X as [[X _]|X]; [auto|right; exists fo; exact X].
      * cbn [new_value] in H. injection H as <- <-.
        split; [exact (sinv_insert _ (snd (new_value st)) i r (nextvn st) _ (sinv_fresh _ _ HS) R Hr AI (new_known _ _ HS))|].
        split; [auto|].
        intros val rg fl ar D v fo HD V1 V2 X V.
        destruct (dinv_fresh val st _ rg fl ar D M v HS HD eq_refl) as (val' & HD' & A & Vn).
        exists val'. split; [|auto].
        refine (dinv_insert M val' (snd (new_value st)) rg fl ar D i r (nextvn st) v _ (sinv_fresh _ _ HS) HD' R Hr NM AI Vn _).
        destruct X as [[X _]|X]; [auto|right; exists fo; exact X].
Qed.

Lemma generic_ok M st i vn i' st' r :
  sinv M st -> result i = Some r -> (r < nregs)%nat -> ~ M r -> argsin M i ->
  (forall k, vn = Some k -> known st k) ->
  generic tabsz i st vn = Ok (i', st') ->
  sinv (plus M r) st' /\ (i' = i \/ exists x, i' = mov_of i x) /\
  forall val rg fl ar D v fo, dinv val st rg fl ar D ->
    (op i = MACRO_EXP /\ i' = i \/ ieval i rg = Some (v, fo)) ->
    (forall k, vn = Some k -> val k = v) ->
    exists val', dinv val' st' (upd rg r v) fl ar D /\
      (i' = i \/ exists x, i' = mov_of i x /\ fetch MScalar rg x = Some v).
Proof.
  intros HS R Hr NM AI KV H. unfold generic in H. rewrite R in H.
  destruct (get_tuple st i) as [[[[t0 t1] t2] st1]|] eqn:GT; [|discriminate]. cbn [bind] in H.
  destruct (get_tuple_ok M _ _ _ _ _ _ HS AI GT) as (S1 & G1 & RR & n1 & n2 & CT & C0 & P1 & P2 & KM & F).
  destruct (probe_ok M i r 10 _ _ _ _ _ _ _ _ _ n1 n2 S1 R Hr NM AI
    (fun k E => g_known _ _ G1 _ (KV _ E)) CT C0 P1 P2 KM H) as (Q1 & Q2 & Q3).
  split; [exact Q1|]. split; [exact Q2|].
  intros val rg fl ar D v fo HD X V.
  destruct (F _ _ _ _ _ HD) as (val' & HD' & A & W1 & W2).
  apply (Q3 val' rg fl ar D v fo HD' W1 W2 X).
  intros k E. rewrite (A k (KV _ E)). exact (V _ E).
Qed.

(* ---- moves ---- *)

Definition movy (i i' : ir) : Prop := i' = nop_of i \/ exists x, i' = mov_of i x.

Lemma mov_of_mov i x y : mov_of (mov_of i x) y = mov_of i y.
Proof. reflexivity. Qed.

Lemma lvn_mov_ok M st i i' st' r :
  op i = J_MOV -> sinv M st -> result i = Some r -> (r < nregs)%nat -> ~ M r -> argsin M i ->
  lvn_mov tabsz i st = Ok (i', st') ->
  sinv (plus M r) st' /\ (i' = i \/ movy i i') /\
  forall val rg fl ar D v, dinv val st rg fl ar D -> fetch MScalar rg (arg1 i) = Some v ->
    exists val', dinv val' st' (upd rg r v) fl ar D /\
      (i' = i \/ exists x, i' = mov_of i x /\ fetch MScalar rg x = Some v).
Proof.
  intros OP HS R Hr NM AI H. unfold lvn_mov in H. rewrite R in H.
  assert (IR : is_reg (arg1 i) r = false).
  { destruct (arg1 i) eqn:A; cbn; try reflexivity. apply Nat.eqb_neq. intros ->.
    apply NM, AI. rewrite A. cbn. auto. }
  rewrite IR in H.
  destruct (value_num st (arg1 i)) as [[vn st1]|] eqn:E1; [|discriminate]. cbn [bind] in H.
  destruct (value_num_ok M _ _ _ _ HS (fun x Hx => AI x (in_or_app _ _ _ (or_introl Hx))) E1)
    as (S1 & G1 & N1 & K1 & R1 & F1).
  pose proof (regvn_none _ _ _ S1 Hr NM) as RN. rewrite RN in H.
  destruct vn as [k|].
  - cbn [vnum_eqb] in H. destruct (generic_ok M _ _ _ _ _ _ S1 R Hr NM AI K1 H) as (Q1 & Q2 & Q3).
    split; [exact Q1|]. split; [destruct Q2 as [Q2|Q2]; [auto|right; right; exact Q2]|].
    intros val rg fl ar D v HD V. destruct (F1 _ _ _ _ _ HD) as (val' & HD' & A & W).
    apply (Q3 val' rg fl ar D v None HD').
    + right. unfold ieval. rewrite OP. cbn [mode1 mode2]. rewrite V. reflexivity.
    + intros k' E. exact (W _ _ E V).
  - cbn [vnum_eqb] in H. injection H as <- <-.
    split; [apply (sinv_mono M); auto; [unfold plus; auto|exact (plus_below _ _ (s_below _ _ HS) Hr)]|].
    split; [right; left; reflexivity|].
    intros val rg fl ar D v HD V. rewrite (N1 eq_refl) in V. discriminate.
Qed.

Lemma convert_mov_ok M st i x i' st' r :
  sinv M st -> result i = Some r -> (r < nregs)%nat -> ~ M r -> (forall y, In y (value_regs x) -> M y) ->
  convert_mov tabsz i st x = Ok (i', st') ->
  sinv (plus M r) st' /\ movy i i' /\
  forall val rg fl ar D v, dinv val st rg fl ar D -> fetch MScalar rg x = Some v ->
    exists val', dinv val' st' (upd rg r v) fl ar D /\
      exists y, i' = mov_of i y /\ fetch MScalar rg y = Some v.
Proof.
  intros HS R Hr NM AI H. unfold convert_mov in H.
  assert (AI' : argsin M (mov_of i x)).
  { intros y Hy. cbn in Hy. rewrite app_nil_r in Hy. auto. }
  destruct (lvn_mov_ok M st (mov_of i x) i' st' r eq_refl HS R Hr NM AI' H) as (Q1 & Q2 & Q3).
  split; [exact Q1|]. split.
  { destruct Q2 as [-> |[-> |(y & ->)]]; [right; exists x; reflexivity|left; reflexivity|right; exists y; reflexivity]. }
  intros val rg fl ar D v HD V. destruct (Q3 _ _ _ _ _ _ HD V) as (val' & HD' & [-> |(y & -> & Y)]).
  - exists val'. split; [exact HD'|]. exists x. auto.
  - exists val'. split; [exact HD'|]. exists y. auto.
Qed.

(* ---- constants ---- *)

Lemma is_const_ok M val st rg fl ar D v z : sinv M st -> dinv val st rg fl ar D ->
  (forall r, In r (value_regs v) -> (r < nregs)%nat) ->
  is_const st v = Some z -> forall m, m = MInt \/ m = MScalar -> fetch m rg v = Some z.
Proof.
  intros HS HD B H m Hm. destruct v; cbn in H; try discriminate.
  - destruct (regvn st r) as [k|] eqn:E; cbn in H; [|discriminate].
    assert (Hr : (r < nregs)%nat) by (apply B; cbn; auto).
    rewrite <- (d_const _ _ _ _ _ _ HD _ _ (s_reg _ _ HS _ _ E) H).
    rewrite <- (d_reg _ _ _ _ _ _ HD _ _ Hr E). destruct Hm as [-> | ->]; reflexivity.
  - injection H as <-. destruct Hm as [-> | ->]; reflexivity.
Qed.

Lemma dinv_kill_flags val st rg fl fl' ar D : dinv val st rg fl ar D -> dinv val (kill_flags nregs st) rg fl' ar D.
Proof.
  intros HD. constructor; cbn [kill_flags set_vn regvn nextvn consts tab].
  - exact (d_const _ _ _ _ _ _ HD).
  - intros x k Hx E. rewrite upd_other in E by lia. exact (d_reg _ _ _ _ _ _ HD _ _ Hx E).
  - intros k E. rewrite upd_same in E. discriminate.
  - intros a k Ha E. rewrite upd_other in E by lia. exact (d_arg _ _ _ _ _ _ HD _ _ Ha E).
  - intros idx e k q T R E. unfold upd in E. destruct (Nat.eqb_spec q nregs) as [_|_]; [discriminate|].
    exact (d_tab _ _ _ _ _ _ HD _ _ _ _ T R E).
Qed.

Lemma sinv_kill_flags M st : sinv M st -> sinv M (kill_flags nregs st).
Proof.
  intros HS. apply (sinv_set M); auto; [exact (s_below _ _ HS)|lia|discriminate].
Qed.
End Proofs.
