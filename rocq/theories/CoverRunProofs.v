From Coq Require Import ZArith NArith List Bool Arith Lia.
From Verif Require Import Base CoverModel CoverProofs CoverRunModel CoverRunSpec.
Import ListNotations.

Definition V (mem : list Z) (k : nat) : Z := nth k mem 0%Z.

Lemma nth_replace {A} (l : list A) p x k d :
  nth k (replace l p x) d = if (k =? p) && (p <? length l) then x else nth k l d.
Proof.
  revert p k. induction l as [|y r IH]; intros [|p] [|k]; cbn [replace nth length Nat.eqb]; auto.
  - now rewrite Bool.andb_false_r.
  - rewrite IH. reflexivity.
Qed.

Definition idx (tag b : nat) (d : direction) : nat :=
  match d with To1 => tag + b * 2 | To0 => tag + b * 2 + 1 end.

Lemma idx_inj tag b d b' d' : idx tag b d = idx tag b' d' -> b = b' /\ d = d'.
Proof. destruct d, d'; cbn; intros H; split; try reflexivity; exfalso + idtac; lia. Qed.

Definition dir_eqb (a b : direction) : bool :=
  match a, b with To1, To1 => true | To0, To0 => true | _, _ => false end.

Definition counts (check : N -> N -> option direction) (d : direction) (o w : N) : bool :=
  match check o w with Some d' => dir_eqb d d' | None => false end.

Definition bump (b : bool) (c : Z) : Z := if b then saturate_add c 1 else c.

Definition quiet (check : N -> N -> option direction) := forall v, check v v = None.

Lemma increment_ok mem k : k < length mem ->
  exists mem', increment mem k = Ok mem' /\ length mem' = length mem /\
    forall q, V mem' q = if q =? k then saturate_add (V mem k) 1 else V mem q.
Proof.
  intros H. unfold increment.
  destruct (nth_error mem k) as [c|] eqn:E; [|apply nth_error_None in E; lia].
  eexists. split; [reflexivity|]. split; [apply length_replace|].
  intros q. unfold V. rewrite nth_replace.
  replace (k <? length mem) with true by (symmetry; now apply Nat.ltb_lt).
  rewrite Bool.andb_true_r. now rewrite (nth_error_nth mem k 0%Z E).
Qed.

Section Walk.
Variable check : N -> N -> option direction.
Variable quiet_check : quiet check.
Variables (tag : nat) (old new : list N).
Variable same : length old = length new.

Definition stepc (b : nat) (d : direction) (c : Z) : Z :=
  bump (counts check d (nth b old 0%N) (nth b new 0%N)) c.

Definition did (j e : nat) (mem mem' : list Z) : Prop :=
  length mem' = length mem /\
  (forall b d, j <= b < e -> V mem' (idx tag b d) = stepc b d (V mem (idx tag b d))) /\
  (forall k, (forall b d, j <= b < e -> k <> idx tag b d) -> V mem' k = V mem k).

Lemma did_trans j m e mem1 mem2 mem3 : j <= m -> m <= e ->
  did j m mem1 mem2 -> did m e mem2 mem3 -> did j e mem1 mem3.
Proof.
  intros JM ME [L1 [A1 B1]] [L2 [A2 B2]]. split; [congruence|]. split.
  - intros b d Hb. destruct (le_lt_dec m b) as [G|G].
    + rewrite A2 by lia. rewrite B1; [reflexivity|].
      intros b' d' Hb' E. apply idx_inj in E. lia.
    + rewrite B2; [apply A1; lia|].
      intros b' d' Hb' E. apply idx_inj in E. lia.
  - intros k Hk. rewrite B2 by (intros b d Hb; apply Hk; lia).
    apply B1. intros b d Hb. apply Hk. lia.
Qed.

Lemma did_nothing j e mem : (forall b, j <= b < e -> nth b old 0%N = nth b new 0%N) ->
  did j e mem mem.
Proof.
  intros H. split; [reflexivity|]. split; [|reflexivity].
  intros b d Hb. unfold stepc, counts. rewrite (H b Hb), quiet_check. reflexivity.
Qed.

Lemma walk_ok : forall n j mem, j + n <= length new -> tag + 2 * length new <= length mem ->
  exists mem', walk check tag old new j n mem = Ok mem' /\ did j (j + n) mem mem'.
Proof.
  induction n as [|n IH]; intros j mem Hj Hm; cbn [walk].
  - exists mem. split; [reflexivity|]. rewrite Nat.add_0_r. apply did_nothing. intros; lia.
  - destruct (nth_error old j) as [o|] eqn:EO; [|apply nth_error_None in EO; lia].
    destruct (nth_error new j) as [w|] eqn:EW; [|apply nth_error_None in EW; lia].
    assert (NO : nth j old 0%N = o) by now apply nth_error_nth.
    assert (NW : nth j new 0%N = w) by now apply nth_error_nth.
    assert (X : exists mem', (if (w =? o)%N then Ok mem
                       else match check o w with
                            | Some To1 => increment mem (tag + j * 2)
                            | Some To0 => increment mem (tag + j * 2 + 1)
                            | None => Ok mem
                            end) = Ok mem' /\ did j (S j) mem mem').
    { destruct (N.eqb_spec w o) as [E|E].
      - exists mem. split; [reflexivity|]. apply did_nothing.
        intros b Hb. replace b with j by lia. congruence.
      - destruct (check o w) as [d|] eqn:C.
        + assert (Y : (match d with To1 => increment mem (tag + j * 2)
                             | To0 => increment mem (tag + j * 2 + 1) end)
                     = increment mem (idx tag j d)) by (destruct d; reflexivity).
          rewrite Y. destruct (increment_ok mem (idx tag j d)) as [m' [I [L Q]]].
          { destruct d; cbn; lia. }
          exists m'. split; [exact I|]. split; [exact L|]. split.
          * intros b d' Hb. replace b with j by lia. rewrite Q. unfold stepc, counts.
            rewrite NO, NW, C. destruct (Nat.eqb_spec (idx tag j d') (idx tag j d)) as [E'|E'].
            -- apply idx_inj in E'. destruct E' as [_ ->]. destruct d; reflexivity.
            -- destruct d, d'; try contradiction; reflexivity.
          * intros k Hk. rewrite Q. destruct (Nat.eqb_spec k (idx tag j d)) as [E'|_]; [|reflexivity].
            exfalso. apply (Hk j d); [lia | exact E'].
        + exists mem. split; [reflexivity|]. split; [reflexivity|]. split; [|reflexivity].
          intros b d Hb. replace b with j by lia. unfold stepc, counts. now rewrite NO, NW, C. }
    destruct X as [m1 [E1 D1]]. rewrite E1. cbn [bind].
    destruct (IH (S j) m1) as [m2 [E2 D2]]; [lia | destruct D1 as [L _]; rewrite L; exact Hm|].
    exists m2. split; [exact E2|]. apply (did_trans j (S j) _ mem m1 m2); [lia | lia | exact D1 |].
    now replace (j + S n) with (S j + n) by lia.
Qed.

Lemma firstn_skipn_eq (l l' : list N) p n : firstn n (skipn p l) = firstn n (skipn p l') ->
  forall b, p <= b < p + n -> nth b l 0%N = nth b l' 0%N.
Proof.
  intros H b Hb.
  assert (X : forall q : list N, nth b q 0%N = nth (b - p) (firstn n (skipn p q)) 0%N).
  { intros q. rewrite <- (firstn_skipn p q) at 1.
    destruct (le_lt_dec (length q) p) as [G|G].
    - rewrite skipn_all2 by exact G. rewrite firstn_nil, app_nil_r.
      rewrite (nth_overflow (firstn p q)) by (rewrite firstn_length; lia).
      destruct (b - p); reflexivity.
    - rewrite app_nth2 by (rewrite firstn_length; lia).
      rewrite firstn_length, Nat.min_l by lia.
      rewrite <- (firstn_skipn n (skipn p q)) at 1.
      destruct (le_lt_dec (length (firstn n (skipn p q))) (b - p)) as [F|F].
      + rewrite (nth_overflow (firstn n (skipn p q)) 0%N F).
        rewrite app_nth2 by exact F. rewrite firstn_length in F.
        rewrite (skipn_all2 (skipn p q)) by lia. now rewrite (nth_overflow []) by (cbn; lia).
      + now rewrite app_nth1. }
  now rewrite (X l), (X l'), H.
Qed.

Lemma get_same n mem : n <= length mem -> get_cover_mem n mem = mem.
Proof.
  intros H. unfold get_cover_mem. destruct (Nat.ltb_spec (length mem) n); [lia | reflexivity].
Qed.

Lemma batch_loop_ok : forall n batches i mem, 0 < length new ->
  batches = (length new - 1) / 8 + 1 -> i + n = batches ->
  tag + 2 * length new <= length mem ->
  exists mem', batch_loop check tag old new batches i n mem = Ok mem' /\
    did (Nat.min (i * 8) (length new)) (length new) mem mem'.
Proof.
  intros n batches i mem Hp Hb. revert i mem.
  assert (DM : length new - 1 = 8 * ((length new - 1) / 8) + (length new - 1) mod 8)
    by (apply Nat.div_mod; lia).
  assert (DL : (length new - 1) mod 8 < 8) by (apply Nat.mod_upper_bound; lia).
  set (q := (length new - 1) / 8) in *. set (r := (length new - 1) mod 8) in *.
  induction n as [|n IH]; intros i mem Hi Hm; cbn [batch_loop].
  - exists mem. split; [reflexivity|]. apply did_nothing. intros; lia.
  - fold r. destruct (Nat.ltb_spec i (batches - 1)) as [LT|GE].
    + rewrite Nat.min_l by lia.
      assert (X : exists mem',
        (if negb (list_eqb (firstn 8 (skipn (i * 8) new)) (firstn 8 (skipn (i * 8) old)))
         then walk check tag old new (i * 8) 8 (get_cover_mem (tag + 2) mem) else Ok mem) = Ok mem' /\
        did (i * 8) (S i * 8) mem mem').
      { unfold list_eqb. destruct (list_eq_dec _ _ _) as [E|E]; cbn [negb].
        - exists mem. split; [reflexivity|]. apply did_nothing. intros b Hbb. symmetry.
          apply (firstn_skipn_eq _ _ (i * 8) 8 E). lia.
        - rewrite get_same by lia. replace (S i * 8) with (i * 8 + 8) by lia.
          apply walk_ok; lia. }
      destruct X as [m1 [E1 D1]]. rewrite E1. cbn [bind].
      destruct (IH (S i) m1) as [m2 [E2 D2]]; [lia | destruct D1 as [L _]; rewrite L; exact Hm|].
      exists m2. split; [exact E2|]. rewrite Nat.min_l in D2 by lia.
      apply (did_trans _ (S i * 8) _ mem m1 m2); [lia | lia | exact D1 | exact D2].
    + assert (n = 0) by lia. subst n. assert (i = q) by lia. subst i.
      rewrite get_same by lia.
      destruct (walk_ok (r + 1) (q * 8) mem) as [m1 [E1 D1]]; [lia | exact Hm |].
      rewrite E1. cbn [bind batch_loop]. exists m1. split; [reflexivity|].
      rewrite Nat.min_l by lia. now replace (length new) with (q * 8 + (r + 1)) by lia.
Qed.

Lemma toggle_cb_ok mem : 0 < length new -> tag + 2 * length new <= length mem ->
  exists mem', toggle_cb check tag old new mem = Ok mem' /\ did 0 (length new) mem mem'.
Proof.
  intros Hp Hm. unfold toggle_cb.
  destruct (batch_loop_ok ((length new - 1) / 8 + 1) _ 0 mem Hp eq_refl) as [m [E D]];
    [reflexivity | exact Hm|].
  exists m. split; [exact E|]. rewrite Nat.min_l in D by lia. exact D.
Qed.
End Walk.

Lemma choose_quiet u z : quiet (choose_check u z).
Proof.
  intros v. unfold choose_check.
  assert (X : forall a b : N, a <> b -> ((v =? a) && (v =? b))%N = false).
  { intros a b N. destruct (N.eqb_spec v a) as [E|]; [|reflexivity].
    destruct (N.eqb_spec v b) as [E'|]; [congruence | reflexivity]. }
  assert (Y : forall b : N, b <> 0%N -> b <> 1%N ->
            (((v =? sU) || (v =? sX)) && (v =? b))%N = false).
  { intros b N0 N1. destruct (N.eqb_spec v b) as [E|]; [|now rewrite Bool.andb_false_r].
    destruct (N.eqb_spec v sU) as [E'|]; [unfold sU in *; congruence|].
    destruct (N.eqb_spec v sX) as [E'|]; [unfold sX in *; congruence | reflexivity]. }
  destruct u, z; cbn [andb]; unfold check_0_1_u_z, check_0_1_u, check_0_1_z, check_0_1;
    repeat first [rewrite X by discriminate | rewrite Y by discriminate]; reflexivity.
Qed.

Lemma counts_spec u z d o w :
  counts (choose_check u z) d o w =
  match d with To1 => rises u z o w | To0 => falls u z o w end.
Proof.
  unfold counts, rises, falls, choose_check, is_0, is_1, is_Z, is_undefined.
  unfold check_0_1_u_z, check_0_1_u, check_0_1_z, check_0_1, s0, s1, sZ, sU, sX.
  destruct u, z; cbn beta iota delta [andb];
  (destruct (N.eqb_spec o 0); [subst o|destruct (N.eqb_spec o 1); [subst o|destruct (N.eqb_spec o 2); [subst o|
  destruct (N.eqb_spec o 3); [subst o|destruct (N.eqb_spec o 4); [subst o|]]]]]);
  (destruct (N.eqb_spec w 2); [subst w|destruct (N.eqb_spec w 3); [subst w|destruct (N.eqb_spec w 4); [subst w|]]]);
  destruct d; reflexivity.
Qed.

Lemma counted_step b c n : (0 <= c <= INT_MAX)%Z -> (0 <= n)%Z ->
  counted (bump b c) n = counted c ((if b then 1 else 0) + n) /\ (0 <= bump b c <= INT_MAX)%Z.
Proof.
  unfold counted, bump, saturate_add, INT_MAX, INT_MIN. intros H N.
  change (2 ^ 31 - 1)%Z with 2147483647%Z.
  destruct b; [|split; [reflexivity | lia]].
  destruct (Z.leb_spec (-2147483648) (c + 1)); [|lia].
  destruct (Z.leb_spec (c + 1) 2147483647); cbn [andb]; lia.
Qed.

Lemma how_many_cons p j e r :
  how_many p j (e :: r) = ((if p (nth j (fst e) 0%N) (nth j (snd e) 0%N) then 1 else 0) + how_many p j r)%Z.
Proof. unfold how_many. cbn [filter]. destruct (p _ _); cbn [length]; lia. Qed.

Lemma run_events_ok u z tag size : 0 < size -> forall events mem,
  (forall o n, In (o, n) events -> length o = size /\ length n = size) ->
  tag + 2 * size <= length mem ->
  (forall b d, b < size -> (0 <= V mem (idx tag b d) <= INT_MAX)%Z) ->
  exists mem', run_events (choose_check u z) tag events mem = Ok mem' /\
    length mem' = length mem /\
    (forall b d, b < size -> V mem' (idx tag b d) =
       counted (V mem (idx tag b d))
         (how_many (match d with To1 => rises u z | To0 => falls u z end) b events)) /\
    (forall k, (forall b d, b < size -> k <> idx tag b d) -> V mem' k = V mem k).
Proof.
  intros Hs. induction events as [|[o n] rest IH]; intros mem Hl Hm Hv; cbn [run_events].
  - exists mem. split; [reflexivity|]. split; [reflexivity|]. split; [|reflexivity].
    intros b d Hb. specialize (Hv b d Hb). unfold counted, how_many, INT_MAX in *. cbn. lia.
  - destruct (Hl o n (or_introl eq_refl)) as [Lo Ln].
    destruct (toggle_cb_ok (choose_check u z) (choose_quiet u z) tag o n (eq_trans Lo (eq_sym Ln)) mem)
      as [m1 [E1 [L1 [A1 B1]]]]; [lia | rewrite Ln; exact Hm |].
    rewrite E1. cbn [bind]. rewrite Ln in A1, B1.
    assert (HV1 : forall b d, b < size -> (0 <= V m1 (idx tag b d) <= INT_MAX)%Z).
    { intros b d Hb. rewrite A1 by lia. unfold stepc.
      apply (counted_step _ _ 0 (Hv b d Hb)). lia. }
    destruct (IH m1) as [m2 [E2 [L2 [A2 B2]]]].
    + intros o' n' I. apply Hl. now right.
    + rewrite L1. exact Hm.
    + exact HV1.
    + exists m2. split; [exact E2|]. split; [congruence|]. split.
      * intros b d Hb. rewrite A2 by exact Hb. rewrite A1 by lia. unfold stepc.
        rewrite counts_spec, how_many_cons. cbn [fst snd].
        set (h := how_many _ b rest).
        assert (Hh : (0 <= h)%Z) by (unfold h, how_many; lia).
        destruct (counted_step (match d with To1 => rises u z (nth b o 0%N) (nth b n 0%N)
             | To0 => falls u z (nth b o 0%N) (nth b n 0%N) end) _ h (Hv b d Hb) Hh) as [X _].
        rewrite X. destruct d; reflexivity.
      * intros k Hk. rewrite B2 by exact Hk. apply B1. intros b d Hb. apply Hk. lia.
Qed.

Lemma mark_ok : forall n tag mem, tag + 2 * n <= length mem ->
  length (mark_constant tag n mem) = length mem /\
  forall k, V (mark_constant tag n mem) k =
    if (tag <=? k) && (k <? tag + 2 * n) then INT_MIN else V mem k.
Proof.
  induction n as [|n IH]; intros tag mem H; cbn [mark_constant].
  - split; [reflexivity|]. intros k. destruct (Nat.leb_spec tag k); cbn [andb]; [|reflexivity].
    destruct (Nat.ltb_spec k (tag + 2 * 0)); [lia | reflexivity].
  - destruct (IH (tag + 2) (replace (replace mem tag INT_MIN) (tag + 1) INT_MIN)) as [L Q];
      [rewrite !length_replace; lia|].
    split; [rewrite L; now rewrite !length_replace|].
    intros k. rewrite Q. unfold V. rewrite !nth_replace, length_replace.
    destruct (Nat.leb_spec (tag + 2) k); destruct (Nat.ltb_spec k (tag + 2 + 2 * n));
    destruct (Nat.leb_spec tag k); destruct (Nat.ltb_spec k (tag + 2 * S n)); cbn [andb]; try lia; try reflexivity;
    destruct (Nat.eqb_spec k (tag + 1)); destruct (Nat.ltb_spec (tag + 1) (length mem)); cbn [andb]; try lia; try reflexivity;
    destruct (Nat.eqb_spec k tag); destruct (Nat.ltb_spec tag (length mem)); cbn [andb]; try lia; try reflexivity.
Qed.

(* States. *)

Lemma get_cover_mem_V n mem k : V (get_cover_mem n mem) k = V mem k.
Proof.
  unfold get_cover_mem, V. destruct (length mem <? n); [|reflexivity].
  destruct (le_lt_dec (length mem) k) as [G|G].
  - rewrite app_nth2 by exact G. rewrite (nth_overflow mem 0%Z G). apply nth_repeat.
  - now rewrite app_nth1.
Qed.

Lemma get_cover_mem_length n mem : length (get_cover_mem n mem) = Nat.max n (length mem).
Proof.
  unfold get_cover_mem. destruct (Nat.ltb_spec (length mem) n); [|lia].
  rewrite app_length, repeat_length. lia.
Qed.

Lemma state_events_ok tag low : (0 <= tag)%Z -> forall events mem,
  (forall v, In v events -> (low <= v)%Z) ->
  (forall p, (low <= p)%Z -> (0 <= V mem (Z.to_nat (tag + (p - low))) <= INT_MAX)%Z) ->
  exists mem', state_events tag low events mem = Ok mem' /\
    (forall p, (low <= p)%Z -> V mem' (Z.to_nat (tag + (p - low))) =
       counted (V mem (Z.to_nat (tag + (p - low)))) (entered p events)) /\
    (forall k, k < Z.to_nat tag -> V mem' k = V mem k).
Proof.
  intros Ht. induction events as [|v rest IH]; intros mem Hl Hv; cbn [state_events].
  - exists mem. split; [reflexivity|]. split; [|reflexivity]. intros p Hp. specialize (Hv p Hp).
    unfold counted, entered, INT_MAX in *. cbn [filter length]. lia.
  - assert (Hlv : (low <= v)%Z) by (apply Hl; now left).
    destruct (Z.ltb_spec (tag - low + v) 0) as [X|_]; [lia|].
    set (k := Z.to_nat (tag - low + v)).
    destruct (increment_ok (get_cover_mem (k + 1) mem) k) as [m1 [E1 [_ Q]]];
      [rewrite get_cover_mem_length; lia|].
    rewrite E1. cbn [bind].
    assert (Q' : forall p, (low <= p)%Z -> V m1 (Z.to_nat (tag + (p - low))) =
      bump (Z.eqb p v) (V mem (Z.to_nat (tag + (p - low))))).
    { intros p Hp. rewrite Q, !get_cover_mem_V.
      destruct (Z.eqb_spec p v) as [->|NE].
      - replace (Z.to_nat (tag + (v - low))) with k by (unfold k; f_equal; lia).
        now rewrite Nat.eqb_refl.
      - destruct (Nat.eqb_spec (Z.to_nat (tag + (p - low))) k) as [E|_]; [|reflexivity].
        exfalso. apply NE. unfold k in E. apply Z2Nat.inj in E; lia. }
    destruct (IH m1) as [m2 [E2 [A2 B2]]].
    + intros x I. apply Hl. now right.
    + intros p Hp. rewrite Q' by exact Hp. apply (counted_step _ _ 0 (Hv p Hp)). lia.
    + exists m2. split; [exact E2|]. split.
      * intros p Hp. rewrite A2, Q' by exact Hp.
        assert (X : entered p (v :: rest) = ((if Z.eqb p v then 1 else 0) + entered p rest)%Z).
        { unfold entered. cbn [filter]. destruct (Z.eqb p v); cbn [length]; lia. }
        rewrite X. apply counted_step; [now apply Hv | unfold entered; lia].
      * intros q Hq. rewrite B2 by exact Hq. rewrite Q, !get_cover_mem_V.
        destruct (Nat.eqb_spec q k) as [E|_]; [|reflexivity].
        exfalso. subst q. unfold k in Hq. apply Z2Nat.inj_lt in Hq; lia.
Qed.

(* Statements. *)

Fixpoint iter {A} (g : A -> A) (n : nat) (x : A) : A :=
  match n with 0 => x | S n' => iter g n' (g x) end.

Lemma iter_S {A} (g : A -> A) n x : iter g (S n) x = g (iter g n x).
Proof. revert x. induction n as [|n IH]; intros x; [reflexivity|]. cbn [iter] in *. now rewrite IH. Qed.

Lemma iter_add {A} (g : A -> A) n m x : iter g (n + m) x = iter g m (iter g n x).
Proof. revert x. induction n as [|n IH]; intros x; cbn [iter Nat.add]; auto. Qed.

Lemma to_from_32 c : (0 <= c < 2 ^ 32)%Z -> to_unsigned32 (to_signed32 c) = c.
Proof.
  intros H. unfold to_unsigned32, to_signed32.
  destruct (Z.ltb_spec c (2 ^ 31)); [apply Z.mod_small; lia|].
  replace (c - 2 ^ 32)%Z with (c + (-1) * 2 ^ 32)%Z by lia.
  rewrite Z.mod_add by lia. apply Z.mod_small. lia.
Qed.

Lemma sadd_iter n : iter interp_sadd n 0%Z = to_signed32 (Z.min (Z.of_nat n) (2 ^ 32 - 1)).
Proof.
  induction n as [|n IH]; [reflexivity|]. rewrite iter_S, IH.
  set (c := Z.min (Z.of_nat n) (2 ^ 32 - 1)).
  assert (Hc : (0 <= c < 2 ^ 32)%Z) by (unfold c; lia).
  unfold interp_sadd. rewrite to_from_32 by exact Hc. f_equal.
  destruct (Z.ltb_spec (c + 1) (2 ^ 32)); unfold c in *; lia.
Qed.

(* How often each counter is hit, given the tags that code was compiled for. *)
Fixpoint hits (sites : list nat) (os : list run_op) (tag : nat) : nat :=
  match os with
  | [] => 0
  | Compile t _ :: r => hits (sites ++ [t]) r tag
  | HitCompiled i :: r =>
      (match nth_error sites i with Some t => if t =? tag then 1 else 0 | None => 0 end)
      + hits sites r tag
  | HitInterp t _ :: r => (if t =? tag then 1 else 0) + hits sites r tag
  | NewItem _ :: r => hits sites r tag
  end.

Lemma grow_V n m c k : V (c_counts (grow n m c)) k = V (c_counts c) k.
Proof. unfold grow. destruct (_ <? _); [apply get_cover_mem_V | reflexivity]. Qed.

Lemma hit_V t c c' : hit t c = Ok c' -> c_block c' = c_block c /\
  length (c_counts c') = length (c_counts c) /\
  forall k, V (c_counts c') k = iter interp_sadd (if t =? k then 1 else 0) (V (c_counts c) k).
Proof.
  unfold hit. destruct (nth_error (c_counts c) t) as [n|] eqn:E; [|discriminate].
  intros X. injection X as <-. split; [reflexivity|]. split; [apply length_replace|].
  intros k. cbn [c_counts]. unfold V. rewrite nth_replace.
  assert (L : t < length (c_counts c)) by (apply nth_error_Some; congruence).
  replace (t <? length (c_counts c)) with true by (symmetry; now apply Nat.ltb_lt).
  rewrite Bool.andb_true_r, (Nat.eqb_sym k t). destruct (Nat.eqb_spec t k) as [->|]; [|reflexivity].
  cbn [iter]. now rewrite (nth_error_nth _ _ 0%Z E).
Qed.

Lemma run_ops_counts : forall os s s', run_ops s os = Ok s' ->
  forall k, V (c_counts (r_mem s')) k =
    iter interp_sadd (hits (map snd (r_sites s)) os k) (V (c_counts (r_mem s)) k).
Proof.
  induction os as [|o rest IH]; intros s s' E k; cbn [run_ops] in E.
  - injection E as <-. reflexivity.
  - apply bind_ok in E. destruct E as [s1 [E1 E2]]. rewrite (IH _ _ E2 k). clear E2 IH.
    destruct o as [t m|i|t m|m]; cbn [run_step hits] in *.
    + injection E1 as <-. cbn [r_mem r_sites]. rewrite grow_V, map_app. reflexivity.
    + rewrite nth_error_map. destruct (nth_error (r_sites s) i) as [[b t]|]; cbn [option_map snd].
      * destruct (b =? c_block (r_mem s)); [|discriminate].
        apply bind_ok in E1. destruct E1 as [c [H X]]. injection X as <-. cbn [r_mem r_sites].
        destruct (hit_V _ _ _ H) as [_ [_ Q]]. now rewrite Q, iter_add.
      * injection E1 as <-. reflexivity.
    + apply bind_ok in E1. destruct E1 as [c [H X]]. injection X as <-. cbn [r_mem r_sites].
      destruct (hit_V _ _ _ H) as [_ [_ Q]]. now rewrite Q, grow_V, iter_add.
    + injection E1 as <-. cbn [r_mem r_sites]. now rewrite grow_V.
Qed.

Lemma hit_ok t c : t < length (c_counts c) -> exists c', hit t c = Ok c'.
Proof.
  intros H. unfold hit. destruct (nth_error (c_counts c) t) as [n|] eqn:E; [eauto|].
  apply nth_error_None in E. lia.
Qed.

Lemma grow_small n m c : n <= length (c_counts c) -> grow n m c = c.
Proof. intros H. unfold grow. destruct (Nat.ltb_spec (length (c_counts c)) n); [lia | reflexivity]. Qed.

Lemma run_ops_safe : forall os s,
  (forall b t, In (b, t) (r_sites s) -> b = c_block (r_mem s) /\ t < length (c_counts (r_mem s))) ->
  (forall o, In o os -> match o with
     | Compile t _ | HitInterp t _ => t < length (c_counts (r_mem s))
     | HitCompiled _ => True | NewItem _ => False end) ->
  exists s', run_ops s os = Ok s'.
Proof.
  induction os as [|o rest IH]; intros s HS HO; cbn [run_ops]; [eauto|].
  assert (HR : forall o', In o' rest -> match o' with
     | Compile t _ | HitInterp t _ => t < length (c_counts (r_mem s))
     | HitCompiled _ => True | NewItem _ => False end) by (intros o' I; apply HO; now right).
  specialize (HO o (or_introl eq_refl)).
  destruct o as [t m|i|t m|m]; cbn [run_step].
  - cbn [bind]. rewrite grow_small by lia. apply IH; cbn [r_mem r_sites]; [|exact HR].
    intros b t' I. apply in_app_iff in I. destruct I as [I|[I|[]]]; [now apply HS|].
    injection I as <- <-. auto.
  - destruct (nth_error (r_sites s) i) as [[b t]|] eqn:E; cbn [bind]; [|now apply IH].
    destruct (HS b t (nth_error_In _ _ E)) as [-> L]. rewrite Nat.eqb_refl.
    destruct (hit_ok t (r_mem s) L) as [c H]. rewrite H. cbn [bind].
    destruct (hit_V _ _ _ H) as [B [LC _]].
    apply IH; cbn [r_mem r_sites]; rewrite LC; [rewrite B; exact HS | exact HR].
  - rewrite grow_small by lia. destruct (hit_ok t (r_mem s) HO) as [c H]. rewrite H. cbn [bind].
    destruct (hit_V _ _ _ H) as [B [LC _]].
    apply IH; cbn [r_mem r_sites]; rewrite LC; [rewrite B; exact HS | exact HR].
  - destruct HO.
Qed.

Lemma run_ops_interp : forall os s, r_sites s = [] ->
  (forall o, In o os -> match o with Compile _ _ => False | _ => True end) ->
  exists s', run_ops s os = Ok s'.
Proof.
  induction os as [|o rest IH]; intros s HS HO; cbn [run_ops]; [eauto|].
  assert (HR : forall o', In o' rest -> match o' with Compile _ _ => False | _ => True end)
    by (intros o' I; apply HO; now right).
  specialize (HO o (or_introl eq_refl)).
  destruct o as [t m|i|t m|m]; cbn [run_step].
  - destruct HO.
  - rewrite HS. destruct i; cbn [nth_error bind]; now apply IH.
  - destruct (hit_ok t (grow (t + 1) m (r_mem s))) as [c H].
    { unfold grow. destruct (Nat.ltb_spec (length (c_counts (r_mem s))) (t + 1)); [|lia].
      cbn [c_counts]. rewrite get_cover_mem_length. lia. }
    rewrite H. cbn [bind]. now apply IH.
  - cbn [bind]. now apply IH.
Qed.

Lemma grow_stays mintags c :
  c_block (grow mintags false c) = c_block c /\
  length (c_counts c) <= length (c_counts (grow mintags false c)) /\
  mintags <= length (c_counts (grow mintags false c)).
Proof.
  unfold grow. destruct (Nat.ltb_spec (length (c_counts c)) mintags); cbn [c_block c_counts].
  - rewrite get_cover_mem_length. repeat split; lia.
  - repeat split; lia.
Qed.

Lemma grow_enough mintags m c : mintags <= length (c_counts (grow mintags m c)).
Proof.
  unfold grow. destruct (Nat.ltb_spec (length (c_counts c)) mintags); cbn [c_counts];
    [rewrite get_cover_mem_length|]; lia.
Qed.

Definition stays (o : run_op) : Prop :=
  match o with
  | Compile _ m | HitInterp _ m | NewItem m => m = false
  | HitCompiled _ => True
  end.

Lemma run_ops_stays : forall os s,
  (forall b t, In (b, t) (r_sites s) -> b = c_block (r_mem s) /\ t < length (c_counts (r_mem s))) ->
  (forall o, In o os -> stays o) ->
  exists s', run_ops s os = Ok s'.
Proof.
  induction os as [|o rest IH]; intros s HS HO; cbn [run_ops]; [eauto|].
  assert (HR : forall o', In o' rest -> stays o') by (intros o' I; apply HO; now right).
  specialize (HO o (or_introl eq_refl)).
  destruct o as [t m|i|t m|m]; cbn [run_step stays] in *.
  - subst m. cbn [bind]. destruct (grow_stays (t + 1) (r_mem s)) as (B & L1 & L2).
    apply IH; cbn [r_mem r_sites]; [|exact HR].
    intros b t' I. apply in_app_iff in I. destruct I as [I|[I|[]]].
    + destruct (HS _ _ I). split; [congruence|lia].
    + injection I as <- <-. split; [reflexivity|lia].
  - destruct (nth_error (r_sites s) i) as [[b t]|] eqn:E; cbn [bind]; [|now apply IH].
    destruct (HS b t (nth_error_In _ _ E)) as [-> L]. rewrite Nat.eqb_refl.
    destruct (hit_ok t (r_mem s) L) as [c H]. rewrite H. cbn [bind].
    destruct (hit_V _ _ _ H) as [B [LC _]].
    apply IH; cbn [r_mem r_sites]; [rewrite LC, B; exact HS|exact HR].
  - subst m. destruct (grow_stays (t + 1) (r_mem s)) as (B & L1 & L2).
    destruct (hit_ok t (grow (t + 1) false (r_mem s))) as [c H]; [lia|].
    rewrite H. cbn [bind]. destruct (hit_V _ _ _ H) as [B' [LC _]].
    apply IH; cbn [r_mem r_sites]; [|exact HR].
    intros b t' I. destruct (HS _ _ I). rewrite LC. split; [congruence|lia].
  - subst m. cbn [bind].
    destruct (grow_stays (length (c_counts (r_mem s)) + 1) (r_mem s)) as (B & L1 & _).
    apply IH; cbn [r_mem r_sites]; [|exact HR].
    intros b t' I. destruct (HS _ _ I). split; [congruence|lia].
Qed.

Lemma run_ops_app : forall a b s,
  run_ops s (a ++ b) = do! s' <- run_ops s a; run_ops s' b.
Proof.
  induction a as [|o a IH]; intros b s; [reflexivity|]. cbn [app run_ops].
  destruct (run_step s o) as [s1|]; cbn [bind]; [apply IH|reflexivity].
Qed.

Lemma run_ops_interp_sites : forall os s s', r_sites s = [] ->
  (forall o, In o os -> match o with Compile _ _ => False | _ => True end) ->
  run_ops s os = Ok s' -> r_sites s' = [].
Proof.
  induction os as [|o rest IH]; intros s s' HS HO E; cbn [run_ops] in E; [now injection E as <-|].
  apply bind_ok in E. destruct E as (s1 & E1 & E2).
  refine (IH s1 s' _ _ E2); [|intros o' I; apply HO; now right].
  specialize (HO o (or_introl eq_refl)).
  destruct o as [t m|i|t m|m]; cbn [run_step] in E1.
  - destruct HO.
  - rewrite HS in E1. destruct i; cbn in E1; injection E1 as <-; exact HS.
  - apply bind_ok in E1. destruct E1 as (c & _ & E1). injection E1 as <-. exact HS.
  - injection E1 as <-. exact HS.
Qed.

Lemma run_ops_before pre t m post counts :
  (forall o, In o pre -> match o with Compile _ _ => False | _ => True end) ->
  (forall o, In o post -> stays o) ->
  exists s', run_ops (RunState (Counters 0 counts) []) (pre ++ Compile t m :: post) = Ok s'.
Proof.
  intros H1 H2. rewrite run_ops_app.
  destruct (run_ops_interp pre (RunState (Counters 0 counts) []) eq_refl H1) as (s1 & E1).
  rewrite E1. cbn [bind run_ops run_step].
  apply run_ops_stays; [|exact H2]. cbn [r_mem r_sites].
  assert (N := run_ops_interp_sites pre (RunState (Counters 0 counts) []) s1 eq_refl H1 E1).
  rewrite N. intros b t' [I|[]].
  injection I as <- <-. split; [reflexivity|].
  assert (G := grow_enough (t + 1) m (r_mem s1)). lia.
Qed.
