From Coq Require Import NArith List Bool Arith Lia.
From Verif Require Import Base ObjMarkModel ObjMarkSpec.
Import ListNotations.

Lemma nth_error_firstn_lt {A} (l : list A) : forall n i, i < n -> nth_error (firstn n l) i = nth_error l i.
Proof.
  induction l as [|x l IH]; intros n i H; [now rewrite firstn_nil|].
  destruct n as [|n]; [lia|]. destruct i as [|i]; [reflexivity|]. cbn. apply IH. lia.
Qed.

Lemma nth_error_skipn {A} (l : list A) : forall n i, nth_error (skipn n l) i = nth_error l (n + i).
Proof.
  induction l as [|x l IH]; intros n i; [rewrite skipn_nil; now destruct i, (n + _)|].
  destruct n as [|n]; [reflexivity|]. cbn. apply IH.
Qed.

Lemma nth_error_repeat' {A} (x : A) n i : i < n -> nth_error (repeat x n) i = Some x.
Proof. revert i. induction n as [|n IH]; intros i H; [lia|]. destruct i; [reflexivity|]. cbn. apply IH. lia. Qed.

Lemma set_word_ok b w v : w < length b ->
  exists b', set_word b w v = Ok b' /\ length b' = length b /\
    forall i, nth_error b' i = if i =? w then Some v else nth_error b i.
Proof.
  intros H. unfold set_word. destruct (Nat.ltb_spec w (length b)); [|lia].
  eexists. split; [reflexivity|]. split.
  - rewrite app_length, firstn_length. cbn [length]. rewrite skipn_length. lia.
  - intros i. destruct (Nat.eqb_spec i w) as [->|N].
    + rewrite nth_error_app2; rewrite firstn_length; [|lia]. now replace (w - Nat.min w (length b)) with 0 by lia.
    + destruct (Nat.lt_ge_cases i w) as [L|L].
      * rewrite nth_error_app1 by (rewrite firstn_length; lia). now rewrite nth_error_firstn_lt.
      * rewrite nth_error_app2; rewrite firstn_length; [|lia].
        replace (i - Nat.min w (length b)) with (S (i - S w)) by lia. cbn [nth_error].
        rewrite nth_error_skipn. f_equal. lia.
Qed.

Lemma zero_ok b low high first count : first + count <= length b -> high < first \/ first + count <= low ->
  exists b', zero_mark_bits b low high first count = Ok b' /\ length b' = length b /\
    forall i, nth_error b' i = if (first <=? i) && (i <? first + count) then Some 0%N else nth_error b i.
Proof.
  intros H C. unfold zero_mark_bits. destruct (Nat.ltb_spec (length b) (first + count)); [lia|].
  replace ((high <? first) || (first + count <=? low)) with true.
  2:{ symmetry. apply orb_true_iff. destruct C; [left; now apply Nat.ltb_lt|right; now apply Nat.leb_le]. }
  eexists. split; [reflexivity|]. split.
  - rewrite !app_length, firstn_length, repeat_length, skipn_length. lia.
  - intros i. destruct (Nat.leb_spec first i); cbn [andb].
    + rewrite nth_error_app2; rewrite firstn_length; [|lia].
      replace (i - Nat.min first (length b)) with (i - first) by lia.
      destruct (Nat.ltb_spec i (first + count)).
      * rewrite nth_error_app1 by (rewrite repeat_length; lia). apply nth_error_repeat'. lia.
      * rewrite nth_error_app2; rewrite repeat_length; [|lia]. rewrite nth_error_skipn. f_equal. lia.
    + rewrite nth_error_app1 by (rewrite firstn_length; lia). now apply nth_error_firstn_lt.
Qed.

(* What holds after the questions h, for traversal g. *)
Record inv (n : nat) (m : marks) (h : list (N * nat)) (g : N) : Prop := {
  iv_bits : exists b, m_bits m = Some b /\ length b = n /\
    forall w v i, m_low m <= w <= m_high m -> nth_error b w = Some v -> i < 64 ->
      (N.testbit v (N.of_nat i) = true <-> In (g, w * 64 + i) h);
  iv_range : m_low m <= m_high m < n;
  iv_gen : m_gen m = generation g;
  iv_in : forall bit, In (g, bit) h -> m_low m <= bit / 64 <= m_high m }.

Lemma generation_differs a b : (a < b < a + 65536)%N -> generation a <> generation b.
Proof.
  unfold generation. intros H E.
  assert (A := N.div_mod a 65536 ltac:(lia)). assert (B := N.div_mod b 65536 ltac:(lia)).
  assert (LA := N.mod_lt a 65536 ltac:(lia)). assert (LB := N.mod_lt b 65536 ltac:(lia)).
  rewrite E in *. set (x := (a / 65536)%N) in *. set (y := (b / 65536)%N) in *. nia.
Qed.

Lemma split_bit bit : bit = (bit / 64) * 64 + bit mod 64 /\ bit mod 64 < 64.
Proof. assert (H := Nat.div_mod bit 64 ltac:(lia)). assert (L := Nat.mod_upper_bound bit 64 ltac:(lia)). lia. Qed.

(* A traversal that has not met the arena starts with one cleared word. *)
Lemma start_inv b0 h g word : word < length b0 -> (forall bit, ~ In (g, bit) h) ->
  exists b, set_word b0 word 0 = Ok b /\ inv (length b0) (Marks (Some b) word word (generation g)) h g.
Proof.
  intros W NI. destruct (set_word_ok b0 word 0%N W) as (b & E & L & NT).
  exists b. split; [exact E|]. split; cbn [m_bits m_low m_high m_gen]; [|lia|reflexivity|].
  - exists b. split; [reflexivity|]. split; [exact L|]. intros w v i R NV I.
    assert (w = word) by lia. subst w. rewrite NT, Nat.eqb_refl in NV. injection NV as <-.
    rewrite N.bits_0. split; [discriminate|]. intros H. now apply NI in H.
  - intros bit H. now apply NI in H.
Qed.

(* The words that are met are made valid. *)
Definition widen (m : marks) (word : nat) : res marks :=
  match m_bits m with
  | None => Fault
  | Some b =>
      if word <? m_low m
      then do! b <- zero_mark_bits b (m_low m) (m_high m) word (m_low m - word);
           Ok (Marks (Some b) word (m_high m) (m_gen m))
      else if m_high m <? word
      then do! b <- zero_mark_bits b (m_low m) (m_high m) (m_high m + 1) (word - m_high m);
           Ok (Marks (Some b) (m_low m) word (m_gen m))
      else Ok m
  end.

Lemma widen_inv n m h g word : inv n m h g -> word < n ->
  exists m', widen m word = Ok m' /\ inv n m' h g /\ m_low m' <= word <= m_high m'.
Proof.
  intros [(b & EB & L & HB) R G IN] W. unfold widen. rewrite EB.
  destruct (Nat.ltb_spec word (m_low m)) as [LO|LO]; [|destruct (Nat.ltb_spec (m_high m) word) as [HI|HI]].
  - destruct (zero_ok b (m_low m) (m_high m) word (m_low m - word) ltac:(lia) ltac:(lia)) as (b' & E & L' & NT).
    rewrite E. cbn [bind]. eexists. split; [reflexivity|]. split; [|cbn; lia].
    split; cbn [m_bits m_low m_high m_gen]; [|lia|exact G|].
    + exists b'. split; [reflexivity|]. split; [lia|]. intros w v i RW NV I. rewrite NT in NV.
      destruct (Nat.leb_spec word w); [|lia]. cbn [andb] in NV.
      destruct (Nat.ltb_spec w (word + (m_low m - word))); [|apply (HB w); [lia|exact NV|exact I]].
      injection NV as <-. rewrite N.bits_0. split; [discriminate|]. intros H1. apply IN in H1.
      replace ((w * 64 + i) / 64) with w in H1 by dlia. lia.
    + intros bit H. apply IN in H. lia.
  - destruct (zero_ok b (m_low m) (m_high m) (m_high m + 1) (word - m_high m) ltac:(lia) ltac:(lia)) as (b' & E & L' & NT).
    rewrite E. cbn [bind]. eexists. split; [reflexivity|]. split; [|cbn; lia].
    split; cbn [m_bits m_low m_high m_gen]; [|lia|exact G|].
    + exists b'. split; [reflexivity|]. split; [lia|]. intros w v i RW NV I. rewrite NT in NV.
      destruct (Nat.ltb_spec w (m_high m + 1 + (word - m_high m))); [|lia]. rewrite andb_true_r in NV.
      destruct (Nat.leb_spec (m_high m + 1) w); [|apply (HB w); [lia|exact NV|exact I]].
      injection NV as <-. rewrite N.bits_0. split; [discriminate|]. intros H1. apply IN in H1.
      replace ((w * 64 + i) / 64) with w in H1 by dlia. lia.
    + intros bit H. apply IN in H. lia.
  - exists m. split; [reflexivity|]. split; [|lia]. split; [exists b; auto|assumption..].
Qed.

(* One question, once the arena is valid for the traversal. *)
Definition mark (m : marks) (bit : nat) : res (bool * marks) :=
  match m_bits m with
  | None => Fault
  | Some b =>
      match nth_error b (bit / 64) with
      | None => Fault
      | Some v =>
          let i := N.of_nat (bit mod 64) in
          do! b <- set_word b (bit / 64) (N.setbit v i);
          Ok (N.testbit v i, Marks (Some b) (m_low m) (m_high m) (m_gen m))
      end
  end.

Lemma mark_inv n m h g bit : inv n m h g -> m_low m <= bit / 64 <= m_high m ->
  exists r m', mark m bit = Ok (r, m') /\ (r = true <-> In (g, bit) h) /\ inv n m' (h ++ [(g, bit)]) g.
Proof.
  intros [(b & EB & L & HB) R G IN] W. unfold mark. rewrite EB.
  destruct (split_bit bit) as [SB SL].
  destruct (nth_error b (bit / 64)) as [v|] eqn:NV; [|apply nth_error_None in NV; lia].
  destruct (set_word_ok b (bit / 64) (N.setbit v (N.of_nat (bit mod 64))) ltac:(lia)) as (b' & E & L' & NT).
  rewrite E. cbn [bind]. eexists. eexists. split; [reflexivity|]. split.
  - rewrite (HB (bit / 64) v (bit mod 64) W NV SL). now rewrite <- SB.
  - split; cbn [m_bits m_low m_high m_gen]; [|lia|exact G|].
    + exists b'. split; [reflexivity|]. split; [lia|]. intros w u i RW NU I. rewrite NT in NU.
      rewrite in_app_iff. cbn [In].
      destruct (Nat.eqb_spec w (bit / 64)) as [->|NE].
      * injection NU as <-.
        destruct (Nat.eq_dec i (bit mod 64)) as [->|NI].
        -- rewrite N.setbit_eq. rewrite <- SB. split; [auto|reflexivity].
        -- rewrite N.setbit_neq by lia. rewrite (HB (bit / 64) v i W NV I).
           split; [auto|]. intros [H|[H|[]]]; [exact H|]. injection H as H. lia.
      * rewrite (HB w u i RW NU I). split; [auto|]. intros [H|[H|[]]]; [exact H|].
        injection H as H. exfalso. apply NE. rewrite H. dlia.
    + intros x H. apply in_app_iff in H. destruct H as [H|[H|[]]]; [now apply IN|].
      injection H as <-. exact W.
Qed.

Lemma marked_p_eq fresh m gen bit :
  marked_p fresh m gen bit =
  do! m <- match m_bits m with
           | None => do! b <- set_word fresh (bit / 64) 0; Ok (Marks (Some b) (bit / 64) (bit / 64) gen)
           | Some b =>
               if negb (m_gen m =? gen)%N
               then do! b <- set_word b (bit / 64) 0; Ok (Marks (Some b) (bit / 64) (bit / 64) gen)
               else Ok m
           end;
  do! m <- widen m (bit / 64);
  mark m bit.
Proof.
  unfold marked_p, widen, mark.
  match goal with |- bind ?x _ = _ => destruct x as [m'|]; [|reflexivity] end.
  cbn [bind]. destruct (m_bits m') as [b|] eqn:EB; [|reflexivity].
  match goal with |- bind ?x _ = bind ?y _ => change y with x; destruct x as [m2|]; reflexivity end.
Qed.

Lemma marked_p_inv fresh m h g g' bit : inv (length fresh) m h g -> (g <= g' < g + 65536)%N ->
  (forall x b, In (x, b) h -> (x <= g)%N) -> bit / 64 < length fresh ->
  exists r m', marked_p fresh m (generation g') bit = Ok (r, m') /\ (r = true <-> In (g', bit) h) /\
    inv (length fresh) m' (h ++ [(g', bit)]) g'.
Proof.
  intros IV TU OLD W. rewrite marked_p_eq.
  assert (S1 : exists m1,
    match m_bits m with
    | None => do! b <- set_word fresh (bit / 64) 0; Ok (Marks (Some b) (bit / 64) (bit / 64) (generation g'))
    | Some b =>
        if negb (m_gen m =? generation g')%N
        then do! b <- set_word b (bit / 64) 0; Ok (Marks (Some b) (bit / 64) (bit / 64) (generation g'))
        else Ok m
    end = Ok m1 /\ inv (length fresh) m1 h g').
  { destruct (iv_bits _ _ _ _ IV) as (b & EB & L & _). rewrite EB.
    destruct (N.eqb_spec (m_gen m) (generation g')) as [E|E]; cbn [negb].
    - exists m. split; [reflexivity|]. destruct (N.eq_dec g g') as [<-|N]; [exact IV|].
      exfalso. rewrite (iv_gen _ _ _ _ IV) in E. apply (generation_differs g g'); [lia|exact E].
    - assert (N : g <> g') by (intros ->; apply E; apply (iv_gen _ _ _ _ IV)).
      destruct (start_inv b h g' (bit / 64) ltac:(lia)) as (b1 & E1 & I1).
      { intros x H. apply OLD in H. lia. }
      rewrite E1. cbn [bind]. eexists. split; [reflexivity|]. now rewrite <- L. }
  destruct S1 as (m1 & -> & I1). cbn [bind].
  destruct (widen_inv _ _ _ _ _ I1 W) as (m2 & -> & I2 & R2). cbn [bind].
  destruct (mark_inv _ _ _ _ _ I2 R2) as (r & m3 & E3 & HR & I3). exists r, m3. auto.
Qed.

Lemma marked_p_first fresh g bit : bit / 64 < length fresh ->
  exists r m', marked_p fresh marks0 (generation g) bit = Ok (r, m') /\ r = false /\
    inv (length fresh) m' [(g, bit)] g.
Proof.
  intros W. rewrite marked_p_eq. cbn [m_bits marks0].
  destruct (start_inv fresh [] g (bit / 64) W) as (b1 & E1 & I1); [intros x []|].
  rewrite E1. cbn [bind].
  destruct (widen_inv _ _ _ _ _ I1 W) as (m2 & -> & I2 & R2). cbn [bind].
  destruct (mark_inv _ _ _ _ _ I2 R2) as (r & m3 & E3 & HR & I3). exists r, m3.
  split; [exact E3|]. split; [|exact I3]. destruct r; [|reflexivity]. now destruct (proj1 HR eq_refl).
Qed.

Lemma calls_ok fresh : forall qs m h g, inv (length fresh) m h g ->
  (forall x b, In (x, b) h -> (x <= g)%N) -> in_turn g qs ->
  Forall (fun q => snd q / 64 < length fresh) qs ->
  exists rs, calls fresh m qs = Ok rs /\ answers h qs rs.
Proof.
  induction qs as [|[g' bit] qs IH]; intros m h g IV OLD TU F.
  - exists []. split; [reflexivity|constructor].
  - cbn [in_turn] in TU. destruct TU as [T1 T2]. inversion F as [|? ? F1 F2]; subst. cbn [snd] in F1.
    destruct (marked_p_inv fresh m h g g' bit IV T1 OLD F1) as (r & m' & E & HR & I').
    destruct (IH m' (h ++ [(g', bit)]) g' I') as (rs & E2 & A); [|exact T2|exact F2|].
    { intros x b H. apply in_app_iff in H. destruct H as [H|[H|[]]]; [apply OLD in H; lia|].
      injection H as -> ->. lia. }
    exists (r :: rs). cbn [calls]. rewrite E. cbn [bind]. rewrite E2. cbn [bind].
    split; [reflexivity|]. now constructor.
Qed.
