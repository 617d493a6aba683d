(* Proofs about the garbage-collected heap of GcModel.v. *)
From Coq Require Import List Arith NArith ZArith Bool Lia ZifyBool.
From Verif Require Import Base MaskModel MaskSpec MaskProofs GcModel GcSpec.
Import ListNotations.

(* ---- rows of lines delimited by head bits ---- *)
Definition seg (hd : nat -> bool) (L s n : nat) : Prop :=
  1 <= n /\ s + n <= L /\ hd s = true /\ (forall x, s < x < s + n -> hd x = false) /\
  (s + n < L -> hd (s + n) = true).

Lemma seg_unique hd L s n s' n' x : seg hd L s n -> seg hd L s' n' -> covers s n x -> covers s' n' x -> s = s' /\ n = n'.
Proof.
  intros (A1 & A2 & A3 & A4 & A5) (B1 & B2 & B3 & B4 & B5) C C'. unfold covers in *.
  assert (E : s = s').
  { destruct (Nat.lt_trichotomy s s') as [Q|[Q|Q]]; [|exact Q|].
    - rewrite (A4 s') in B3 by lia. discriminate.
    - rewrite (B4 s) in A3 by lia. discriminate. }
  subst s'. split; [reflexivity|].
  destruct (Nat.lt_trichotomy n n') as [Q|[Q|Q]]; [|exact Q|].
  - specialize (A5 ltac:(lia)). rewrite (B4 (s + n)) in A5 by lia. discriminate.
  - specialize (B5 ltac:(lia)). rewrite (A4 (s + n')) in B5 by lia. discriminate.
Qed.

(* The scan also works for the line after the last one, unless its word does not exist. *)
Lemma scan_margin m : wf m -> msize m mod 64 <> 0 ->
  exists z, mask_scan_backwards m (msize m) = Ok z /\ scan_res m (msize m) z.
Proof.
  intros W Q. set (m' := Mask (S (msize m)) (mbits m) (mptr m)).
  assert (D : (S (msize m) + 63) / 64 = (msize m + 63) / 64).
  { assert (msize m = 64 * (msize m / 64) + msize m mod 64) by (apply Nat.div_mod; lia).
    pose proof (Nat.mod_upper_bound (msize m) 64 ltac:(lia)).
    replace (S (msize m) + 63) with (msize m mod 64 + (msize m / 64 + 1) * 64) by lia.
    replace (msize m + 63) with ((msize m mod 64 - 1) + (msize m / 64 + 1) * 64) by lia.
    rewrite !Nat.div_add by lia. rewrite (Nat.div_small (msize m mod 64)), (Nat.div_small (msize m mod 64 - 1)) by lia. reflexivity. }
  assert (N64 : msize m <> 64) by (intros E; rewrite E in Q; now apply Q).
  assert (EL : forall i, elem m' i = elem m i).
  { intros i. unfold elem, m'. cbn [msize mptr mbits].
    destruct (Nat.ltb_spec 64 (S (msize m))), (Nat.ltb_spec 64 (msize m)); try reflexivity; lia. }
  assert (W' : wf m').
  { destruct W as [W1 W2]. split.
    - intros i Hi. rewrite EL. apply W1. cbn in Hi. lia.
    - cbn [m' msize mptr]. intros G. rewrite D. apply W2. lia. }
  destruct (mask_scan_backwards_ok m' (msize m) W' ltac:(cbn; lia)) as (z & E & Sr).
  exists z. split.
  - rewrite <- E. unfold mask_scan_backwards. cbn [m' msize mbits mptr].
    destruct (Nat.leb_spec (msize m) 64), (Nat.leb_spec (S (msize m)) 64); try lia; [reflexivity|].
    assert (Rd : forall k, rd m k = rd m' k) by reflexivity.
    assert (Sl : forall f i, scan_loop f m i = scan_loop f m' i).
    { induction f as [|f IH]; intros i; cbn [scan_loop]; [reflexivity|]. destruct (0 <? i)%Z; [|reflexivity].
      rewrite Rd. destruct (rd m' (Z.to_nat i / 64)); cbn [bind]; [|reflexivity]. destruct (N.eqb a 0); [apply IH|reflexivity]. }
    unfold m' in Rd, Sl. rewrite Rd, Sl. reflexivity.
  - destruct Sr as [[Z1 Z2]|(i & Z1 & Z2 & Z3 & Z4)].
    + left. split; [exact Z1|]. intros j Hj. rewrite <- EL. now apply Z2.
    + right. exists i. split; [exact Z1|]. split; [exact Z2|]. split; [now rewrite <- EL|]. intros j Hj. rewrite <- EL. now apply Z4.
Qed.

(* What is fixed about a heap. *)
Definition config (m : mspace) : Prop :=
  1 <= maxlines m /\ maxsize m = 32 * (maxlines m + 1) /\ (N.of_nat (maxlines m) < UINT32_MAX)%N /\
  maxlines m mod 64 <> 0 /\ msize (headmask m) = maxlines m /\ wf (headmask m) /\ elem (headmask m) 0 = true.

Definition hd (m : mspace) : nat -> bool := elem (headmask m).
Definition line_of (m : mspace) (p : N) : nat := N.to_nat ((p - space m) / 32).
Definition last_of (m : mspace) (x : nat) : nat := Nat.min x (maxlines m - 1).
Definition tgt (m : mspace) (p : N) (s n : nat) : Prop :=
  is_mspace_ptr m p = true /\ seg (hd m) (maxlines m) s n /\ covers s n (last_of m (line_of m p)).

Lemma line_bound m p : config m -> is_mspace_ptr m p = true -> line_of m p <= maxlines m.
Proof.
  intros (C1 & C2 & _) P. unfold is_mspace_ptr in P. rewrite C2 in P. unfold line_of.
  assert (((p - space m) / 32 < N.of_nat (maxlines m) + 1)%N) by (apply N.div_lt_upper_bound; lia). lia.
Qed.

Lemma find_block_ok m p : config m -> is_mspace_ptr m p = true ->
  exists s n, find_block m p = Ok (s, n) /\ tgt m p s n.
Proof.
  intros C P. pose proof (line_bound m p C P) as LB. pose proof C as (C1 & C2 & C3 & C4 & C5 & C6 & C7).
  unfold find_block. change (N.of_nat LINE_SIZE) with 32%N. fold (line_of m p).
  assert (Sc : exists z, mask_scan_backwards (headmask m) (line_of m p) = Ok z /\ scan_res (headmask m) (line_of m p) z).
  { destruct (Nat.eq_dec (line_of m p) (maxlines m)) as [E|E].
    - rewrite E, <- C5. apply scan_margin; [exact C6|now rewrite C5].
    - apply mask_scan_backwards_ok; [exact C6|lia]. }
  destruct Sc as (z & E & Sr). rewrite E. cbn [bind].
  destruct Sr as [[_ Z2]|(i & -> & I1 & I2 & I3)]; [rewrite Z2 in C7 by lia; discriminate|].
  destruct (Z.ltb_spec (Z.of_nat i) 0); [lia|]. rewrite Nat2Z.id.
  assert (Hi : i < maxlines m).
  { destruct (Nat.lt_ge_cases i (maxlines m)) as [Q|Q]; [exact Q|]. destruct C6 as [W _]. rewrite W in I2 by lia. discriminate. }
  destruct (Nat.ltb_spec (i + 1) (maxlines m)) as [Q|Q].
  - destruct (mask_count_clear_ok (headmask m) (i + 1) C6 ltac:(lia)) as (c & Ec & (R1 & R2 & R3)). rewrite Ec. cbn [bind].
    exists i, (1 + c). split; [reflexivity|]. split; [exact P|]. rewrite C5 in *.
    split.
    + split; [lia|]. split; [lia|]. split; [exact I2|]. split.
      * intros x Hx. apply R2. lia.
      * intros G. replace (i + (1 + c)) with (i + 1 + c) by lia. apply R3. lia.
    + unfold covers, last_of. split; [lia|].
      destruct (Nat.lt_ge_cases (Nat.min (line_of m p) (maxlines m - 1)) (i + (1 + c))) as [K|K]; [exact K|].
      specialize (R3 ltac:(lia)). rewrite (I3 (i + 1 + c)) in R3 by lia. discriminate.
  - cbn [bind]. exists i, (1 + 0). split; [reflexivity|]. split; [exact P|]. split.
    + split; [lia|]. split; [lia|]. split; [exact I2|]. split; lia.
    + unfold covers, last_of. lia.
Qed.

Lemma tgt_unique m p s n s' n' : tgt m p s n -> tgt m p s' n' -> s = s' /\ n = n'.
Proof. intros (_ & A & B) (_ & A' & B'). eapply seg_unique; eauto. Qed.

Lemma enc_dec s n : (N.of_nat n < 4294967296)%N -> dec_line (enc s n) = s /\ dec_len (enc s n) = n.
Proof.
  intros Hn. unfold dec_line, dec_len, enc. split.
  - rewrite N.shiftr_lor, N.shiftr_shiftl_l by lia. replace (32 - 32)%N with 0%N by reflexivity. rewrite N.shiftl_0_r.
    replace (N.shiftr (N.of_nat n) 32) with 0%N.
    + rewrite N.lor_0_r. apply Nat2N.id.
    + rewrite N.shiftr_div_pow2. symmetry. apply N.div_small. exact Hn.
  - change 4294967295%N with (N.ones 32). rewrite N.land_lor_distr_l, !N.land_ones, N.shiftl_mul_pow2, N.mod_mul by discriminate.
    rewrite N.lor_0_l, N.mod_small by exact Hn. apply Nat2N.id.
Qed.

Lemma enc_inj m s n s' n' : config m -> seg (hd m) (maxlines m) s n -> seg (hd m) (maxlines m) s' n' -> enc s n = enc s' n' -> s = s' /\ n = n'.
Proof.
  intros (_ & _ & C & _) (_ & A & _) (_ & B & _) E. unfold UINT32_MAX in C.
  destruct (enc_dec s n) as [E1 E2]; [lia|]. destruct (enc_dec s' n') as [E3 E4]; [lia|]. rewrite E in E1, E2. split; congruence.
Qed.

(* ---- marking ---- *)
Definition unmarked (L : nat) (mk : mask) : nat := length (filter (fun x => negb (elem mk x)) (seq 0 L)).

Lemma filter_len_mono {A} (f g : A -> bool) l : (forall x, f x = true -> g x = true) -> length (filter f l) <= length (filter g l).
Proof.
  intros H. induction l as [|x l IH]; [reflexivity|]. cbn [filter]. destruct (f x) eqn:E.
  - rewrite (H _ E). cbn. lia.
  - destruct (g x); cbn; lia.
Qed.
Lemma filter_len_strict {A} (f g : A -> bool) l x : (forall x, f x = true -> g x = true) -> In x l -> f x = false -> g x = true ->
  length (filter f l) < length (filter g l).
Proof.
  intros H. induction l as [|y l IH]; intros I F G; [destruct I|]. cbn [filter]. destruct I as [->|I].
  - rewrite F, G. cbn. pose proof (filter_len_mono f g l H). lia.
  - specialize (IH I F G). destruct (f y) eqn:E; [rewrite (H _ E); cbn; lia|]. destruct (g y); cbn; lia.
Qed.

Section Mark.
Variable m : mspace.
Hypothesis C : config m.
Variable rt : N -> Prop.

Inductive sreach : nat -> nat -> Prop :=
| sr_root w s n : rt w -> tgt m w s n -> sreach s n
| sr_word s n k s' n' : sreach s n -> 4 * s <= k < 4 * (s + n) -> tgt m (words m k) s' n' -> sreach s' n'.

Lemma sreach_seg s n : sreach s n -> seg (hd m) (maxlines m) s n.
Proof. intros H. inversion H as [w s0 n0 A B|s0 n0 k s' n' A B D]; subst; [apply B|apply D]. Qed.

Definition closed (mk : mask) (s n : nat) : Prop :=
  forall k s' n', 4 * s <= k < 4 * (s + n) -> tgt m (words m k) s' n' -> elem mk s' = true.

Definition marks (mk : mask) (wl : list N) (cur : nat -> nat -> Prop) : Prop :=
  msize mk = maxlines m /\ wf mk /\
  (forall s n, seg (hd m) (maxlines m) s n -> elem mk s = true -> forall x, covers s n x -> elem mk x = true) /\
  (forall x, elem mk x = true -> exists s n, covers s n x /\ elem mk s = true /\ sreach s n) /\
  (forall e, In e wl -> exists s n, e = enc s n /\ seg (hd m) (maxlines m) s n /\ elem mk s = true) /\
  (forall s n, seg (hd m) (maxlines m) s n -> elem mk s = true -> In (enc s n) wl \/ cur s n \/ closed mk s n).

Lemma mark_root_ok p mk wl cur : marks mk wl cur -> (forall s n, tgt m p s n -> sreach s n) ->
  exists mk' wl', mark_root m p (mk, wl) = Ok (mk', wl') /\ marks mk' wl' cur /\
    (forall s n, tgt m p s n -> elem mk' s = true) /\ (forall x, elem mk x = true -> elem mk' x = true) /\
    unmarked (maxlines m) mk' + length wl' <= unmarked (maxlines m) mk + length wl.
Proof.
  intros M Hp. unfold mark_root. destruct (is_mspace_ptr m p) eqn:P.
  2: { exists mk, wl. split; [reflexivity|]. split; [exact M|]. split; [|split; [auto|lia]]. intros s n [T _]. congruence. }
  pose proof (line_bound m p C P) as LB. destruct (find_block_ok m p C P) as (s & n & E & T).
  pose proof C as (C1 & C2 & C3 & C4 & C5 & C6 & C7). pose proof T as (_ & Sg & Cv). pose proof Sg as (S1 & S2 & S3 & S4 & S5).
  destruct (N.leb_spec UINT32_MAX ((p - space m) / N.of_nat LINE_SIZE)) as [Q|Q].
  { change (N.of_nat LINE_SIZE) with 32%N in Q. unfold line_of in LB. lia. }
  rewrite E. cbn [bind]. destruct (N.leb_spec UINT32_MAX (N.of_nat n)) as [Q'|_]; [lia|].
  pose proof M as (M1 & M2 & M3 & M4 & M5 & M6).
  rewrite mask_test_ok by (try exact M2; lia). cbn [bind]. destruct (elem mk s) eqn:Es.
  { exists mk, wl. split; [reflexivity|]. split; [exact M|]. split; [|split; [auto|lia]].
    intros s' n' T'. destruct (tgt_unique _ _ _ _ _ _ T T') as [<- _]. exact Es. }
  destruct (mask_set_range_ok mk s n M2 ltac:(lia)) as (mk' & Em & D1 & D2 & D3). rewrite Em. cbn [bind].
  assert (Mono : forall x, elem mk x = true -> elem mk' x = true) by (intros x Hx; rewrite D3, Hx; apply orb_true_r).
  assert (New : forall x, covers s n x -> elem mk' x = true).
  { intros x Hx. rewrite D3. unfold in_range, covers in *. replace (s <=? x) with true by lia. replace (x <? s + n) with true by lia. reflexivity. }
  exists mk', (enc s n :: wl). split; [reflexivity|]. split; [|split; [|split]].
  - split; [congruence|]. split; [exact D2|]. split; [|split; [|split]].
    + intros s' n' Sg' Es' x Hx. rewrite D3 in Es'. apply orb_prop in Es'. destruct Es' as [Es'|Es'].
      * assert (covers s n s') by (unfold in_range, covers in *; lia).
        assert (covers s' n' s') by (clear - Sg'; destruct Sg'; unfold covers; lia).
        destruct (seg_unique _ _ _ _ _ _ _ Sg Sg' H H0) as [<- <-]. now apply New.
      * apply Mono. now apply (M3 s' n').
    + intros x Hx. rewrite D3 in Hx. apply orb_prop in Hx. destruct Hx as [Hx|Hx].
      * exists s, n. split; [unfold in_range, covers in *; lia|]. split; [apply New; unfold covers; lia|]. now apply Hp.
      * destruct (M4 x Hx) as (s' & n' & A1 & A2 & A3). exists s', n'. auto.
    + intros e [<-|He].
      * exists s, n. split; [reflexivity|]. split; [exact Sg|]. apply New. unfold covers. lia.
      * destruct (M5 e He) as (s' & n' & A1 & A2 & A3). exists s', n'. auto.
    + intros s' n' Sg' Es'. rewrite D3 in Es'. apply orb_prop in Es'. destruct Es' as [Es'|Es'].
      * assert (covers s n s') by (unfold in_range, covers in *; lia).
        assert (covers s' n' s') by (clear - Sg'; destruct Sg'; unfold covers; lia).
        destruct (seg_unique _ _ _ _ _ _ _ Sg Sg' H H0) as [<- <-]. left. now left.
      * destruct (M6 s' n' Sg' Es') as [A|[A|A]]; [left; now right|right; now left|right; right].
        intros k s2 n2 Hk T2. apply Mono. now apply (A k s2 n2).
  - intros s' n' T'. destruct (tgt_unique _ _ _ _ _ _ T T') as [<- _]. apply New. unfold covers. lia.
  - exact Mono.
  - cbn [length]. assert (unmarked (maxlines m) mk' < unmarked (maxlines m) mk); [|lia].
    unfold unmarked. apply (filter_len_strict _ _ _ s).
    + intros x Hx. destruct (elem mk x) eqn:Q'; [|reflexivity]. rewrite (Mono _ Q') in Hx. discriminate.
    + apply in_seq. lia.
    + rewrite New; [reflexivity|unfold covers; lia].
    + now rewrite Es.
Qed.

Lemma mark_all_ok : forall ps mk wl cur, marks mk wl cur -> (forall p, In p ps -> forall s n, tgt m p s n -> sreach s n) ->
  exists mk' wl', mark_all m ps (mk, wl) = Ok (mk', wl') /\ marks mk' wl' cur /\
    (forall p, In p ps -> forall s n, tgt m p s n -> elem mk' s = true) /\ (forall x, elem mk x = true -> elem mk' x = true) /\
    unmarked (maxlines m) mk' + length wl' <= unmarked (maxlines m) mk + length wl.
Proof.
  induction ps as [|p ps IH]; intros mk wl cur M Hp.
  - exists mk, wl. split; [reflexivity|]. split; [exact M|]. split; [intros p []|]. auto.
  - destruct (mark_root_ok p mk wl cur M) as (mk1 & wl1 & E & M1 & T1 & G1 & U1); [apply Hp; now left|].
    destruct (IH mk1 wl1 cur M1) as (mk2 & wl2 & E2 & M2 & T2 & G2 & U2); [intros q Hq; apply Hp; now right|].
    exists mk2, wl2. cbn [mark_all]. rewrite E. cbn [bind]. split; [exact E2|]. split; [exact M2|]. split; [|split; [auto|lia]].
    intros q [<-|Hq] s n T; [apply G2; now apply (T1 s n)|now apply (T2 q Hq s n)].
Qed.

Definition nocur : nat -> nat -> Prop := fun _ _ => False.

Lemma mark_loop_ok : forall fuel mk wl, marks mk wl nocur -> unmarked (maxlines m) mk + length wl <= fuel ->
  exists mk', mark_loop fuel m (mk, wl) = Ok mk' /\ marks mk' [] nocur /\ (forall x, elem mk x = true -> elem mk' x = true).
Proof.
  induction fuel as [|fuel IH]; intros mk wl M F.
  - destruct wl as [|e wl]; [|cbn in F; lia]. exists mk. auto.
  - destruct wl as [|e wl]; [exists mk; auto|].
    pose proof M as (M1 & M2 & M3 & M4 & M5 & M6).
    destruct (M5 e (or_introl eq_refl)) as (s & n & -> & Sg & Es). cbn [mark_loop snd fst].
    destruct (enc_dec s n) as [D1 D2].
    { destruct C as (_ & _ & C3 & _). destruct Sg as (_ & S2 & _). unfold UINT32_MAX in C3. lia. }
    rewrite D1, D2.
    assert (Rs : sreach s n).
    { destruct (M4 s Es) as (s' & n' & A & _ & B). assert (covers s n s) by (destruct Sg; unfold covers; lia).
      destruct (seg_unique _ _ _ _ _ _ _ Sg (sreach_seg _ _ B) H A) as [<- <-]. exact B. }
    set (cur := fun s' n' => s' = s /\ n' = n).
    assert (Mc : marks mk wl cur).
    { split; [exact M1|]. split; [exact M2|]. split; [exact M3|]. split; [exact M4|]. split.
      - intros e He. apply M5. now right.
      - intros s' n' Sg' Es'. destruct (M6 s' n' Sg' Es') as [[A|A]|[[]|A]]; [|now left|now right; right].
        right. left. symmetry in A. now apply (enc_inj m). }
    destruct (mark_all_ok (block_words m s n) mk wl cur Mc) as (mk1 & wl1 & E & Mn & T & G & U).
    { intros p Hp s' n' T. apply in_map_iff in Hp. destruct Hp as (k & <- & Hk). apply in_seq in Hk. unfold LINE_WORDS in Hk.
      eapply sr_word; [exact Rs| |exact T]. lia. }
    rewrite E. cbn [bind].
    destruct (IH mk1 wl1) as (mk2 & E2 & M2' & G2).
    + destruct Mn as (N1 & N2 & N3 & N4 & N5 & N6). split; [exact N1|]. split; [exact N2|]. split; [exact N3|]. split; [exact N4|]. split; [exact N5|].
      intros s' n' Sg' Es'. destruct (N6 s' n' Sg' Es') as [A|[[-> ->]|A]]; [now left| |now right; right].
      right. right. intros k s2 n2 Hk T2. apply (T (words m k)) with (n := n2); [|exact T2].
      unfold block_words. apply in_map. apply in_seq. unfold LINE_WORDS. lia.
    + cbn [length] in F. lia.
    + exists mk2. split; [exact E2|]. split; [exact M2'|]. auto.
Qed.

Lemma marks_init : marks (mask_init (maxlines m)) [] nocur.
Proof.
  destruct (mask_init_denotes (maxlines m)) as (D1 & D2 & D3).
  assert (D : forall x, elem (mask_init (maxlines m)) x = false).
  { intros x. destruct (Nat.lt_ge_cases x (maxlines m)); [now apply D3|]. apply D2. lia. }
  split; [exact D1|]. split; [exact D2|]. split; [|split; [|split]].
  - intros s n _ E. rewrite D in E. discriminate.
  - intros x E. rewrite D in E. discriminate.
  - intros e [].
  - intros s n _ E. rewrite D in E. discriminate.
Qed.

(* When the work list is empty the marked lines are those of the reachable blocks. *)
Lemma marked_reach mk : marks mk [] nocur -> (forall w s n, rt w -> tgt m w s n -> elem mk s = true) ->
  forall x, elem mk x = true <-> exists s n, sreach s n /\ covers s n x.
Proof.
  intros (M1 & M2 & M3 & M4 & M5 & M6) Hr x. split.
  - intros E. destruct (M4 x E) as (s & n & A & _ & B). eauto.
  - intros (s & n & Rs & Cv).
    assert (K : elem mk s = true).
    { clear Cv. induction Rs as [w s n A B|s n k s' n' A IH B D]; [now apply (Hr w s n)|].
      destruct (M6 s n (sreach_seg _ _ A) IH) as [[]|[[]|Q]]. now apply (Q k s' n'). }
    now apply (M3 s n (sreach_seg _ _ Rs) K).
Qed.
End Mark.

(* ---- the free list ---- *)
Fixpoint fl_ok (a : nat) (fl : list (nat * nat)) (b : nat) : Prop :=
  match fl with
  | [] => a <= b
  | (p, z) :: r => exists l c, p = 32 * l /\ z = 32 * c /\ a <= l /\ 1 <= c /\ fl_ok (l + c) r b
  end.
Definition on_list (fl : list (nat * nat)) (x : nat) : Prop := exists l c, In (32 * l, 32 * c) fl /\ covers l c x.

Lemma fl_le : forall fl a b, fl_ok a fl b -> a <= b.
Proof.
  induction fl as [|[p z] fl IH]; intros a b H; [exact H|]. destruct H as (l & c & _ & _ & A & B & D). specialize (IH _ _ D). lia.
Qed.
Lemma fl_app : forall fl a b l c d, fl_ok a fl b -> b <= l -> 1 <= c -> l + c <= d -> fl_ok a (fl ++ [(32 * l, 32 * c)]) d.
Proof.
  induction fl as [|[p z] fl IH]; intros a b l c d H B K D.
  - cbn in *. exists l, c. split; [reflexivity|]. split; [reflexivity|]. split; [lia|]. split; [exact K|]. exact D.
  - destruct H as (l0 & c0 & E1 & E2 & A & B0 & D0). exists l0, c0. split; [exact E1|]. split; [exact E2|]. split; [exact A|]. split; [exact B0|].
    now apply (IH _ b).
Qed.
Lemma fl_weaken_r : forall fl a b d, fl_ok a fl b -> b <= d -> fl_ok a fl d.
Proof.
  induction fl as [|[p z] fl IH]; intros a b d H D; [cbn in *; lia|].
  destruct H as (l0 & c0 & E1 & E2 & A & B0 & D0). exists l0, c0. repeat (split; [assumption|]). now apply (IH _ b).
Qed.
Lemma fl_weaken_l : forall fl a a' b, fl_ok a fl b -> a' <= a -> fl_ok a' fl b.
Proof.
  intros [|[p z] fl] a a' b H D; [cbn in *; lia|].
  destruct H as (l0 & c0 & E1 & E2 & A & B0 & D0). exists l0, c0. split; [assumption|]. split; [assumption|]. split; [lia|]. auto.
Qed.
Lemma fl_bounds : forall fl a b l c, fl_ok a fl b -> In (32 * l, 32 * c) fl -> a <= l /\ 1 <= c /\ l + c <= b.
Proof.
  induction fl as [|[p z] fl IH]; intros a b l c H E; [destruct E|]. destruct E as [E|E].
  - injection E as -> ->. destruct H as (l0 & c0 & E1 & E2 & A & B0 & D0). apply fl_le in D0. lia.
  - destruct H as (l0 & c0 & E1 & E2 & A & B0 & D0). specialize (IH _ _ _ _ D0 E). lia.
Qed.
Lemma fl_aligned : forall fl a b e, fl_ok a fl b -> In e fl -> exists l c, e = (32 * l, 32 * c).
Proof.
  induction fl as [|[p z] fl IH]; intros a b e H E; [destruct E|]. destruct E as [E|E].
  - destruct H as (l0 & c0 & E1 & E2 & _). exists l0, c0. congruence.
  - destruct H as (l0 & c0 & _ & _ & _ & _ & D0). eauto.
Qed.

(* Taking the first block that fits. *)
Lemma first_fit_ok : forall fl a b n p fl', fl_ok a fl b -> 1 <= n -> first_fit (n * LINE_SIZE) fl = Some (p, fl') ->
  exists s, p = 32 * s /\ fl_ok a fl' b /\ s + n <= b /\ a <= s /\
    (forall x, covers s n x -> on_list fl x) /\ (forall x, on_list fl' x <-> on_list fl x /\ ~ covers s n x).
Proof.
  induction fl as [|[p z] fl IH]; intros a b n q fl' H Hn E; [discriminate|].
  destruct H as (l & c & -> & -> & A & B & D). cbn [first_fit] in E. unfold LINE_SIZE in *.
  destruct (Nat.leb_spec (n * 32) (32 * c)) as [Q|Q].
  - assert (E0 : 32 * l = q) by (destruct (32 * c =? n * 32); congruence). subst q. exists l. split; [reflexivity|]. pose proof (fl_le _ _ _ D) as LE.
    assert (Rest : forall x, on_list fl x -> l + c <= x).
    { intros x (l1 & c1 & I1 & I2). destruct (fl_bounds _ _ _ _ _ D I1). unfold covers in I2. lia. }
    assert (Whole : forall x, on_list ((32 * l, 32 * c) :: fl) x <-> covers l c x \/ on_list fl x).
    { intros x. split.
      - intros (l1 & c1 & [I1|I1] & I2); [left; injection I1 as ? ?; replace l with l1 by lia; replace c with c1 by lia; exact I2|right; exists l1, c1; auto].
      - intros [I|(l1 & c1 & I1 & I2)]; [exists l, c; split; [now left|exact I]|exists l1, c1; split; [now right|exact I2]]. }
    destruct (Nat.eqb_spec (32 * c) (n * 32)) as [Z|Z].
    + assert (fl = fl') by congruence. subst fl'. clear E. assert (c = n) by lia. subst c. split; [refine (fl_weaken_l fl (l + n) a b D _); lia|]. split; [lia|]. split; [exact A|]. split.
      * intros x Hx. apply Whole. now left.
      * intros x. rewrite Whole. split; [intros O; split; [now right|]; specialize (Rest _ O); unfold covers; lia|]. intros [[O|O] K]; [contradiction|exact O].
    + assert (E1 : (32 * l + n * 32, 32 * c - n * 32) :: fl = fl') by congruence. subst fl'. clear E. assert (n < c) by lia. split.
      * cbn [fl_ok]. exists (l + n), (c - n). split; [lia|]. split; [lia|]. split; [lia|]. split; [lia|]. replace (l + n + (c - n)) with (l + c) by lia. exact D.
      * split; [lia|]. split; [exact A|]. split.
        -- intros x Hx. apply Whole. left. unfold covers in *. lia.
        -- intros x. rewrite Whole. split.
           ++ intros (l1 & c1 & [I1|I1] & I2).
              ** injection I1 as ? ?. unfold covers in *. split; [left|]; lia.
              ** split; [right; exists l1, c1; auto|]. assert (O : on_list fl x) by (exists l1, c1; auto). specialize (Rest _ O). unfold covers. lia.
           ++ intros [[O|(l1 & c1 & I1 & I2)] K].
              ** exists (l + n), (c - n). split; [left; f_equal; lia|]. unfold covers in *. lia.
              ** exists l1, c1. split; [now right|exact I2].
  - destruct (first_fit (n * 32) fl) as [[b0 fl0]|] eqn:F; [|discriminate]. injection E as <- <-.
    destruct (IH _ _ _ _ _ D Hn F) as (s & -> & K1 & K2 & K3 & K4 & K5). exists s. split; [reflexivity|].
    split; [exists l, c; auto 6|]. split; [exact K2|]. split; [lia|].
    assert (Whole : forall f x, on_list ((32 * l, 32 * c) :: f) x <-> covers l c x \/ on_list f x).
    { intros f x. split.
      - intros (l1 & c1 & [I1|I1] & I2); [left; injection I1 as ? ?; replace l with l1 by lia; replace c with c1 by lia; exact I2|right; exists l1, c1; auto].
      - intros [I|(l1 & c1 & I1 & I2)]; [exists l, c; split; [now left|exact I]|exists l1, c1; split; [now right|exact I2]]. }
    split.
    + intros x Hx. apply Whole. right. now apply K4.
    + intros x. rewrite !Whole, K5. split.
      * intros [O|[O N]]; [split; [now left|]; unfold covers in *; lia|auto].
      * intros [[O|O] N]; auto.
Qed.

Lemma first_fit_none : forall fl n, first_fit (n * LINE_SIZE) fl = None -> forall l c, In (32 * l, 32 * c) fl -> c < n.
Proof.
  unfold LINE_SIZE. induction fl as [|[p z] fl IH]; intros n E l c I; [destruct I|]. destruct I as [I|I].
  - assert (z = 32 * c) by congruence. subst z. clear I. cbn [first_fit] in E. destruct (Nat.leb_spec (n * 32) (32 * c)); [discriminate|]. lia.
  - cbn [first_fit] in E. destruct (Nat.leb_spec (n * 32) z); [discriminate|]. destruct (first_fit (n * 32) fl) as [[? ?]|] eqn:F; [discriminate|]. now apply (IH n F l c).
Qed.

(* ---- the sweep ---- *)
Definition is_run (mk : nat -> bool) (L l c : nat) : Prop :=
  1 <= c /\ l + c <= L /\ (forall x, covers l c x -> mk x = false) /\
  (l = 0 \/ mk (l - 1) = true) /\ (l + c = L \/ mk (l + c) = true).

Lemma sweep_ok L mk : msize mk = L -> wf mk -> forall fuel line h fl,
  msize h = L -> wf h -> line <= L -> L - line <= fuel ->
  fl_ok 0 fl line ->
  (line = 0 \/ elem mk (line - 1) = true \/ line = L \/ elem mk line = true) ->
  (forall x, on_list fl x <-> x < line /\ elem mk x = false) ->
  (forall l c, In (32 * l, 32 * c) fl -> is_run (elem mk) L l c) ->
  exists h' fl', sweep fuel L mk line h fl = Ok (h', fl') /\ msize h' = L /\ wf h' /\
    (forall x, elem h' x = elem h x || ((line <=? x) && (x <? L) && negb (elem mk x))) /\
    fl_ok 0 fl' L /\ (forall x, on_list fl' x <-> x < L /\ elem mk x = false) /\
    (forall l c, In (32 * l, 32 * c) fl' -> is_run (elem mk) L l c).
Proof.
  intros Lm Wm. induction fuel as [|fuel IH]; intros line h fl Lh Wh Le F K B O R.
  - assert (line = L) by lia. subst line. cbn [sweep]. destruct (Nat.ltb_spec L L); [lia|]. exists h, fl.
    split; [reflexivity|]. split; [exact Lh|]. split; [exact Wh|]. split; [intros x; replace ((L <=? x) && (x <? L)) with false by lia; cbn; now rewrite orb_false_r|]. auto.
  - cbn [sweep]. destruct (Nat.ltb_spec line L) as [Q|Q].
    2: { assert (line = L) by lia. subst line. exists h, fl. split; [reflexivity|]. split; [exact Lh|]. split; [exact Wh|].
         split; [intros x; replace ((L <=? x) && (x <? L)) with false by lia; cbn; now rewrite orb_false_r|]. auto. }
    destruct (mask_count_clear_ok mk line Wm ltac:(lia)) as (c & Ec & (R1 & R2 & R3)). rewrite Ec. cbn [bind]. rewrite Lm in *.
    destruct (Nat.eqb_spec c 0) as [Z|Z].
    + subst c. rewrite Nat.add_0_r in *. specialize (R3 Q).
      destruct (IH (S line) h fl Lh Wh ltac:(lia) ltac:(lia)) as (h' & fl' & E & A1 & A2 & A3 & A4 & A5 & A6).
      * apply (fl_weaken_r _ _ _ _ K). lia.
      * right. left. now replace (S line - 1) with line by lia.
      * intros x. rewrite O. split; [intros [U V]; split; [lia|exact V]|]. intros [U V]. split; [|exact V]. destruct (Nat.eq_dec x line) as [->|]; [congruence|lia].
      * exact R.
      * exists h', fl'. split; [exact E|]. split; [exact A1|]. split; [exact A2|]. split; [|auto].
        intros x. rewrite A3. destruct (Nat.eq_dec x line) as [->|Nx]; [rewrite R3; cbn; now rewrite !andb_false_r|].
        f_equal. f_equal. f_equal. lia.
    + assert (Hm : elem mk line = false) by (apply R2; lia).
      destruct (mask_set_range_ok h line c Wh ltac:(lia)) as (h1 & Eh & D1 & D2 & D3). rewrite Eh. cbn [bind].
      destruct (IH (line + c) h1 (fl ++ [(line * LINE_SIZE, c * LINE_SIZE)]) ltac:(congruence) D2 ltac:(lia) ltac:(lia)) as (h' & fl' & E & A1 & A2 & A3 & A4 & A5 & A6).
      * unfold LINE_SIZE. rewrite (Nat.mul_comm line), (Nat.mul_comm c). apply (fl_app fl 0 line line c); [exact K|lia|lia|lia].
      * right. right. destruct (Nat.eq_dec (line + c) L) as [E|E]; [now left|right; apply R3; lia].
      * intros x. unfold LINE_SIZE. rewrite (Nat.mul_comm line), (Nat.mul_comm c). split.
        -- intros (l1 & c1 & I1 & I2). apply in_app_or in I1. destruct I1 as [I1|[I1|[]]].
           ++ assert (U : on_list fl x) by (exists l1, c1; auto). apply O in U. split; [lia|apply U].
           ++ injection I1 as ? ?. unfold covers in I2. split; [lia|]. apply R2. lia.
        -- intros [U V]. destruct (Nat.lt_ge_cases x line) as [W|W].
           ++ assert (U' : on_list fl x) by (apply O; auto). destruct U' as (l1 & c1 & I1 & I2). exists l1, c1. split; [apply in_or_app; now left|exact I2].
           ++ exists line, c. split; [apply in_or_app; right; now left|unfold covers; lia].
      * intros l1 c1 I1. apply in_app_or in I1. destruct I1 as [I1|[I1|[]]]; [now apply R|].
        unfold LINE_SIZE in I1. injection I1 as ? ?. assert (l1 = line) by lia. assert (c1 = c) by lia. subst l1 c1.
        split; [lia|]. split; [lia|]. split; [intros x Hx; apply R2; exact Hx|]. split.
        -- destruct B as [B|[B|[B|B]]]; [now left|now right|lia|congruence].
        -- destruct (Nat.eq_dec (line + c) L) as [E'|E']; [now left|right; apply R3; lia].
      * exists h', fl'. split; [exact E|]. split; [exact A1|]. split; [exact A2|]. split; [|auto].
        intros x. rewrite A3, D3. destruct (Nat.lt_ge_cases x line) as [W|W].
        -- replace (in_range line c x) with false by (unfold in_range; lia). replace (line + c <=? x) with false by lia. replace (line <=? x) with false by lia. reflexivity.
        -- destruct (Nat.lt_ge_cases x (line + c)) as [W'|W'].
           ++ replace (in_range line c x) with true by (unfold in_range; lia). rewrite (R2 x) by lia. replace (line <=? x) with true by lia. replace (x <? L) with true by lia. cbn. now rewrite orb_true_r.
           ++ replace (in_range line c x) with false by (unfold in_range; lia). replace (line + c <=? x) with true by lia. replace (line <=? x) with true by lia. reflexivity.
Qed.
