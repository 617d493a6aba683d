From Coq Require Import List ZArith Bool Ascii Lia.
From Verif Require Import Base CalModel.
From Verif Require CalSpec JitModel.
Import ListNotations.
Local Open Scope Z_scope.
Import CalSpec (leap, year_days, month_days, sum, days_to, is_date, digit, padded, iso).

(* The date in a struct tm and in a TIME_RECORD *)
Definition tm_date (t : tm) : CalSpec.date :=
  CalSpec.Date (1900 + tm_year t) (tm_mon t) (tm_mday t) (tm_yday t) (tm_wday t) (tm_hour t) (tm_min t) (tm_sec t).
Definition tr_date (r : time_record) : CalSpec.date :=
  CalSpec.Date (year r) (month r) (day r) (dayofyear r) (weekday r) (hour r) (minute r) (second r).
(* A record is that of an instant in millionths of a second since 1970 *)
Definition shows (r : time_record) (t : Z) : Prop :=
  is_date (t / 1000000) (tr_date r) /\ microsecond r = t mod 1000000.
(* What is asked of the C library *)
Definition sound_library (gmtime_r : Z -> tm) : Prop := forall s, is_date s (tm_date (gmtime_r s)).

(* ---- years ---- *)
Lemma sum_app : forall a b, sum (a ++ b) = sum a + sum b.
Proof. induction a; intros b; unfold sum in *; cbn [fold_right app]; [lia|]. rewrite IHa. lia. Qed.
Lemma days_step : forall y, days_to (y + 1) = days_to y + year_days y.
Proof.
  intros y. unfold days_to. destruct (Z.le_gt_cases 1970 y).
  - replace (Z.to_nat (1970 - y)) with O by lia. replace (Z.to_nat (1970 - (y + 1))) with O by lia.
    replace (Z.to_nat (y + 1 - 1970)) with (S (Z.to_nat (y - 1970))) by lia.
    rewrite seq_S, map_app, sum_app. cbn [map]. replace (1970 + Z.of_nat (0 + Z.to_nat (y - 1970))) with y by lia.
    unfold sum. cbn [fold_right seq map]. lia.
  - replace (Z.to_nat (y - 1970)) with O by lia. replace (Z.to_nat (y + 1 - 1970)) with O by lia.
    replace (Z.to_nat (1970 - y)) with (S (Z.to_nat (1970 - (y + 1)))) by lia.
    rewrite seq_S, map_app, sum_app. cbn [map]. replace (1969 - Z.of_nat (0 + Z.to_nat (1970 - (y + 1)))) with y by lia.
    unfold sum. cbn [fold_right seq map]. lia.
Qed.
Lemma year_days_bounds : forall y, 365 <= year_days y <= 366.
Proof. intros. unfold year_days. destruct (leap y); lia. Qed.
Lemma days_mono : forall n y, days_to y + 365 * Z.of_nat n <= days_to (y + Z.of_nat n).
Proof.
  induction n; intros y; [replace (y + Z.of_nat 0) with y by lia; lia|].
  replace (y + Z.of_nat (S n)) with (y + Z.of_nat n + 1) by lia. rewrite days_step.
  pose proof (year_days_bounds (y + Z.of_nat n)). specialize (IHn y). lia.
Qed.
Lemma days_lt : forall a b, a < b -> days_to a + year_days a <= days_to b.
Proof.
  intros a b L. rewrite <- days_step. pose proof (days_mono (Z.to_nat (b - (a + 1))) (a + 1)) as H.
  replace (a + 1 + Z.of_nat (Z.to_nat (b - (a + 1)))) with b in H by lia. lia.
Qed.
Lemma div_step : forall a n, 0 < n -> (a + 1) / n = a / n + (if (a + 1) mod n =? 0 then 1 else 0).
Proof.
  intros a n N. pose proof (Z.div_mod a n ltac:(lia)). pose proof (Z.mod_pos_bound a n N).
  pose proof (Z.div_mod (a + 1) n ltac:(lia)). pose proof (Z.mod_pos_bound (a + 1) n N).
  destruct (Z.eqb_spec ((a + 1) mod n) 0); nia.
Qed.
Definition closed_days (y : Z) : Z := (y - 1970) * 365 + (y - 1969) / 4 - (y - 1901) / 100 + (y - 1601) / 400.
Lemma closed_step : forall y, closed_days (y + 1) = closed_days y + year_days y.
Proof.
  intros y. unfold closed_days.
  replace (y + 1 - 1969) with (y - 1969 + 1) by lia. replace (y + 1 - 1901) with (y - 1901 + 1) by lia.
  replace (y + 1 - 1601) with (y - 1601 + 1) by lia. rewrite !div_step by lia.
  replace ((y - 1969 + 1) mod 4) with (y mod 4) by (replace y with (y - 1969 + 1 + 492 * 4) at 1 by lia; apply Z.mod_add; lia).
  replace ((y - 1901 + 1) mod 100) with (y mod 100) by (replace y with (y - 1901 + 1 + 19 * 100) at 1 by lia; apply Z.mod_add; lia).
  replace ((y - 1601 + 1) mod 400) with (y mod 400) by (replace y with (y - 1601 + 1 + 4 * 400) at 1 by lia; apply Z.mod_add; lia).
  unfold year_days, leap.
  destruct (Z.eqb_spec (y mod 4) 0), (Z.eqb_spec (y mod 100) 0), (Z.eqb_spec (y mod 400) 0); cbn [andb orb negb]; try lia;
  exfalso; Z.div_mod_to_equations; lia.
Qed.
Lemma closed_is : forall y, days_to y = closed_days y.
Proof.
  assert (B : days_to 1970 = closed_days 1970) by reflexivity.
  assert (U : forall n, days_to (1970 + Z.of_nat n) = closed_days (1970 + Z.of_nat n)).
  { induction n; [exact B|]. replace (1970 + Z.of_nat (S n)) with (1970 + Z.of_nat n + 1) by lia.
    rewrite days_step, closed_step, IHn. reflexivity. }
  assert (D : forall n, days_to (1970 - Z.of_nat n) = closed_days (1970 - Z.of_nat n)).
  { induction n; [exact B|]. pose proof (days_step (1970 - Z.of_nat (S n))) as H1. pose proof (closed_step (1970 - Z.of_nat (S n))) as H2.
    replace (1970 - Z.of_nat (S n) + 1) with (1970 - Z.of_nat n) in * by lia. lia. }
  intros y. destruct (Z.le_gt_cases 1970 y).
  - replace y with (1970 + Z.of_nat (Z.to_nat (y - 1970))) by lia. apply U.
  - replace y with (1970 - Z.of_nat (Z.to_nat (1970 - y))) by lia. apply D.
Qed.

(* ---- days of a year ---- *)
Lemma firstn_sum : forall l m, (m < length l)%nat -> Forall (fun x => 0 < x) l ->
  sum (firstn (S m) l) = sum (firstn m l) + nth m l 0.
Proof.
  induction l; intros m L F; cbn [length] in L; [lia|]. inversion F; subst. destruct m.
  - cbn [firstn nth]. unfold sum. destruct l; cbn [fold_right]; lia.
  - change (firstn (S (S m)) (a :: l)) with (a :: firstn (S m) l). change (firstn (S m) (a :: l)) with (a :: firstn m l).
    change (sum (a :: firstn (S m) l)) with (a + sum (firstn (S m) l)).
    change (sum (a :: firstn m l)) with (a + sum (firstn m l)). rewrite IHl by (auto; lia). cbn [nth]. lia.
Qed.
Lemma firstn_mono : forall l a b, (a <= b)%nat -> Forall (fun x => 0 < x) l -> sum (firstn a l) <= sum (firstn b l).
Proof.
  induction l; intros x y L F; [rewrite !firstn_nil; lia|]. inversion F; subst.
  destruct x, y; cbn [firstn]; try lia.
  - assert (0 <= sum (firstn y l)). { clear - H2. revert y. induction H2; intros y; destruct y; cbn; try lia. specialize (IHForall y). unfold sum in *. lia. }
    change (0 <= a + sum (firstn y l)). lia.
  - change (a + sum (firstn x l) <= a + sum (firstn y l)). specialize (IHl x y ltac:(lia) H2). lia.
Qed.
Lemma month_days_pos : forall y, Forall (fun x => 0 < x) (month_days y).
Proof. intros. unfold month_days. destruct (leap y); repeat constructor. Qed.
Lemma month_days_len : forall y, length (month_days y) = 12%nat.
Proof. reflexivity. Qed.
Lemma month_days_sum : forall y, sum (month_days y) = year_days y.
Proof. intros. unfold month_days, year_days. destruct (leap y); reflexivity. Qed.

Lemma yday_bounds : forall s d, is_date s d -> 0 <= CalSpec.yday d < year_days (CalSpec.year d).
Proof.
  intros s d ((m & M & L & D & Y) & _). pose proof (month_days_pos (CalSpec.year d)) as P.
  pose proof (firstn_sum (month_days (CalSpec.year d)) m ltac:(rewrite month_days_len; lia) P) as A.
  pose proof (firstn_mono (month_days (CalSpec.year d)) (S m) 12 ltac:(lia) P) as B.
  pose proof (firstn_mono (month_days (CalSpec.year d)) 0 m ltac:(lia) P) as C.
  change (firstn 12 (month_days (CalSpec.year d))) with (month_days (CalSpec.year d)) in B. rewrite month_days_sum in B.
  change (sum (firstn 0 (month_days (CalSpec.year d)))) with 0 in C. lia.
Qed.

Lemma date_unique : forall s a b, is_date s a -> is_date s b -> a = b.
Proof.
  intros s a b A B. pose proof (yday_bounds _ _ A) as YA. pose proof (yday_bounds _ _ B) as YB.
  destruct A as ((ma & MA & LA & DA & EA) & HA1 & HA2 & HA3 & WA & SA).
  destruct B as ((mb & MB & LB & DB & EB) & HB1 & HB2 & HB3 & WB & SB).
  assert (T : days_to (CalSpec.year a) + CalSpec.yday a = days_to (CalSpec.year b) + CalSpec.yday b) by lia.
  assert (Y : CalSpec.year a = CalSpec.year b).
  { destruct (Z.lt_trichotomy (CalSpec.year a) (CalSpec.year b)) as [Q|[Q|Q]]; auto; apply days_lt in Q; lia. }
  rewrite <- Y in *. assert (YD : CalSpec.yday a = CalSpec.yday b) by lia.
  pose proof (month_days_pos (CalSpec.year a)) as P.
  pose proof (firstn_sum (month_days (CalSpec.year a)) ma ltac:(rewrite month_days_len; lia) P) as FA.
  pose proof (firstn_sum (month_days (CalSpec.year a)) mb ltac:(rewrite month_days_len; lia) P) as FB.
  assert (M : ma = mb).
  { destruct (Nat.lt_trichotomy ma mb) as [Q|[Q|Q]]; auto.
    - pose proof (firstn_mono (month_days (CalSpec.year a)) (S ma) mb ltac:(lia) P). lia.
    - pose proof (firstn_mono (month_days (CalSpec.year a)) (S mb) ma ltac:(lia) P). lia. }
  subst mb.
  assert (H : CalSpec.hour a = CalSpec.hour b) by lia. assert (MI : CalSpec.minute a = CalSpec.minute b) by lia.
  assert (SE : CalSpec.second a = CalSpec.second b) by lia. assert (MO : CalSpec.month a = CalSpec.month b) by lia.
  assert (DD : CalSpec.day a = CalSpec.day b) by lia. assert (W : CalSpec.wday a = CalSpec.wday b) by (rewrite WA, WB, YD; reflexivity).
  clear - Y YD H MI SE MO DD W. destruct a, b; cbn in *. subst. reflexivity.
Qed.

(* ---- a calendar ---- *)
Fixpoint years_up (fuel : nat) (y d : Z) : Z * Z :=
  match fuel with
  | O => (y, d)
  | S f => if d <? year_days y then (y, d) else years_up f (y + 1) (d - year_days y)
  end.
Fixpoint years_down (fuel : nat) (y d : Z) : Z * Z :=
  match fuel with
  | O => (y, d)
  | S f => if 0 <=? d then (y, d) else years_down f (y - 1) (d + year_days (y - 1))
  end.
Fixpoint find_month (l : list Z) (n m : Z) : Z * Z :=
  match l with
  | [] => (m, n)
  | x :: l => if n <? x then (m, n) else find_month l (n - x) (m + 1)
  end.
Definition civil (s : Z) : tm :=
  let days := s / 86400 in
  let '(y, yd) := if 0 <=? days then years_up (Z.to_nat (days / 365 + 1)) 1970 days
                  else years_down (Z.to_nat (- days / 365 + 2)) 1970 days in
  let '(m, d) := find_month (month_days y) yd 0 in
  Tm (s mod 60) (s / 60 mod 60) (s / 3600 mod 24) (d + 1) m (y - 1900) ((4 + days) mod 7) yd.

Lemma years_up_ok : forall fuel y d, 0 <= d < 365 * Z.of_nat fuel ->
  let '(y', d') := years_up fuel y d in days_to y' + d' = days_to y + d /\ 0 <= d' < year_days y'.
Proof.
  induction fuel; intros y d H; [lia|]. cbn [years_up]. destruct (Z.ltb_spec d (year_days y)); [lia|].
  pose proof (year_days_bounds y). specialize (IHfuel (y + 1) (d - year_days y) ltac:(lia)).
  destruct (years_up fuel (y + 1) (d - year_days y)). rewrite days_step in IHfuel. lia.
Qed.
Lemma years_down_ok : forall fuel y d, d < year_days y -> - 365 * Z.of_nat fuel + 365 <= d ->
  (fuel <> O) ->
  let '(y', d') := years_down fuel y d in days_to y' + d' = days_to y + d /\ 0 <= d' < year_days y'.
Proof.
  induction fuel; intros y d H H1 H2; [lia|]. cbn [years_down]. destruct (Z.leb_spec 0 d); [lia|].
  pose proof (year_days_bounds (y - 1)). specialize (IHfuel (y - 1) (d + year_days (y - 1)) ltac:(lia) ltac:(lia) ltac:(lia)).
  destruct (years_down fuel (y - 1) (d + year_days (y - 1))).
  pose proof (days_step (y - 1)) as E. replace (y - 1 + 1) with y in E by lia. lia.
Qed.
Lemma find_month_ok : forall l n k, 0 <= n < sum l ->
  let '(m, d) := find_month l n (Z.of_nat k) in exists j, m = Z.of_nat (k + j) /\ (j < length l)%nat /\
  0 <= d < nth j l 0 /\ n = sum (firstn j l) + d.
Proof.
  induction l; intros n k H; [cbn in H; lia|]. cbn [find_month]. change (sum (a :: l)) with (a + sum l) in H.
  destruct (Z.ltb_spec n a).
  - exists O. cbn [length nth firstn sum fold_right]. rewrite Nat.add_0_r. repeat split; lia.
  - replace (Z.of_nat k + 1) with (Z.of_nat (S k)) by lia. specialize (IHl (n - a) (S k) ltac:(lia)).
    destruct (find_month l (n - a) (Z.of_nat (S k))) as [m d]. destruct IHl as (j & A & B & C & D).
    exists (S j). cbn [length nth firstn]. change (sum (a :: firstn j l)) with (a + sum (firstn j l)). repeat split; lia.
Qed.
Lemma civil_ok : sound_library civil.
Proof.
  intros s. unfold civil. set (days := s / 86400).
  assert (R : let '(y, yd) := if 0 <=? days then years_up (Z.to_nat (days / 365 + 1)) 1970 days
                  else years_down (Z.to_nat (- days / 365 + 2)) 1970 days in
              days_to y + yd = days /\ 0 <= yd < year_days y).
  { destruct (Z.leb_spec 0 days).
    - pose proof (years_up_ok (Z.to_nat (days / 365 + 1)) 1970 days) as H0.
      destruct (years_up _ _ _). change (days_to 1970) with 0 in H0. apply H0. Z.div_mod_to_equations; lia.
    - pose proof (years_down_ok (Z.to_nat (- days / 365 + 2)) 1970 days) as H0.
      destruct (years_down _ _ _). change (days_to 1970) with 0 in H0. change (year_days 1970) with 365 in H0.
      apply H0; Z.div_mod_to_equations; lia. }
  destruct (if 0 <=? days then _ else _) as [y yd]. destruct R as [R1 R2].
  pose proof (find_month_ok (month_days y) yd 0) as F. change (Z.of_nat 0) with 0 in F.
  destruct (find_month (month_days y) yd 0) as [m d]. destruct F as (j & F1 & F2 & F3 & F4); [rewrite month_days_sum; lia|].
  unfold tm_date, is_date. cbn [tm_year tm_mon tm_mday tm_yday tm_wday tm_hour tm_min tm_sec
    CalSpec.year CalSpec.month CalSpec.day CalSpec.yday CalSpec.wday CalSpec.hour CalSpec.minute CalSpec.second].
  replace (1900 + (y - 1900)) with y by lia.
  split.
  - exists j. rewrite month_days_len in F2. repeat split; lia.
  - assert (E1 : s / 60 / 60 = s / 3600) by (rewrite Z.div_div by lia; reflexivity).
    assert (E2 : s / 3600 / 24 = days) by (unfold days; rewrite Z.div_div by lia; reflexivity).
    pose proof (Z.div_mod s 60). pose proof (Z.div_mod (s / 60) 60). pose proof (Z.div_mod (s / 3600) 24).
    pose proof (Z.mod_pos_bound s 60). pose proof (Z.mod_pos_bound (s / 60) 60). pose proof (Z.mod_pos_bound (s / 3600) 24).
    repeat split; try lia. f_equal. lia.
Qed.

(* ---- conversions ---- *)
Lemma c_int_ok : forall z, - 2 ^ 31 <= z < 2 ^ 31 -> c_int z = Ok z.
Proof. intros z H. unfold c_int. destruct (Z.leb_spec (- 2 ^ 31) z); [|lia]. destruct (Z.ltb_spec z (2 ^ 31)); [|lia]. reflexivity. Qed.
Lemma time_t_is : forall s r, is_date s (tr_date r) -> 1969 <= year r <= 2038 -> to_time_t r = Ok s.
Proof.
  intros s r D Y. destruct D as (_ & _ & _ & _ & _ & S). unfold tr_date in S.
  cbn [CalSpec.year CalSpec.yday CalSpec.hour CalSpec.minute CalSpec.second] in S. rewrite closed_is in S. unfold closed_days in S.
  unfold to_time_t. rewrite (c_int_ok ((year r - 1900 - 70) * 31536000)) by lia. cbn [bind].
  rewrite !Z.quot_div_nonneg by lia.
  rewrite (c_int_ok ((year r - 1900 - 69) / 4 * 86400)) by (Z.div_mod_to_equations; lia). cbn [bind].
  rewrite (c_int_ok ((year r - 1900 - 1) / 100 * 86400)) by (Z.div_mod_to_equations; lia). cbn [bind].
  rewrite (c_int_ok ((year r - 1900 + 299) / 400 * 86400)) by (Z.div_mod_to_equations; lia). cbn [bind].
  f_equal. subst s.
  replace (year r - 1900 - 69) with (year r - 1969) by lia. replace (year r - 1900 - 1) with (year r - 1901) by lia.
  replace (year r - 1900 + 299) with (year r - 1601) by lia. ring.
Qed.
Lemma record_ok : forall t s us, is_date s (tm_date t) -> 0 <= us < 1000000 ->
  exists r, to_time_record t us = Ok r /\ shows r (s * 1000000 + us).
Proof.
  intros t s us D U. unfold to_time_record. destruct (Z.leb_spec 0 us); [|lia]. destruct (Z.ltb_spec us 1000000); [|lia]. cbn [andb].
  eexists. split; [reflexivity|]. unfold shows. cbn [microsecond].
  replace ((s * 1000000 + us) / 1000000) with s by (Z.div_mod_to_equations; lia).
  replace ((s * 1000000 + us) mod 1000000) with us by (Z.div_mod_to_equations; lia). split; auto.
Qed.
Lemma shows_unique : forall a b t, shows a t -> shows b t -> a = b.
Proof.
  intros a b t [A1 A2] [B1 B2]. pose proof (date_unique _ _ _ A1 B1) as E. unfold tr_date in E.
  destruct a, b; cbn in *. injection E as -> -> -> -> -> -> -> ->. f_equal. lia.
Qed.
Lemma shows_year : forall r t a b, shows r t -> days_to a * 86400 * 1000000 <= t < days_to b * 86400 * 1000000 -> a <= year r < b.
Proof.
  intros r t a b [D _] H. pose proof (yday_bounds _ _ D) as Y. destruct D as (_ & H1 & H2 & H3 & _ & S).
  unfold tr_date in *. cbn [CalSpec.year CalSpec.yday CalSpec.hour CalSpec.minute CalSpec.second] in *.
  assert (T : days_to (year r) + dayofyear r = t / 1000000 / 86400) by (Z.div_mod_to_equations; lia).
  assert (B1 : days_to a <= t / 1000000 / 86400) by (apply Z.div_le_lower_bound; [lia|apply Z.div_le_lower_bound; lia]).
  assert (B2 : t / 1000000 / 86400 < days_to b) by (apply Z.div_lt_upper_bound; [lia|apply Z.div_lt_upper_bound; lia]).
  split.
  - destruct (Z.le_gt_cases a (year r)) as [|Q]; auto. apply days_lt in Q. lia.
  - destruct (Z.lt_ge_cases (year r) b) as [|Q]; auto.
    assert (days_to b <= days_to (year r)).
    { destruct (Z.eq_dec b (year r)) as [-> |]; [lia|]. pose proof (days_lt b (year r) ltac:(lia)). pose proof (year_days_bounds b). lia. }
    lia.
Qed.

(* ---- text ---- *)
Lemma zero_pad_len : forall w n, length (zero_pad n w) = w.
Proof. induction w; intros; cbn [zero_pad]; auto. rewrite app_length, IHw. cbn. lia. Qed.
Lemma padded_len : forall w n, length (padded w n) = w.
Proof. intros. unfold padded. rewrite map_length, seq_length. reflexivity. Qed.
Lemma zero_pad_is : forall w n, 0 <= n -> zero_pad n w = padded w n.
Proof.
  induction w; intros n N; [reflexivity|]. cbn [zero_pad]. rewrite Z.quot_div_nonneg, Z.rem_mod_nonneg by lia.
  rewrite IHw by (apply Z.div_pos; lia). unfold padded. rewrite seq_S, map_app. f_equal.
  - apply map_ext_in. intros i I. apply in_seq in I. f_equal. rewrite Z.div_div by (try lia; apply Z.pow_nonzero; lia || (apply Z.pow_pos_nonneg; lia)).
    f_equal. f_equal. replace (S w - 1 - i)%nat with (S (w - 1 - i)) by lia. rewrite Nat2Z.inj_succ, Z.pow_succ_r by lia. reflexivity.
  - cbn [map]. unfold digit, to_char. replace (S w - 1 - (0 + w))%nat with O by lia. rewrite Z.pow_0_r, Z.div_1_r. reflexivity.
Qed.
