(* C92: dates and times of STD.ENV. *)
From Coq Require Import String Ascii List ZArith Bool Lia.
From Verif Require Import Base CalModel CalProofs.
From Verif Require CalSpec JitModel.
Import ListNotations.
Local Open Scope list_scope.
Local Open Scope Z_scope.
Import CalSpec (is_date, iso).

(* Every instant has exactly one date, and there is a C library as it is asked for below. *)
Theorem C92_calendar : (forall s, exists! d, is_date s d) /\ sound_library civil.
Proof.
  split; [|apply civil_ok]. intros s. exists (tm_date (civil s)). split; [apply civil_ok|].
  intros d D. apply (date_unique s); auto. apply civil_ok.
Qed.

(* EPOCH of a record is the instant it shows, for the years 1969 to 2038. *)
Theorem C92_seconds_partial : forall r t, shows r t -> 1969 <= year r <= 2038 -> epoch_trec r = Ok t.
Proof.
  intros r t [D U] Y. unfold epoch_trec. rewrite (time_t_is _ _ D Y). cbn [bind]. f_equal.
  pose proof (Z.div_mod t 1000000). lia.
Qed.
(* Later the multiplication overflows; earlier leap years are not counted. *)
Theorem C92_seconds_late_refuted :
  (forall r, 2039 <= year r -> epoch_trec r = Fault) /\ (exists r t, shows r t /\ year r = 2039).
Proof.
  split.
  - intros r Y. unfold epoch_trec, to_time_t.
    assert (F : c_int ((year r - 1900 - 70) * 31536000) = Fault).
    { unfold c_int. destruct (Z.ltb_spec ((year r - 1900 - 70) * 31536000) (2 ^ 31)); [lia|]. rewrite andb_false_r. reflexivity. }
    rewrite F. reflexivity.
  - destruct (record_ok (civil 2177452800) 2177452800 0) as (r & E & H); [apply civil_ok|lia|].
    exists r, (2177452800 * 1000000 + 0). split; auto.
    assert (R : to_time_record (civil 2177452800) 0 = Ok (TR 0 0 0 0 1 0 2039 6 0)) by (vm_compute; reflexivity).
    rewrite R in E. injection E as <-. reflexivity.
Qed.
Theorem C92_seconds_early_refuted : exists r t, shows r t /\ year r = 1968 /\ epoch_trec r = Ok (t + 86400 * 1000000).
Proof.
  destruct (record_ok (civil (-731 * 86400)) (-731 * 86400) 0) as (r & E & H); [apply civil_ok|lia|].
  exists r, (-731 * 86400 * 1000000 + 0). split; auto.
  assert (R : to_time_record (civil (-731 * 86400)) 0 = Ok (TR 0 0 0 0 1 0 1968 1 0)) by (vm_compute; reflexivity).
  rewrite R in E. injection E as <-. split; reflexivity.
Qed.

(* GMTIME of an instant *)
Theorem C92_gmtime_partial : forall gmtime_r t, sound_library gmtime_r -> - 2 ^ 31 <= t / 1000000 < 2 ^ 31 ->
  exists r, env_gmtime gmtime_r t = Ok r /\ shows r t.
Proof.
  intros g t G H. unfold env_gmtime. rewrite c_int_ok by auto. cbn [bind].
  pose proof (Z.div_mod t 1000000) as E. pose proof (Z.mod_pos_bound t 1000000) as M.
  destruct (record_ok (g (t / 1000000)) (t / 1000000) (t - t / 1000000 * 1000000)) as (r & A & B); [apply G|lia|].
  exists r. split; auto. replace t with (t / 1000000 * 1000000 + (t - t / 1000000 * 1000000)) by lia. exact B.
Qed.
(* It fails after 19 January 2038. *)
Theorem C92_gmtime_late_refuted : forall gmtime_r t, 2 ^ 31 <= t / 1000000 -> env_gmtime gmtime_r t = Fault.
Proof.
  intros g t H. unfold env_gmtime, c_int. destruct (Z.ltb_spec (t / 1000000) (2 ^ 31)); [lia|]. rewrite andb_false_r. reflexivity.
Qed.
(* There and back *)
Theorem C92_round_trip_partial : forall gmtime_r t, sound_library gmtime_r -> 0 <= t < 2 ^ 31 * 1000000 ->
  exists r, env_gmtime gmtime_r t = Ok r /\ epoch_trec r = Ok t.
Proof.
  intros g t G H. destruct (C92_gmtime_partial g t G) as (r & A & B); [Z.div_mod_to_equations; lia|].
  exists r. split; auto. apply C92_seconds_partial; auto.
  pose proof (shows_year r t 1970 2039 B) as Y. change (CalSpec.days_to 1970) with 0 in Y.
  assert (E : CalSpec.days_to 2039 = 25202) by (rewrite closed_is; reflexivity). rewrite E in Y. lia.
Qed.
Theorem C92_back_partial : forall gmtime_r r t, sound_library gmtime_r -> shows r t -> 1969 <= year r ->
  0 <= t < 2 ^ 31 * 1000000 ->
  exists e, epoch_trec r = Ok e /\ env_gmtime gmtime_r e = Ok r.
Proof.
  intros g r t G B Y H. pose proof (shows_year r t 1970 2039 B) as Q. change (CalSpec.days_to 1970) with 0 in Q.
  assert (E : CalSpec.days_to 2039 = 25202) by (rewrite closed_is; reflexivity). rewrite E in Q.
  exists t. split; [apply C92_seconds_partial; auto; lia|].
  destruct (C92_gmtime_partial g t G) as (r' & A & B'); [Z.div_mod_to_equations; lia|]. rewrite A. f_equal. apply (shows_unique _ _ t); auto.
Qed.

(* Local time *)
Theorem C92_localtime : forall gmtime_r zone t, sound_library gmtime_r ->
  exists r, env_localtime gmtime_r zone t = Ok r /\ shows r (t + zone (t / 1000000) * 1000000).
Proof.
  intros g zone t G. unfold env_localtime, localtime_r.
  pose proof (Z.div_mod t 1000000) as E. pose proof (Z.mod_pos_bound t 1000000) as M.
  destruct (record_ok (g (t / 1000000 + zone (t / 1000000))) (t / 1000000 + zone (t / 1000000)) (t - t / 1000000 * 1000000)) as (r & A & B); [apply G|lia|].
  exists r. split; auto. eapply eq_ind; [exact B|]. lia.
Qed.
Theorem C92_localtime_trec_partial : forall gmtime_r zone r t, sound_library gmtime_r -> shows r t -> 1969 <= year r <= 2038 ->
  exists r', localtime_trec gmtime_r zone r = Ok r' /\ shows r' (t + zone (t / 1000000) * 1000000).
Proof.
  intros g zone r t G [D U] Y. unfold localtime_trec, localtime_r. rewrite (time_t_is _ _ D Y). cbn [bind].
  pose proof (Z.div_mod t 1000000) as E. pose proof (Z.mod_pos_bound t 1000000) as M.
  destruct (record_ok (g (t / 1000000 + zone (t / 1000000))) (t / 1000000 + zone (t / 1000000)) (microsecond r)) as (r' & A & B); [apply G|lia|].
  exists r'. split; auto. eapply eq_ind; [exact B|]. lia.
Qed.
(* GMTIME of a local time, where the offset does not change *)
Theorem C92_gmtime_trec_partial : forall gmtime_r offset r t, sound_library gmtime_r ->
  shows r (t + offset * 1000000) -> 1969 <= year r <= 2038 ->
  exists r', gmtime_trec gmtime_r (fun _ => offset) r = Ok r' /\ shows r' t.
Proof.
  intros g z r t G [D U] Y. unfold gmtime_trec. rewrite (time_t_is _ _ D Y). cbn [bind].
  rewrite Z.div_add in * by lia. rewrite Z.mod_add in U by lia.
  pose proof (Z.div_mod t 1000000) as E. pose proof (Z.mod_pos_bound t 1000000) as M.
  destruct (record_ok (g (t / 1000000 + z - z)) (t / 1000000) (microsecond r)) as (r' & A & B);
    [replace (t / 1000000 + z - z) with (t / 1000000) by lia; apply G|lia|].
  exists r'. split; auto. eapply eq_ind; [exact B|]. lia.
Qed.
(* Half an hour before the clocks go forward the offset is taken to be the later one. *)
Theorem C92_gmtime_trec_refuted : exists zone t r r',
  shows r (t + zone (t / 1000000) * 1000000) /\ gmtime_trec civil zone r = Ok r' /\ ~ shows r' t.
Proof.
  set (zone := fun s => if s <? 1000000 then 3600 else 7200). exists zone.
  set (t := 998200 * 1000000). exists t.
  destruct (C92_localtime civil zone t civil_ok) as (r & A & B). exists r.
  assert (R : exists q, env_localtime civil zone t = Ok q /\ exists q', gmtime_trec civil zone q = Ok q' /\ epoch_trec q' = Ok (994600 * 1000000) /\ year q' = 1970).
  { exists (TR 0 40 16 14 12 0 1970 1 11). split; [vm_compute; reflexivity|]. exists (TR 0 40 16 12 12 0 1970 1 11). split; [vm_compute; reflexivity|]. split; vm_compute; reflexivity. }
  destruct R as (q & Q & q' & Q1 & Q2 & Q3). assert (q = r) by congruence. subst q. exists q'. split; auto. split; auto.
  intros S. rewrite (C92_seconds_partial q' t S) in Q2 by lia. discriminate.
Qed.
(* EPOCH takes a local time for UTC. *)
Theorem C92_epoch_local_refuted : forall gmtime_r zone t, sound_library gmtime_r ->
  0 <= t + zone (t / 1000000) * 1000000 < 2 ^ 31 * 1000000 -> zone (t / 1000000) <> 0 ->
  exists r e, env_localtime gmtime_r zone t = Ok r /\ epoch_trec r = Ok e /\ e <> t.
Proof.
  intros g zone t G H Z. destruct (C92_localtime g zone t G) as (r & A & B).
  pose proof (shows_year r _ 1970 2039 B) as Q. change (CalSpec.days_to 1970) with 0 in Q.
  assert (E : CalSpec.days_to 2039 = 25202) by (rewrite closed_is; reflexivity). rewrite E in Q.
  exists r, (t + zone (t / 1000000) * 1000000). split; auto. split; [apply C92_seconds_partial; auto; lia|]. lia.
Qed.

(* Sum and difference *)
Theorem C92_add_partial : forall gmtime_r r t delta, sound_library gmtime_r -> shows r t -> 1969 <= year r <= 2038 ->
  -100000 < microsecond r + Z.rem delta 1000000 ->
  exists r', add_trec_real gmtime_r r delta = Ok r' /\ shows r' (t + delta).
Proof.
  intros g r t delta G [D U] Y B. unfold add_trec_real. rewrite (time_t_is _ _ D Y). cbn [bind]. cbv zeta.
  pose proof (Z.div_mod t 1000000) as E. pose proof (Z.mod_pos_bound t 1000000) as M.
  pose proof (Z.quot_rem delta 1000000) as QR. pose proof (Z.rem_bound_abs delta 1000000) as RB.
  set (q := Z.quot delta 1000000) in *. set (m := Z.rem delta 1000000) in *.
  destruct (Z.leb_spec 1000000 (microsecond r + m)) as [H|H].
  - assert (RM : Z.rem (microsecond r + m) 1000000 = microsecond r + m - 1000000).
    { rewrite Z.rem_mod_nonneg by lia. symmetry. apply (Z.mod_unique _ _ 1); lia. }
    rewrite RM. destruct (record_ok (g (t / 1000000 + q + 1)) (t / 1000000 + q + 1) (microsecond r + m - 1000000)) as (r' & A & C); [apply G|lia|].
    exists r'. split; auto. eapply eq_ind; [exact C|]. lia.
  - destruct (Z.ltb_spec (microsecond r + m) 0) as [H1|H1].
    + assert (RM : Z.rem (microsecond r + m) 100000 = microsecond r + m).
      { replace (microsecond r + m) with (- (- (microsecond r + m))) at 1 by lia. rewrite Z.rem_opp_l by lia. rewrite Z.rem_small by lia. lia. }
      rewrite RM. destruct (record_ok (g (t / 1000000 + q - 1)) (t / 1000000 + q - 1) (1000000 + (microsecond r + m))) as (r' & A & C); [apply G|lia|].
      exists r'. split; auto. eapply eq_ind; [exact C|]. lia.
    + destruct (record_ok (g (t / 1000000 + q)) (t / 1000000 + q) (microsecond r + m)) as (r' & A & C); [apply G|lia|].
      exists r'. split; auto. eapply eq_ind; [exact C|]. lia.
Qed.
(* A borrow of a tenth of a second or more always gives a wrong result or none. *)
Theorem C92_add_borrow_refuted : forall gmtime_r r t delta, sound_library gmtime_r -> shows r t -> 1969 <= year r <= 2038 ->
  microsecond r + Z.rem delta 1000000 <= -100000 ->
  ~ exists r', add_trec_real gmtime_r r delta = Ok r' /\ shows r' (t + delta).
Proof.
  intros g r t delta G [D U] Y B (r' & A & _ & C). unfold add_trec_real in A. rewrite (time_t_is _ _ D Y) in A. cbn [bind] in A. cbv zeta in A.
  pose proof (Z.div_mod t 1000000) as E. pose proof (Z.mod_pos_bound t 1000000) as M.
  pose proof (Z.quot_rem delta 1000000) as QR. pose proof (Z.rem_bound_abs delta 1000000) as RB.
  set (q := Z.quot delta 1000000) in *. set (m := Z.rem delta 1000000) in *.
  destruct (Z.leb_spec 1000000 (microsecond r + m)) as [H|H]; [lia|].
  destruct (Z.ltb_spec (microsecond r + m) 0) as [H1|H1]; [|lia].
  unfold to_time_record in A. destruct (_ && _); [|discriminate]. injection A as <-. cbn [microsecond] in C.
  assert (V : (t + delta) mod 1000000 = 1000000 + (microsecond r + m)).
  { symmetry. apply (Z.mod_unique _ _ (t / 1000000 + q - 1)); lia. }
  rewrite V in C. pose proof (Z.rem_bound_abs (microsecond r + m) 100000). lia.
Qed.
Theorem C92_diff_partial : forall a b ta tb, shows a ta -> shows b tb -> 1969 <= year a <= 2038 -> 1969 <= year b <= 2038 ->
  diff_trec a b = Ok (ta - tb).
Proof.
  intros a b ta tb [DA UA] [DB UB] YA YB. unfold diff_trec. rewrite (time_t_is _ _ DA YA), (time_t_is _ _ DB YB). cbn [bind].
  pose proof (Z.div_mod ta 1000000). pose proof (Z.div_mod tb 1000000). f_equal. lia.
Qed.
(* Subtracting a real number of seconds *)
Theorem C92_sub_partial : forall gmtime_r r t delta, sound_library gmtime_r -> shows r t -> 1969 <= year r <= 2038 ->
  Z.rem delta 1000000 < microsecond r + 100000 ->
  exists r', sub_trec_real gmtime_r r delta = Ok r' /\ shows r' (t - delta).
Proof.
  intros g r t delta G S Y B. unfold sub_trec_real. replace (t - delta) with (t + - delta) by lia.
  apply C92_add_partial; auto. rewrite Z.rem_opp_l by lia. lia.
Qed.

(* The present time: never what the clock says *)
Theorem C92_epoch_refuted : forall nanos, 0 <= nanos ->
  match env_epoch nanos with
  | Some (p, q) => 0 < q /\ p * 1000000000 <> nanos * q
  | None => nanos mod 1000000000 = 0
  end.
Proof.
  intros n N. unfold env_epoch. pose proof (Z.div_mod n 1000000000). pose proof (Z.mod_pos_bound n 1000000000).
  destruct (Z.eqb_spec (n mod 1000000000) 0); auto. split; [lia|]. nia.
Qed.

(* Type TIME *)
Theorem C92_time_to_seconds_partial : forall t, 0 <= t \/ t mod 1000000000000000 = 0 -> time_to_seconds t = t.
Proof.
  intros t [H|H]; unfold time_to_seconds.
  - rewrite Z.quot_div_nonneg by lia. pose proof (Z.div_mod t 1000000000000000). lia.
  - rewrite H. pose proof (Z.div_mod t 1000000000000000) as E. rewrite H in E.
    assert (Q : t = t / 1000000000000000 * 1000000000000000) by lia. rewrite Q at 1. rewrite Z.quot_mul by lia. lia.
Qed.
(* A negative time comes out one second too large. *)
Theorem C92_time_to_seconds_refuted : forall t, t < 0 -> t mod 1000000000000000 <> 0 -> time_to_seconds t = t + 1000000000000000.
Proof.
  intros t H M. unfold time_to_seconds. pose proof (Z.quot_rem t 1000000000000000) as E.
  pose proof (Z.rem_bound_abs t 1000000000000000 ltac:(lia)) as B. pose proof (Z.rem_nonpos t 1000000000000000 ltac:(lia) ltac:(lia)) as B0.
  assert (R : Z.rem t 1000000000000000 <> 0).
  { intros Z. apply M. apply Z.rem_divide in Z; [|lia]. apply Z.mod_divide; [lia|auto]. }
  assert (V : t mod 1000000000000000 = Z.rem t 1000000000000000 + 1000000000000000).
  { symmetry. apply (Z.mod_unique _ _ (Z.quot t 1000000000000000 - 1)); lia. }
  rewrite V. lia.
Qed.
Theorem C92_seconds_to_time_partial : forall r, - 2 ^ 63 <= r < 2 ^ 63 -> seconds_to_time r = r.
Proof.
  intros r H. unfold seconds_to_time. pose proof (Z.quot_rem r 1000000000000000).
  unfold JitModel.wrap, JitModel.M63, JitModel.M64. rewrite Z.mod_small; lia.
Qed.
(* No error where the result does not fit *)
Theorem C92_seconds_to_time_refuted : forall r, ~ (- 2 ^ 63 <= r < 2 ^ 63) ->
  - 2 ^ 63 <= seconds_to_time r < 2 ^ 63 /\ seconds_to_time r <> r.
Proof.
  intros r H. assert (W : - 2 ^ 63 <= seconds_to_time r < 2 ^ 63).
  { unfold seconds_to_time, JitModel.wrap, JitModel.M63, JitModel.M64.
    match goal with |- context [?a mod ?b] => assert (P : 0 < b) by reflexivity; pose proof (Z.mod_pos_bound a b P) end. lia. }
  split; auto. intros E. rewrite E in W. tauto.
Qed.

(* TO_STRING: right but for the month *)
Theorem C92_to_string_partial : forall r frac, (frac <= 6)%nat ->
  0 <= year r -> 0 <= month r -> 0 <= day r -> 0 <= hour r -> 0 <= minute r -> 0 <= second r -> 0 <= microsecond r ->
  to_string r frac = iso (year r) (month r) (day r) (hour r) (minute r) (second r) (microsecond r) frac.
Proof.
  intros r frac F A B C D E G H. unfold to_string, iso. rewrite !zero_pad_is by auto.
  destruct frac as [|frac].
  - change (0 <? 0)%nat with false. cbv iota. rewrite firstn_all2; [rewrite app_nil_r; reflexivity|].
    repeat (rewrite app_length || cbn [length]). rewrite !padded_len. lia.
  - change (0 <? S frac)%nat with true. cbv iota.
    match goal with |- firstn _ (?b ++ _) = _ => set (p := b) end.
    assert (L : length p = 19%nat) by (subst p; repeat (rewrite app_length || cbn [length]); rewrite !padded_len; lia).
    rewrite firstn_app, L, firstn_all2 by lia. replace (20 + S frac - 19)%nat with (S (S frac)) by lia.
    subst p. rewrite <- !app_assoc. reflexivity.
Qed.
Theorem C92_to_string_refuted : forall r t, shows r t -> 0 <= year r -> 0 <= microsecond r ->
  to_string r 0 <> iso (year r) (month r + 1) (day r) (hour r) (minute r) (second r) (microsecond r) 0.
Proof.
  intros r t [D _] Y U. destruct D as ((m & M & L & DD & _) & H1 & H2 & H3 & _ & _). unfold tr_date in *.
  cbn [CalSpec.month CalSpec.day CalSpec.hour CalSpec.minute CalSpec.second CalSpec.year] in *.
  rewrite C92_to_string_partial by lia. unfold iso. intros E. apply app_inv_head, app_inv_head in E.
  apply (f_equal (firstn 2)) in E. rewrite !firstn_app, !padded_len in E. cbn [Nat.sub] in E. rewrite !firstn_O, !app_nil_r in E.
  rewrite !firstn_all2 in E by (rewrite padded_len; lia). rewrite M in E.
  do 12 (destruct m as [|m]; [vm_compute in E; discriminate|]). lia.
Qed.

(* Witnesses: 16 September 1973, 01:03:52.000001, a Sunday *)
Example C92_ex_date : exists r, env_gmtime civil 116989432000001 = Ok r /\ r = TR 1 52 3 1 16 8 1973 0 258 /\
  shows r 116989432000001 /\ epoch_trec r = Ok 116989432000001.
Proof.
  destruct (C92_gmtime_partial civil 116989432000001 civil_ok) as (r & A & B); [vm_compute; split; congruence|].
  exists r. split; auto. assert (R : env_gmtime civil 116989432000001 = Ok (TR 1 52 3 1 16 8 1973 0 258)) by (vm_compute; reflexivity).
  assert (r = TR 1 52 3 1 16 8 1973 0 258) by congruence. subst r. split; [reflexivity|]. split; [exact B|]. vm_compute. reflexivity.
Qed.
Example C92_ex_leap : env_gmtime civil (951782400 * 1000000) = Ok (TR 0 0 0 0 29 1 2000 2 59) /\
  env_gmtime civil (- 86400 * 1000000) = Ok (TR 0 0 0 0 31 11 1969 3 364).
Proof. vm_compute. split; reflexivity. Qed.
Example C92_ex_add : let r := TR 1 52 3 1 16 8 1973 0 258 in
  add_trec_real civil r 82568999999 = Ok (TR 0 1 0 0 17 8 1973 1 259) /\
  add_trec_real civil r (-250000) = Ok (TR 950001 51 3 1 16 8 1973 0 258) /\
  add_trec_real civil (TR 0 52 3 1 16 8 1973 0 258) (-500000) = Fault.
Proof. vm_compute. repeat split; reflexivity. Qed.
Example C92_ex_string : let r := TR 1 52 3 1 16 8 1973 0 258 in
  to_string r 3 = list_ascii_of_string "1973-08-16T01:03:52.000".
Proof. reflexivity. Qed.
Example C92_ex_zone : gmtime_trec civil (fun _ => 3600) (TR 1 52 3 2 16 8 1973 0 258) = Ok (TR 1 52 3 1 16 8 1973 0 258) /\
  time_to_seconds (-1500000000000000) = -500000000000000 /\ env_epoch 1500000000 = Some (1500000000, 500000000).
Proof. vm_compute. repeat split; reflexivity. Qed.

Print Assumptions C92_calendar.
Print Assumptions C92_seconds_partial.
Print Assumptions C92_seconds_late_refuted.
Print Assumptions C92_seconds_early_refuted.
Print Assumptions C92_gmtime_partial.
Print Assumptions C92_gmtime_late_refuted.
Print Assumptions C92_round_trip_partial.
Print Assumptions C92_back_partial.
Print Assumptions C92_localtime.
Print Assumptions C92_localtime_trec_partial.
Print Assumptions C92_gmtime_trec_partial.
Print Assumptions C92_gmtime_trec_refuted.
Print Assumptions C92_epoch_local_refuted.
Print Assumptions C92_add_partial.
Print Assumptions C92_add_borrow_refuted.
Print Assumptions C92_diff_partial.
Print Assumptions C92_sub_partial.
Print Assumptions C92_epoch_refuted.
Print Assumptions C92_time_to_seconds_partial.
Print Assumptions C92_time_to_seconds_refuted.
Print Assumptions C92_seconds_to_time_partial.
Print Assumptions C92_seconds_to_time_refuted.
Print Assumptions C92_to_string_partial.
Print Assumptions C92_to_string_refuted.
