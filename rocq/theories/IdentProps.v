(* C20-C23, C49, C50: identifiers in library files, patterns, edit distance,
   selected names, case, and taking names apart. *)
From Coq Require Import List NArith ZArith Arith Bool Lia ZifyNat ZifyN ZifyBool.
From Verif Require Import Base AdlerModel AdlerSpec FbufModel FbufSpec FbufProofs FbufProps IdentModel IdentSpec IdentProofs.
Import ListNotations.
Local Open Scope N_scope.

(* ---- C20 ---- *)

Lemma reopen c z aw ar xs :
  z <> ZFastlz -> (z = ZOther -> lossless c) -> algo_code aw = algo_code ar ->
  Forall in_range xs -> fold_right N.add 0 (map width xs) < 2 ^ 32 ->
  exists file sum, file_of c z aw xs = Ok (file, sum) /\
    (N.of_nat (length file) < 2 ^ 32 ->
     exists cs, fbuf_open_in c ar file = Ok (concat (map enc xs), cs, sum) /\ fbuf_close_in ar cs sum = Ok sum).
Proof.
  intros Hz Hc Ha R Hw. destruct (file_shape c z aw xs Hz R) as (bs & Bo & Bc & E).
  rewrite E. eexists _, _. split; [reflexivity|]. intros Hl.
  set (all := concat (map enc xs)) in *. set (sum := match aw with CsNone => 0 | CsAdler _ => adler all end) in *.
  set (body := payload c z bs) in *.
  assert (Hall : len all < P32) by (pose proof (enc_widths xs); unfold P32; change (2 ^ 32) with 4294967296 in Hw; fold all in H; lia).
  assert (Hbody : 20 + len body < P32).
  { rewrite !app_length in Hl. rewrite !be32_len in Hl. cbn [length] in Hl. change (2 ^ 32) with P32 in Hl. unfold len. lia. }
  rewrite (N.mod_small (len all)) by (unfold P64, P32 in *; lia).
  assert (Sum : sum < P32) by apply sum_ok.
  assert (Same : forall d, (match aw with CsNone => 0 | CsAdler _ => adler d end) = match ar with CsNone => 0 | CsAdler _ => adler d end).
  { intros d. destruct aw, ar; try reflexivity; discriminate. }
  rewrite Ha.
  pose proof (open_in_ok c ar (zip_code z) (len all) sum body [] all Hall Sum Hbody) as O. rewrite app_nil_r in O.
  eexists. split; [apply O|].
  - destruct z; [left|congruence|right].
    + split; [reflexivity|]. unfold body. cbn [payload]. rewrite Bc. auto.
    + split; [now left|]. split; [|reflexivity]. unfold body. cbn [payload]. unfold len. rewrite <- Bc. now apply Hc.
  - now apply all_bytes.
  - unfold fbuf_close_in. rewrite (proj2 (sum_ok ar all)), <- Same. fold sum. rewrite N.eqb_refl. reflexivity.
Qed.

(* Any number of files may be open for writing at once, and identifiers and other
   fields are written to them in any order; from each file the reader gets back
   exactly what was written to it: the same identifiers, null ones included, and
   the same fields. *)
Theorem C20_round_trip : forall os,
  well_formed 0 os -> (forall k d, In (WPut k d) os -> storable d) ->
  N.of_nat (begun os) <= 65535 -> N.of_nat (length os) < 2 ^ 31 - 1 ->
  exists w, wrun wstart os = Ok w /\
  forall k, (k < begun os)%nat ->
  exists x, nth_error (ctxs w) k = Some x /\ Forall in_range (out x) /\
  forall c z aw ar,
  z <> ZFastlz -> (z = ZOther -> lossless c) -> algo_code aw = algo_code ar ->
  fold_right N.add 0 (map width (out x)) < 2 ^ 32 ->
  exists file sum, file_of c z aw (out x) = Ok (file, sum) /\
    (N.of_nat (length file) < 2 ^ 32 ->
     reread_data c ar (map request_of (written k os)) file = Ok (written k os, [], sum)).
Proof.
  intros os Wf St B L. change (2 ^ 31 - 1) with 2147483647 in L.
  destruct (wrun_ok os [] wstart [] wstart_inv Wf B L St) as (w & cas & E & I). cbn [app] in I.
  exists w. split; [exact E|]. intros k Hk. destruct I as (L1 & L2 & _ & C & _).
  destruct (nth_error_ex (ctxs w) k) as [x Hx]; [lia|]. destruct (nth_error_ex cas k) as [ca Hca]; [lia|].
  destruct (C _ _ _ Hx Hca) as (_ & _ & _ & R & _ & Rd). exists x. split; [exact Hx|]. split; [exact R|].
  intros c z aw ar Hz Hc Ha Hw. destruct (reopen c z aw ar (out x) Hz Hc Ha R Hw) as (file & sum & Ef & H).
  exists file, sum. split; [exact Ef|]. intros Hl. destruct (H Hl) as (cs & Eo & Ec).
  unfold reread_data. rewrite Eo. cbn [bind]. specialize (Rd []). rewrite app_nil_r in Rd. rewrite Rd. cbn [bind].
  rewrite Ec. reflexivity.
Qed.
Print Assumptions C20_round_trip.

(* An identifier takes its characters once per file: from then on it is a number.
   Two files open at once. *)
Example C20_example :
  let os := [WBegin; WPut 0 (DIdent (Some [65; 66])); WPut 0 (DField (FU16 7)); WBegin;
             WPut 1 (DIdent (Some [65; 66])); WPut 0 (DIdent (Some [65; 66])); WPut 0 (DIdent None);
             WPut 0 (DIdent (Some [67])); WPut 0 (DIdent (Some [65; 66]))] in
  well_formed 0 os /\ (forall k d, In (WPut k d) os -> storable d) /\
  exists w, wrun wstart os = Ok w /\
    map out (ctxs w) = [[FInt (-2); FRaw [65; 66]; FU16 7; FInt (-2); FRaw [65; 66]; FInt 1; FInt (-1); FRaw [67]; FInt 3];
                        [FInt (-2); FRaw [65; 66]]].
Proof.
  cbn zeta. split; [cbn; lia|]. split.
  - intros k d H. cbn in H.
    repeat match goal with H : _ \/ _ |- _ => destruct H as [H|H] | H : False |- _ => destruct H end;
      try discriminate H; injection H as <- <-; cbn [storable in_range];
      try exact I; try reflexivity; (split; [discriminate|split; [repeat constructor|cbn; discriminate]]).
  - eexists. split; [vm_compute; reflexivity|reflexivity].
Qed.

(* Not so for the empty identifier (which ident_until makes of a name that starts
   with the separator): the reader takes it for the format of old releases, and
   misreads what follows. *)
Theorem C20_empty_refuted : exists i d w x, i = ident_until [46; 65] 46 /\ storable d /\
  wrun wstart [WBegin; WPut 0 (DIdent (Some i)); WPut 0 d] = Ok w /\ nth_error (ctxs w) 0 = Some x /\
  forall l c r, read_data [RIdent; request_of d] rstart (concat (map enc (out x))) = Ok (l, c, r) -> l <> [DIdent (Some i); d].
Proof.
  exists [], (DIdent (Some [65])). eexists. eexists. split; [reflexivity|]. split.
  { cbn. split; [discriminate|]. split; [repeat constructor|]. lia. }
  split; [vm_compute; reflexivity|]. split; [reflexivity|].
  intros l c r. vm_compute. intros H. discriminate H.
Qed.
Print Assumptions C20_empty_refuted.

(* Nor for one with a NUL character, which is cut there. *)
Theorem C20_nul_refuted : exists i w x,
  wrun wstart [WBegin; WPut 0 (DIdent (Some i))] = Ok w /\ nth_error (ctxs w) 0 = Some x /\
  exists j c, read_data [RIdent] rstart (concat (map enc (out x))) = Ok ([DIdent (Some j)], c, []) /\ j <> i.
Proof.
  exists [65; 0; 66]. eexists. eexists. split; [vm_compute; reflexivity|]. split; [reflexivity|].
  exists [65]. eexists. split; [vm_compute; reflexivity|discriminate].
Qed.
Print Assumptions C20_nul_refuted.

(* Nor for a name between 60 and 64 KiB, which the identifier table accepts: the
   write is refused by an assertion. *)
Theorem C20_long_refuted : forall i, 61440 < N.of_nat (length i) -> N.of_nat (length i) < 65535 ->
  forall c z a, exists w x, wrun wstart [WBegin; WPut 0 (DIdent (Some i))] = Ok w /\
    nth_error (ctxs w) 0 = Some x /\ file_of c z a (out x) = Fault.
Proof.
  intros i H1 H2 c z a. cbn [wrun wstep ident_write_begin wstart wr_gen wmarks ctxs app]. cbn [bind].
  change (1 =? 0) with false. cbv iota. cbn [bind write_datum ident_write ctxs nth_error wmarks generation next_index out set_nth firstn skipn app].
  change (0 =? 1) with false. change (1 + 1 =? P32 - 1) with false. cbv iota. cbn [bind].
  eexists _, _. split; [reflexivity|]. cbn [ctxs nth_error set_nth firstn skipn app]. split; [reflexivity|]. cbn [out app].
  unfold file_of. cbn [write_fields]. destruct (write_field _ (FInt _)) as [f|]; [|reflexivity]. cbn [bind write_field].
  unfold fbuf_maybe_flush. destruct (N.ltb_spec BLOCK_SIZE (len i)) as [_|H]; [reflexivity|].
  unfold BLOCK_SIZE, SPILL_SIZE, len in H. change (65536 - 65536 / 16) with 61440 in H. lia.
Qed.
Print Assumptions C20_long_refuted.

(* ---- C21 ---- *)

(* A pattern accepts exactly the names made by putting a non-empty string for each
   of its stars. *)
Theorem C21_glob : forall name pattern, ident_glob_walk name pattern = true <-> matches pattern name.
Proof. exact glob_ok. Qed.
Print Assumptions C21_glob.

(* A star stands for any non-empty string but not for the empty one, which a user
   might expect. *)
Theorem C21_star_empty_refuted : exists name pattern before after,
  pattern = before ++ [42] ++ after /\ name = before ++ after /\ ident_glob_walk name pattern = false.
Proof. exists [65; 66], [65; 42; 66], [65], [66]. repeat split. Qed.
Print Assumptions C21_star_empty_refuted.

Example C21_example :
  ident_glob_walk [119; 111; 114; 107; 46; 97; 98; 97] [119; 42; 46; 42; 97] = true /\
  ident_glob_walk [119; 111; 114; 107; 46; 97] [119; 42; 46; 42; 97] = false.
Proof. split; reflexivity. Qed.

(* ---- C22 ---- *)

(* The distance is the least number of single-character insertions, deletions and
   replacements that leads from one name to the other. *)
Theorem C22_distance : forall a b, least_edits a b (ident_distance a b).
Proof. exact distance_ok. Qed.
Print Assumptions C22_distance.

(* So it is a metric. *)
Lemma edit_sym a b : edit a b -> edit b a.
Proof. destruct 1; constructor. Qed.
Lemma edits_snoc : forall n a b c, edits n a b -> edit b c -> edits (S n) a c.
Proof.
  induction n as [|n IH]; intros a b c H E; cbn [edits] in *.
  - subst. exists c. auto.
  - destruct H as (m & Em & H). exists m. split; [exact Em|]. now apply (IH m b).
Qed.
Lemma edits_sym : forall n a b, edits n a b -> edits n b a.
Proof.
  induction n as [|n IH]; intros a b H; cbn [edits] in H; [now subst|].
  destruct H as (m & E & H). apply (edits_snoc n b m a); [now apply IH|now apply edit_sym].
Qed.
Lemma edits_trans : forall n a b m c, edits n a b -> edits m b c -> edits (n + m) a c.
Proof.
  induction n as [|n IH]; intros a b m c H K; cbn [edits plus] in *; [now subst|].
  destruct H as (x & E & H). exists x. split; [exact E|]. now apply (IH x b).
Qed.
Theorem C22_metric : forall a b c,
  (ident_distance a b = O <-> a = b) /\
  ident_distance a b = ident_distance b a /\
  (ident_distance a c <= ident_distance a b + ident_distance b c)%nat.
Proof.
  intros a b c. destruct (distance_ok a b) as [E1 M1]. destruct (distance_ok b a) as [E2 M2].
  destruct (distance_ok b c) as [E3 M3]. destruct (distance_ok a c) as [E4 M4]. split; [|split].
  - split.
    + intros H. rewrite H in E1. exact E1.
    + intros ->. specialize (M1 O eq_refl). lia.
  - apply edits_sym in E1, E2. specialize (M1 _ E2). specialize (M2 _ E1). lia.
  - apply M4. now apply (edits_trans _ a b).
Qed.
Print Assumptions C22_metric.

(* kitten, sitting *)
Example C22_example :
  ident_distance [107; 105; 116; 116; 101; 110] [115; 105; 116; 116; 105; 110; 103] = 3%nat.
Proof. reflexivity. Qed.

(* ---- C23 ---- *)

(* A selected name is taken apart into its parts: no part is cut at a dot inside
   an extended identifier or a character literal. *)
Theorem C23_parts : forall ps fuel, ps <> [] -> Forall part ps -> (length ps <= fuel)%nat ->
  walk_all fuel (Some (dotted ps)) = Ok ps.
Proof. exact walk_parts. Qed.
Print Assumptions C23_parts.

(* Whatever the name, the walk ends and the parts make up the name. *)
Theorem C23_rebuild : forall i fuel, (length i < fuel)%nat ->
  exists ps, walk_all fuel (Some i) = Ok ps /\ ps <> [] /\ dotted ps = i.
Proof. intros i fuel H. now apply walk_any. Qed.
Print Assumptions C23_rebuild.

(* lib.\a.b\.'.' *)
Example C23_example :
  Forall part [[108; 105; 98]; [92; 97; 46; 98; 92]; [39; 46; 39]] /\
  walk_all 9 (Some (dotted [[108; 105; 98]; [92; 97; 46; 98; 92]; [39; 46; 39]])) =
    Ok [[108; 105; 98]; [92; 97; 46; 98; 92]; [39; 46; 39]].
Proof.
  split; [|reflexivity]. constructor; [|constructor; [|constructor; [|constructor]]].
  - exists [Plain 108; Plain 105; Plain 98]. split; [|reflexivity].
    repeat (constructor; [cbn; repeat split; discriminate|]). constructor.
  - exists [Extended [97; 46; 98]]. split; [|reflexivity]. constructor; [|constructor]. cbn. intuition discriminate.
  - exists [Quoted [46]]. split; [|reflexivity]. constructor; [|constructor]. cbn. intuition discriminate.
Qed.

(* The literal of the apostrophe itself swallows what follows it. *)
Theorem C23_apostrophe_refuted : exists p q,
  p = [39; 39; 39] /\ part q /\ walk_all 9 (Some (dotted [p; q])) <> Ok [p; q].
Proof.
  exists [39; 39; 39], [65]. split; [reflexivity|]. split.
  - exists [Plain 65]. split; [|reflexivity]. constructor; [|constructor]. cbn. repeat split; discriminate.
  - vm_compute. discriminate.
Qed.
Print Assumptions C23_apostrophe_refuted.

(* ---- C49 ---- *)

(* Names that compare equal without regard to case have the same hash, on every
   machine. *)
Theorem C49_hash_agrees : forall ar a b, Forall byte_ok a -> Forall byte_ok b ->
  ident_casecmp ar a b = true -> ident_casehash a = ident_casehash b.
Proof.
  intros ar a b Fa Fb H. apply casehash_upper. destruct ar.
  - apply casecmp_x86 in H. revert b Fb H. induction Fa as [|x a Hx Fa IH]; intros b Fb H; inversion H; subst; constructor.
    + apply lane_upper_upper; [exact Hx|exact (Forall_inv Fb)|assumption].
    + apply IH; [exact (Forall_inv_tail Fb)|assumption].
  - now apply casecmp_scalar.
Qed.
Print Assumptions C49_hash_agrees.

(* For ASCII names the comparison is equality up to the case of letters, on every
   machine. *)
Theorem C49_ascii : forall ar a b, Forall (fun c => c < 128) a -> Forall (fun c => c < 128) b ->
  (ident_casecmp ar a b = true <-> same_but_for_case a b).
Proof.
  assert (W : forall l, Forall (fun c => c < 128) l -> Forall byte_ok l).
  { intros l F. eapply Forall_impl; [|exact F]. cbn beta. unfold byte_ok. intros; lia. }
  intros ar a b Fa Fb. unfold same_but_for_case. destruct ar.
  - rewrite casecmp_x86. apply (Forall2_iff (fun c => c < 128)); [|exact Fa|exact Fb].
    intros x y Hx Hy. rewrite !lane_ascii by assumption. apply upper_letter; unfold byte_ok; lia.
  - rewrite casecmp_scalar. apply (Forall2_iff byte_ok); [|auto|auto]. intros. now apply upper_letter.
Qed.
Print Assumptions C49_ascii.

(* For all of ISO 8859-1 it is so on machines other than x86-64. *)
Theorem C49_latin1_other : forall a b, Forall byte_ok a -> Forall byte_ok b ->
  (ident_casecmp OtherArch a b = true <-> same_but_for_case a b).
Proof.
  intros a b Fa Fb. rewrite casecmp_scalar. apply (Forall2_iff byte_ok); [|auto|auto]. intros. now apply upper_letter.
Qed.
Print Assumptions C49_latin1_other.

(* But not on x86-64, where names that differ only in the case of an accented
   letter are different. *)
Theorem C49_latin1_x86_refuted : exists a b,
  Forall byte_ok a /\ Forall byte_ok b /\ same_but_for_case a b /\
  ident_casecmp X86_64 a b = false /\ ident_casecmp OtherArch a b = true.
Proof.
  exists [99; 233], [67; 201]. split; [repeat constructor|]. split; [repeat constructor|]. split; [|split; reflexivity].
  constructor; [|constructor; [|constructor]]; right.
  - exists 99, 67. split; [now left|]. lia.
  - exists 233, 201. split; [now left|]. lia.
Qed.
Print Assumptions C49_latin1_x86_refuted.

(* A name in lower case has the hash of the name. *)
Theorem C49_downcase : forall a, Forall byte_ok a ->
  ident_casehash (ident_downcase a) = ident_casehash a /\
  ident_casecmp OtherArch (ident_downcase a) a = true /\
  ident_downcase (ident_downcase a) = ident_downcase a.
Proof.
  intros a F.
  assert (H : Forall2 (fun x y => toupper_iso88591 x = toupper_iso88591 y) (ident_downcase a) a).
  { induction F as [|x a Hx F IH]; constructor; [now apply tolower_upper|exact IH]. }
  split; [now apply casehash_upper|]. split; [now apply casecmp_scalar|].
  unfold ident_downcase. rewrite map_map. apply map_ext_in. intros x Hx. rewrite Forall_forall in F. specialize (F x Hx).
  unfold byte_ok in F. unfold tolower_iso88591.
  destruct ((65 <=? x) && (x <=? 90)) eqn:E1.
  - replace ((65 <=? x + 97 - 65) && (x + 97 - 65 <=? 90)) with false by lia.
    replace (((192 <=? x + 97 - 65) && (x + 97 - 65 <=? 214)) || ((216 <=? x + 97 - 65) && (x + 97 - 65 <=? 222))) with false by lia. reflexivity.
  - destruct (((192 <=? x) && (x <=? 214)) || ((216 <=? x) && (x <=? 222))) eqn:E2.
    + replace ((65 <=? x + 32) && (x + 32 <=? 90)) with false by lia.
      replace (((192 <=? x + 32) && (x + 32 <=? 214)) || ((216 <=? x + 32) && (x + 32 <=? 222))) with false by lia. reflexivity.
    + rewrite E1, E2. reflexivity.
Qed.
Print Assumptions C49_downcase.

Example C49_example :
  ident_casecmp X86_64 [99; 76; 75; 95; 49; 48; 48; 95; 109; 104; 122; 95; 111; 117; 116; 95; 110; 88]
                       [67; 108; 107; 95; 49; 48; 48; 95; 77; 72; 90; 95; 79; 85; 84; 95; 78; 120] = true /\
  ident_casecmp X86_64 [91; 123; 64] [123; 91; 96] = false.
Proof. split; reflexivity. Qed.

(* ---- C50 ---- *)

(* Joining two names with a separator and taking the result apart at it. *)
Theorem C50_split_first : forall a b c, c <> 0 -> ~ In c a ->
  exists j, ident_prefix (Some a) (Some b) c = Some j /\
    ident_until j c = a /\ ident_from j c = Some b.
Proof.
  intros a b c Hc Ha. cbn [ident_prefix]. destruct (N.eqb_spec c 0); [congruence|]. eexists. split; [reflexivity|].
  unfold ident_until, ident_from. cbn [app]. rewrite scan_exact by exact Ha. auto.
Qed.
Print Assumptions C50_split_first.

Theorem C50_split_last : forall a b c, c <> 0 -> ~ In c b ->
  exists j, ident_prefix (Some a) (Some b) c = Some j /\
    ident_runtil j c = a /\ ident_rfrom j c = b.
Proof.
  intros a b c Hc Hb. cbn [ident_prefix]. destruct (N.eqb_spec c 0); [congruence|]. eexists. split; [reflexivity|].
  unfold ident_runtil, ident_rfrom. cbn [app]. rewrite rev_app_distr. cbn [rev]. rewrite <- app_assoc. cbn [app].
  rewrite rscan_exact by (rewrite <- in_rev; exact Hb). rewrite !rev_involutive, app_nil_r. auto.
Qed.
Print Assumptions C50_split_last.

(* A name without the separator. *)
Theorem C50_no_separator : forall i c, ~ In c i ->
  ident_until i c = i /\ ident_from i c = None /\ ident_runtil i c = i /\ ident_rfrom i c = i.
Proof.
  intros i c H. pose proof (cscan_app c i) as Sc. unfold ident_until, ident_from, ident_runtil, ident_rfrom.
  destruct (scan c i) as [a b]. destruct Sc as (E & Hn & Hb). destruct b as [|x b].
  - rewrite app_nil_r in E. cbn [fst snd]. subst a. rewrite rscan_none by (rewrite <- in_rev; exact H). auto.
  - subst x. exfalso. apply H. rewrite E. apply in_or_app. right. now left.
Qed.
Print Assumptions C50_no_separator.

(* Prefixes. *)
Theorem C50_starts_with : forall a b, ident_starts_with a (Some b) = true <-> exists r, a = b ++ r.
Proof.
  assert (K : forall b a, strncmp_eq a b = true <-> exists r, a = b ++ r).
  { induction b as [|y b IH]; intros a; cbn [strncmp_eq app].
    - destruct a; cbn [strncmp_eq]; split; eauto.
    - destruct a as [|x a]; cbn [strncmp_eq]; [split; [discriminate|intros (r & E); discriminate]|].
      rewrite andb_true_iff, N.eqb_eq, IH. split.
      + intros [-> (r & ->)]. eauto.
      + intros (r & [= -> ->]). eauto. }
  intros a b. cbn [ident_starts_with]. rewrite orb_true_iff, K. split; [|auto].
  intros [H|H]; [|exact H]. destruct (bytes_eqb_spec a b) as [->|]; [|discriminate]. exists []. now rewrite app_nil_r.
Qed.
Print Assumptions C50_starts_with.

Example C50_example : exists j, ident_prefix (Some [87]) (Some [65; 46; 66]) 46 = Some j /\
  ident_until j 46 = [87] /\ ident_from j 46 = Some [65; 46; 66] /\ ident_runtil j 46 = [87; 46; 65] /\ ident_rfrom j 46 = [66].
Proof. eexists. split; [reflexivity|]. repeat split. Qed.
