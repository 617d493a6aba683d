(* C83 and C84: T'IMAGE and T'VALUE of scalar types *)
From Coq Require Import List ZArith Arith Bool Lia String Ascii.
From Verif Require Import Base JitModel TextSpec TextModel TextProofs.
Import ListNotations.
Local Open Scope Z_scope.

(* Text written as in VHDL *)
Definition txt (s : string) : list Z :=
  map (fun c => Z.of_nat (nat_of_ascii c)) (list_ascii_of_string s).

(** * C83: integer, enumeration and physical types *)

(* T'IMAGE of an integer is its decimal representation. *)
Theorem C83_integer_image : forall x, in_int64 x ->
  exists s, integer_image_fn x = Some s /\ integer_image x s.
Proof. exact int_to_string_ok. Qed.

(* T'VALUE of an integer type gives [v] exactly for the literals of value [v] within the
   bounds of the type; any other string is an error. *)
Theorem C83_integer_value : forall low high s v,
  - 2 ^ 63 <= low -> high < 2 ^ 63 ->
  (integer_value low high s = Some v <-> integer_literal s v /\ low <= v <= high).
Proof.
  intros low high s v L H. unfold integer_value.
  destruct (string_to_int s) as [w|] eqn:E.
  - rewrite check_bounds_iff. apply string_to_int_exact in E. destruct E as [LW IW]. split.
    + intros [-> B]. split; assumption.
    + intros [LV B].
      assert (string_to_int s = Some v) as EV
        by (apply string_to_int_exact; split; [exact LV|unfold in_int64; lia]).
      assert (string_to_int s = Some w) as EW
        by (apply string_to_int_exact; split; assumption).
      rewrite EV in EW. injection EW as ->. split; [reflexivity|exact B].
  - split; [discriminate|]. intros [LV B].
    assert (string_to_int s = Some v) as EV
      by (apply string_to_int_exact; split; [exact LV|unfold in_int64; lia]).
    congruence.
Qed.

(* T'VALUE(T'IMAGE(x)) = x *)
Theorem C83_integer_round_trip : forall low high x,
  - 2 ^ 63 <= low -> high < 2 ^ 63 -> low <= x <= high ->
  exists s, integer_image_fn x = Some s /\ integer_value low high s = Some x.
Proof.
  intros low high x L H B.
  destruct (C83_integer_image x ltac:(unfold in_int64; lia)) as (s & E & I).
  exists s. split; [exact E|]. apply C83_integer_value; [exact L|exact H|].
  split; [|exact B]. exists []. split; [|constructor].
  rewrite <- (app_nil_r s). apply image_then; [exact I|discriminate].
Qed.

(* Every spelling of a literal of an enumeration type is read as that literal. *)
Theorem C83_enum_value : forall names i n s,
  NoDup names -> nth_error names i = Some n -> spelling n s ->
  enum_value names s = Some i.
Proof. exact enum_value_spelling. Qed.

(* T'IMAGE of an enumeration value: a basic identifier in lower case, a character literal as
   it is. *)
Theorem C83_enum_image : forall names i n,
  nth_error names i = Some n -> plain_name n ->
  exists s, enum_image names i = Some s /\
    (basic_name n -> same_but_case s n /\ Forall (fun c => ~ (65 <= c <= 90)) s) /\
    (char_name n -> s = n).
Proof. exact enum_image_form. Qed.

(* T'VALUE(T'IMAGE(x)) = x when the literal is a basic identifier or a character other than
   a space.  Missing: other literals, see the refutations. *)
Theorem C83_enum_round_trip_partial : forall names i n,
  NoDup names -> nth_error names i = Some n -> plain_name n ->
  exists s, enum_image names i = Some s /\ enum_value names s = Some i.
Proof.
  intros names i n ND E P. destruct (enum_image_spelling names i n E P) as (s & ES & S).
  exists s. split; [exact ES|]. eapply C83_enum_value; eassumption.
Qed.

(* A string that is accepted is the literal up to case and white space.  Missing: that the
   white space is around the literal only, see the refutation. *)
Theorem C83_enum_sound_partial : forall names s i,
  enum_value names s = Some i ->
  exists n w, nth_error names i = Some n /\ squeezed s w /\ same_but_case w n.
Proof. exact enum_value_sound. Qed.

(* T'VALUE of a physical type: the number times the value of the unit, or an error if that
   is outside the type.  Missing: products outside 64 bits, see the refutation. *)
Theorem C83_physical_value_partial : forall units low high s v tail i n m r,
  NoDup (map fst units) -> literal_then s v tail -> in_int64 v ->
  nth_error units i = Some (n, m) -> spelling n tail -> in_int64 (v * m) ->
  (physical_value units low high s = Some r <-> r = v * m /\ low <= r <= high).
Proof.
  intros units low high s v tail i n m r ND L I E S IM.
  rewrite (physical_value_ok units low high s v tail i n m ND L I E S IM).
  rewrite check_bounds_iff. split; intros [-> B]; split; auto.
Qed.

(* T'IMAGE of a physical value: the number, a space, the primary unit in lower case. *)
Theorem C83_physical_image : forall units n m x,
  nth_error units 0 = Some (n, m) -> basic_name n -> in_int64 x ->
  exists num unit, physical_image units x = Some (num ++ [32] ++ unit) /\
    integer_image x num /\
    same_but_case unit n /\ Forall (fun c => ~ (65 <= c <= 90)) unit.
Proof.
  intros units n m x E BN I. destruct (int_to_string_ok x I) as (num & ES & IM).
  exists num, (downcase n). unfold physical_image. rewrite ES.
  destruct units as [|[u m'] units]; [discriminate|]. cbn in E. injection E as -> ->.
  split; [reflexivity|]. split; [exact IM|].
  split; [apply downcase_same|apply downcase_low]; exact (proj1 BN).
Qed.

(* T'VALUE(T'IMAGE(x)) = x for every value of a physical type. *)
Theorem C83_physical_round_trip : forall units low high n x,
  NoDup (map fst units) -> nth_error units 0 = Some (n, 1) -> basic_name n ->
  - 2 ^ 63 <= low -> high < 2 ^ 63 -> low <= x <= high ->
  exists s, physical_image units x = Some s /\ physical_value units low high s = Some x.
Proof.
  intros units low high n x ND E0 BN L H B.
  assert (in_int64 x) as IX by (unfold in_int64; lia).
  destruct (int_to_string_ok x IX) as (s & ES & I).
  exists (s ++ 32 :: downcase n). split.
  - unfold physical_image. rewrite ES. destruct units as [|[u m] units]; [discriminate|].
    cbn in E0. injection E0 as -> ->. reflexivity.
  - assert (spelling n (32 :: downcase n)) as SP.
    { apply spelling_space. exists [], (downcase n), [].
      rewrite app_nil_r. split; [reflexivity|]. split; [constructor|]. split; [constructor|].
      left. split; [exact BN|]. apply downcase_same. exact (proj1 BN). }
    apply (C83_physical_value_partial units low high _ x (32 :: downcase n) 0 n 1);
      try assumption; [| |rewrite Z.mul_1_r; split; [reflexivity|exact B]].
    + apply image_then; [exact I|]. intros c t X. injection X as <- _.
      unfold digit, underline. lia.
    + rewrite Z.mul_1_r. exact IX.
Qed.

(* A string accepted for a physical type is an integer literal and a unit, up to case and
   white space, and the result is the product modulo 2^64. *)
Theorem C83_physical_sound_partial : forall units low high s r,
  physical_value units low high s = Some r ->
  exists v tail i n m w,
    literal_then s v tail /\ in_int64 v /\ nth_error units i = Some (n, m) /\
    squeezed tail w /\ same_but_case w n /\ (exists k, r = v * m + k * 2 ^ 64) /\
    low <= r <= high.
Proof.
  intros units low high s r H.
  destruct (physical_value_sound units low high s r H)
    as (v & tail & i & n & m & w & A & B & C & D & E & F & G).
  exists v, tail, i, n, m, w. split; [exact A|]. split; [exact B|]. split; [exact C|].
  split; [exact D|]. split; [exact E|]. split; [|exact G].
  subst r. unfold wrap. exists (- ((v * m + M63) / M64)).
  pose proof (Z.div_mod (v * m + M63) M64 ltac:(unfold M64; lia)) as DM.
  change (2 ^ 64) with M64. lia.
Qed.

(** ** What does not hold *)

Definition BOOL : list (list Z) := [txt "FALSE"; txt "TRUE"].
Definition TIME : list (list Z * Z) :=
  [(txt "FS", 1); (txt "PS", 1000); (txt "NS", 1000000); (txt "US", 1000000000)].

(* A product outside 64 bits wraps: TIME'VALUE("4611686018427387904 ps") is 0 fs. *)
Theorem C83_physical_overflow_refuted :
  exists s v tail, literal_then s v tail /\ in_int64 v /\ spelling (txt "PS") tail /\
    ~ in_int64 (v * 1000) /\
    physical_value TIME (- 2 ^ 63) (2 ^ 63 - 1) s = Some 0.
Proof.
  exists (txt "4611686018427387904 ps"), (2 ^ 62), (txt " ps").
  split.
  { exists [], false, (txt "4611686018427387904").
    split; [reflexivity|]. split; [constructor|].
    split; [repeat (constructor; [left; unfold digit; vm_compute; split; discriminate|]); constructor|].
    split; [apply Exists_cons_hd; unfold digit; vm_compute; split; discriminate|].
    split; [|vm_compute; reflexivity].
    intros c t X. vm_compute in X. injection X as <- _. unfold digit, underline. lia. }
  split; [unfold in_int64; lia|]. split.
  { exists [32], (txt "ps"), []. split; [reflexivity|].
    split; [constructor; [left; reflexivity|constructor]|]. split; [constructor|].
    left. split; [|vm_compute; reflexivity].
    split; [repeat (constructor; [left; vm_compute; split; discriminate|]); constructor|].
    exists 80, [83]. split; [reflexivity|lia]. }
  split; [unfold in_int64; lia|]. vm_compute. reflexivity.
Qed.

(* The image of the space character is not a value: CHARACTER'VALUE("' '") fails. *)
Theorem C83_space_literal_refuted :
  exists names i s, NoDup names /\ enum_image names i = Some s /\ enum_value names s = None.
Proof.
  exists [txt "'a'"; txt "' '"], 1%nat, (txt "' '").
  split.
  { constructor; [|constructor; [|constructor]]; cbn; intros X; [destruct X as [X|[]]|exact X].
    discriminate X. }
  split; vm_compute; reflexivity.
Qed.

(* The image of an extended identifier is not the identifier, and not a value. *)
Theorem C83_extended_literal_refuted :
  exists names i n s, nth_error names i = Some n /\ enum_image names i = Some s /\ s <> n /\
    enum_value names s = None /\ enum_value names n = None.
Proof.
  exists [txt "RED"; txt "\Blue\"], 1%nat, (txt "\Blue\"), (txt "\blue\").
  repeat (split; [vm_compute; first [reflexivity | discriminate]|]).
  vm_compute. reflexivity.
Qed.

(* Nor is that of an identifier with a letter outside ASCII: code 201 is an upper case E
   with an acute accent. *)
Theorem C83_accent_literal_refuted :
  exists names i s, nth_error names i = Some [201; 65] /\ enum_image names i = Some s /\
    enum_value names s = None.
Proof.
  exists [[201; 65]; txt "RED"], 0%nat, [233; 97].
  repeat split; vm_compute; reflexivity.
Qed.

(* White space within a literal is accepted: BOOLEAN'VALUE("t r u e"). *)
Theorem C83_inner_space_refuted :
  exists s, enum_value BOOL s = Some 1%nat /\ ~ spelling (txt "TRUE") s.
Proof.
  exists (txt "t r u e"). split; [vm_compute; reflexivity|].
  intros (pre & w & post & E & P & Q & [[_ S]|[(c & X & _) _]]); [|discriminate X].
  assert (List.length w = 4%nat) as LW.
  { apply (f_equal (@List.length Z)) in S. rewrite !map_length in S. exact S. }
  assert (Forall (fun c => ~ space c) w) as F.
  { assert (Forall basic_char (txt "TRUE")) as B
      by (repeat (constructor; [left; vm_compute; split; discriminate|]); constructor).
    destruct (same_case_plain w (txt "TRUE") B S) as [G _].
    eapply Forall_impl; [|exact G]. intros a [N _]. exact N. }
  destruct pre as [|c pre].
  - cbn [app] in E. destruct w as [|a [|b w]]; try (cbn in LW; lia).
    vm_compute in E. injection E as E1 E2 E3. subst b.
    inversion F as [|? ? _ F2]; subst. inversion F2 as [|? ? N _]; subst.
    apply N. left. reflexivity.
  - vm_compute in E. injection E as E1 E2. subst c. inversion P as [|? ? SP _]; subst.
    unfold space in SP. lia.
Qed.

(** ** The hypotheses are met *)

Example C83_integer_example :
  integer_value (- 2 ^ 31) (2 ^ 31 - 1) (txt "  -2_147_483_648 ") = Some (- 2 ^ 31) /\
  integer_value (- 2 ^ 31) (2 ^ 31 - 1) (txt "2147483648") = None /\
  integer_image_fn (- 2 ^ 63) = Some (txt "-9223372036854775808") /\
  integer_value (- 2 ^ 63) (2 ^ 63 - 1) (txt "9223372036854775808") = None.
Proof. repeat split; vm_compute; reflexivity. Qed.

Example C83_names_example :
  NoDup BOOL /\ Forall plain_name BOOL /\ plain_name (txt "'a'") /\
  enum_value BOOL (txt "  True ") = Some 1%nat /\ enum_value BOOL (txt "tru") = None.
Proof.
  split.
  { constructor; [|constructor; [|constructor]]; cbn; intros X; [destruct X as [X|[]]|exact X].
    discriminate X. }
  split.
  { constructor; [|constructor; [|constructor]]; left;
      (split; [repeat (constructor; [left; vm_compute; split; discriminate|]); constructor|]).
    - exists 70, (txt "ALSE"). split; [reflexivity|lia].
    - exists 84, (txt "RUE"). split; [reflexivity|lia]. }
  split.
  { right. exists 97. split; [reflexivity|]. unfold space. lia. }
  split; vm_compute; reflexivity.
Qed.

Example C83_physical_example :
  physical_image TIME (-25) = Some (txt "-25 fs") /\
  physical_value TIME (- 2 ^ 63) (2 ^ 63 - 1) (txt " 3 Ns") = Some 3000000 /\
  physical_value TIME 0 10 (txt " 3 ns") = None.
Proof. repeat split; vm_compute; reflexivity. Qed.

(** * C84: reals *)

(* T'VALUE of a real type with no exponent, or an exponent of one digit that ends the
   string: the mantissa is the number of the first 18 digits, the power of ten is the one
   written.  Missing: other exponents, see the refutations; the rounding of the
   floating-point operations. *)
Theorem C84_real_partial : forall pre r post,
  Forall space pre -> well_formed r ->
  match rt_exp r with
  | None => Forall space post
  | Some (_, _, ds) => (exists d, ds = [d]) /\ post = []
  end ->
  let k := Nat.min 18 (List.length (real_digits r)) in
  let e := exponent r + Z.of_nat (List.length (rt_int r)) - Z.of_nat k in
  string_to_real (pre ++ real_string r ++ post) =
  if Z.abs e <=? 511
  then Some (RP (match rt_sign r with [45] => true | _ => false end)
               (decimal 0 (firstn k (real_digits r))) (e <? 0) (10 ^ Z.abs e))
  else None.
Proof. exact string_to_real_ok. Qed.

(* A string that is accepted begins with a number; nothing or white space follows, or an
   exponent.  Missing: that what follows the letter is an exponent, see the refutations. *)
Theorem C84_real_sound_partial : forall s v,
  string_to_real s = Some v ->
  exists pre r tail,
    s = pre ++ real_string r ++ tail /\ Forall space pre /\ well_formed r /\
    rt_exp r = None /\
    (Forall space tail \/
     exists e c t, tail = e :: c :: t /\ (e = 69 \/ e = 101)).
Proof. exact string_to_real_sound. Qed.

(* 1.0e12 is read as 1.0e11 ... *)
Theorem C84_exponent_refuted :
  exists r p, well_formed r /\ exponent r = 12 /\ real_digits r = txt "10" /\
    string_to_real (real_string r) = Some p /\
    rp_mant p = 10 /\ rp_divide p = false /\ rp_scale p = 10 ^ 10.
Proof.
  exists (RT [] (txt "1") true (txt "0") (Some (101, [], txt "12"))).
  exists (RP false 10 false (10 ^ 10)).
  split.
  { unfold well_formed. cbn [rt_sign rt_int rt_frac rt_point rt_exp].
    split; [left; reflexivity|].
    split; [constructor; [unfold digit; vm_compute; split; discriminate|constructor]|].
    split; [constructor; [unfold digit; vm_compute; split; discriminate|constructor]|].
    split; [discriminate|]. split; [discriminate|].
    split; [right; reflexivity|]. split; [left; reflexivity|].
    split; [|discriminate].
    repeat (constructor; [unfold digit; vm_compute; split; discriminate|]). constructor. }
  repeat (split; [vm_compute; reflexivity|]). vm_compute. reflexivity.
Qed.

(* ... white space after the exponent is taken for one more digit ... *)
Theorem C84_exponent_space_refuted :
  string_to_real (txt "1.0e5") = Some (RP false 10 false (10 ^ 4)) /\
  string_to_real (txt "1.0e5 ") = Some (RP false 10 false (10 ^ 54)).
Proof. split; vm_compute; reflexivity. Qed.

(* ... and so is anything else. *)
Theorem C84_exponent_garbage_refuted :
  string_to_real (txt "1.0e1x") = Some (RP false 10 false (10 ^ 10)).
Proof. vm_compute. reflexivity. Qed.

Example C84_real_example :
  string_to_real (txt " -623.0001") = Some (RP true 6230001 true (10 ^ 4)) /\
  string_to_real (txt "123456789123.0e2") = Some (RP false 1234567891230 false 10) /\
  string_to_real (txt "1.2.3") = None /\ string_to_real (txt ".") = None /\
  string_to_real (txt "1e") = None.
Proof. repeat split; vm_compute; reflexivity. Qed.

Print Assumptions C83_integer_image.
Print Assumptions C83_integer_value.
Print Assumptions C83_integer_round_trip.
Print Assumptions C83_enum_value.
Print Assumptions C83_enum_image.
Print Assumptions C83_physical_image.
Print Assumptions C83_enum_round_trip_partial.
Print Assumptions C83_enum_sound_partial.
Print Assumptions C83_physical_value_partial.
Print Assumptions C83_physical_round_trip.
Print Assumptions C83_physical_sound_partial.
Print Assumptions C83_physical_overflow_refuted.
Print Assumptions C83_space_literal_refuted.
Print Assumptions C83_extended_literal_refuted.
Print Assumptions C83_accent_literal_refuted.
Print Assumptions C83_inner_space_refuted.
Print Assumptions C84_real_partial.
Print Assumptions C84_real_sound_partial.
Print Assumptions C84_exponent_refuted.
Print Assumptions C84_exponent_space_refuted.
Print Assumptions C84_exponent_garbage_refuted.
