(* C44, C52: where the parts of values are placed. *)
From Coq Require Import List ZArith Bool Lia.
From Verif Require Import Base LayoutModel LayoutSpec LayoutProofs LayoutAgree.
Import ListNotations.
Open Scope Z_scope.

Definition vbit := TInt 0 1.
Definition integer := TInt (- 2 ^ 31) (2 ^ 31 - 1).

(* The parts of every layout are aligned, inside it, and disjoint.  Missing: types with a
   null range, where it is false (below). *)
Theorem C44_parts_partial : forall t l,
  (no_null t /\ layout_of t = Ok l) \/ signal_layout_of t = Ok l -> layout_ok l.
Proof. intros t l [(N & E)|E]; [now apply (layout_parts_ok t)|now apply (signal_parts_ok t)]. Qed.

(* The scalars of a value read through layouts lie inside it, no two sharing a byte. *)
Theorem C44_no_overlap_partial : forall t l, no_null t -> layout_of t = Ok l -> no_overlap by_layout t.
Proof. intros t l N E. apply by_layout_no_overlap. split; eauto. Qed.

(* The scalars of a value accessed by generated code lie inside it, no two sharing a byte,
   each at a multiple of its size. *)
Theorem C44_code : forall t, no_overlap by_code t /\ well_aligned by_code t.
Proof. intros t. split; [apply by_code_no_overlap|apply by_code_aligned]. Qed.

(* With a null range the parts of a record overlap in the layout. *)
Theorem C44_null_refuted : exists t l p q b, layout_of t = Ok l /\
  nth_error (lparts l) 0 = Some p /\ nth_error (lparts l) 2 = Some q /\ inside p b /\ inside q b.
Proof.
  exists (TRecord [integer; TInt 1 0; integer]). eexists _, _, _, 0.
  split; [vm_compute; reflexivity|]. split; [reflexivity|]. split; [reflexivity|].
  unfold inside; cbn; lia.
Qed.

(* Through layouts the scalars of an array of records need not be aligned. *)
Theorem C44_alignment_refuted : exists t l path o a, no_null t /\ layout_of t = Ok l /\
  leaf by_layout t path o a /\ ~ (alignment by_layout a | o).
Proof.
  exists (TArray [Some 2] (TRecord [integer; vbit])). eexists _, [1%nat; 0%nat], _, integer.
  split; [cbn; lia|]. split; [vm_compute; reflexivity|]. split.
  - apply (leaf_elem by_layout); [reflexivity|].
    apply (leaf_field by_layout [integer; vbit] 0 integer); [reflexivity|]. now apply leaf_atom.
  - intros (k & E). vm_compute in E. destruct k as [|p|p]; try discriminate E. destruct p as [[p|p|]|[p|p|]|]; discriminate E.
Qed.

(* Generated code and layouts put plain values in the same places.  Missing: types that
   are not plain, where it is false (below). *)
Theorem C52_agree_partial : forall t l, plain t -> layout_of t = Ok l -> same_places t.
Proof. exact plain_same. Qed.

(* The same for the handles of the signals in a record of plain signals. *)
Theorem C52_signals_partial : forall fs l k p, plain_signal (TRecord fs) ->
  signal_layout_of (TRecord fs) = Ok l -> nth_error (lparts l) k = Some p ->
  poffset p = code_signal_offset fs k.
Proof. intros fs l k p P E. now apply signal_offsets. Qed.

(* A record ending off a multiple of 8 bytes inside a record: the field after it is at 5
   in the layout and at 8 in generated code. *)
Theorem C52_nested_refuted : exists t l, no_null t /\ const_bounds t = true /\ layout_of t = Ok l /\
  exists path a, leaf by_layout t path 5 a /\ leaf by_code t path 8 a.
Proof.
  exists (TRecord [TRecord [integer; vbit]; vbit]). eexists.
  split; [cbn; lia|]. split; [reflexivity|]. split; [vm_compute; reflexivity|].
  exists [1%nat], vbit. split.
  - apply (leaf_field by_layout [TRecord [integer; vbit]; vbit] 1 vbit [] 0 vbit); [reflexivity|]. now apply leaf_atom.
  - apply (leaf_field by_code [TRecord [integer; vbit]; vbit] 1 vbit [] 0 vbit); [reflexivity|]. now apply leaf_atom.
Qed.

(* An array of records with an open field is stored in place by the layout and behind a
   pointer by generated code. *)
Theorem C52_open_refuted : exists t l, no_null t /\ layout_of t = Ok l /\
  ~ atomic by_layout t /\ atomic by_code t.
Proof.
  exists (TArray [Some 2] (TRecord [TArray [None] vbit])). eexists.
  split; [cbn; lia|]. split; [vm_compute; reflexivity|]. split; vm_compute; congruence.
Qed.

(* Arrays of open arrays have a different number of bounds. *)
Theorem C52_bounds_refuted : exists t l, no_null t /\ layout_of t = Ok l /\
  atomic by_layout t /\ atomic by_code t /\ layout_size t = 24 /\ code_size t = 40.
Proof.
  exists (TArray [None] (TArray [None] vbit)). eexists.
  split; [cbn; lia|]. split; [vm_compute; reflexivity|]. repeat split; reflexivity.
Qed.

(* ---- a type with every kind of part meets the hypotheses ---- *)
Definition packet_fields := [vbit; integer; TArray [Some 3; Some 2] (TInt 0 255); TReal;
                              TRecord [TInt 0 65535; TArray [None] vbit]; TArray [Some 4] (TArray [Some 2] TReal)].
Definition packet := TRecord packet_fields.

Example packet_plain : plain packet /\ no_null packet.
Proof.
  split; cbn; repeat split; try lia; try (exists 4; reflexivity).
Qed.
Example packet_layout : match layout_of packet with
  | Ok l => map poffset (lparts l) = [0; 4; 8; 16; 24; 56] /\ lsize l = 120
  | Fault => False end.
Proof. vm_compute. auto. Qed.
Example packet_leaf : leaf by_code packet [5%nat; 7%nat] 112 TReal.
Proof.
  apply (leaf_field by_code packet_fields 5 (TArray [Some 4] (TArray [Some 2] TReal)) [7%nat] 56 TReal); [reflexivity|].
  apply (leaf_elem by_code [Some 4] (TArray [Some 2] TReal) 7 [] 0); [reflexivity|]. now apply leaf_atom.
Qed.
Example ports_plain : exists l, plain_signal (TRecord [vbit; TArray [None] vbit; TRecord [TReal; integer]; vbit]) /\
  signal_layout_of (TRecord [vbit; TArray [None] vbit; TRecord [TReal; integer]; vbit]) = Ok l /\
  map poffset (lparts l) = [0; 16; 48; 80].
Proof. eexists. split; [cbn; tauto|]. split; vm_compute; reflexivity. Qed.

Print Assumptions C44_parts_partial.
Print Assumptions C44_no_overlap_partial.
Print Assumptions C44_code.
Print Assumptions C44_null_refuted.
Print Assumptions C44_alignment_refuted.
Print Assumptions C52_agree_partial.
Print Assumptions C52_signals_partial.
Print Assumptions C52_nested_refuted.
Print Assumptions C52_open_refuted.
Print Assumptions C52_bounds_refuted.

(* Integers are stored in the smallest of 1, 2, 4 and 8 bytes that holds every value of
   their range, and the generated code uses as many bytes. *)
Theorem C44_integers : forall low high, - 2 ^ 63 <= low <= high -> high < 2 ^ 63 ->
  let s := layout_size (TInt low high) in
  code_size (TInt low high) = s /\ In s [1; 2; 4; 8] /\
  (forall v, low <= v <= high -> representable (low <? 0) s v) /\
  (forall s', In s' [1; 2; 4; 8] -> (forall v, low <= v <= high -> representable (low <? 0) s' v) -> s <= s').
Proof.
  intros low high L H.
  assert (E : layout_size (TInt low high) = align_up (bits_for_range low high) 8 / 8) by reflexivity.
  assert (EC : code_size (TInt low high) = layout_size (TInt low high)).
  { rewrite E. unfold code_size. cbn [code_layouts fst]. unfold repr_bits.
    assert (NZ : bits_for_range low high <> 0).
    { unfold bits_for_range. destruct (Z.ltb_spec high low); [lia|].
      repeat match goal with |- context [if ?c then _ else _] => destruct c end; discriminate. }
    destruct (Z.eqb_spec (bits_for_range low high) 0); [contradiction|reflexivity]. }
  cbv zeta. rewrite EC, E. split; [reflexivity|].
  unfold bits_for_range, representable. change (2 ^ 63) with 9223372036854775808 in *.
  destruct (Z.ltb_spec high low); [lia|].
  assert (K : forall P : Z -> Prop, (forall v, low <= v <= high -> P v) -> P low /\ P high)
    by (intros P HP; split; apply HP; lia).
  destruct (Z.ltb_spec low 0).
  - change (2 ^ 7) with 128. change (2 ^ 15) with 32768. change (2 ^ 31) with 2147483648.
    destruct (Z.leb_spec (- (128)) low), (Z.leb_spec high (128 - 1)),
      (Z.leb_spec (- (32768)) low), (Z.leb_spec high (32768 - 1)),
      (Z.leb_spec (- (2147483648)) low), (Z.leb_spec high (2147483648 - 1)); cbn [andb]; try lia.
    all: match goal with |- context [align_up ?b 8 / 8] =>
      let x := eval vm_compute in (align_up b 8 / 8) in change (align_up b 8 / 8) with x end.
    all: split; [cbn; tauto|].
    all: split; [intros v V; match goal with |- context [2 ^ ?x] => let y := eval vm_compute in (2 ^ x) in change (2 ^ x) with y end; lia|].
    all: intros s' I F; apply (K (fun v => - 2 ^ (8 * s' - 1) <= v < 2 ^ (8 * s' - 1))) in F as (F1 & F2);
      cbn [In] in I; repeat destruct I as [<-|I]; try contradiction; try lia; cbn in F1, F2; lia.
  - change (2 ^ 8) with 256. change (2 ^ 16) with 65536. change (2 ^ 32) with 4294967296.
    destruct (Z.leb_spec high 1), (Z.leb_spec high (256 - 1)), (Z.leb_spec high (65536 - 1)),
      (Z.leb_spec high (4294967296 - 1)); try lia.
    all: match goal with |- context [align_up ?b 8 / 8] =>
      let x := eval vm_compute in (align_up b 8 / 8) in change (align_up b 8 / 8) with x end.
    all: split; [cbn; tauto|].
    all: split; [intros v V; match goal with |- context [2 ^ ?x] => let y := eval vm_compute in (2 ^ x) in change (2 ^ x) with y end; lia|].
    all: intros s' I F; apply (K (fun v => 0 <= v < 2 ^ (8 * s'))) in F as (F1 & F2);
      cbn [In] in I; repeat destruct I as [<-|I]; try contradiction; try lia; cbn in F1, F2; lia.
Qed.
Print Assumptions C44_integers.

Example C44_integers_example : layout_size (TInt (-128) 127) = 1 /\ layout_size (TInt (-129) 0) = 2 /\
  representable true 2 (-129).
Proof. split; [reflexivity|]. split; [reflexivity|]. unfold representable. cbn. lia. Qed.
