(* C95: T'IMAGE and T'VALUE of records and arrays *)
From Coq Require Import List NArith ZArith Bool Lia.
From Verif Require Import Base PvalSpec PvalModel PvalProofs CompSpec CompModel CompProofs CompOnly.
Import ListNotations.
Local Open Scope N_scope.

(* The image is the representation of the LRM, and nothing is stored outside of the string, for
   values without null arrays. *)
Theorem C95_image_partial : forall A (t : ty A) v s, written t v s -> lits_ok t -> nonnull v -> image t v = Ok s.
Proof. intros A. exact (image_is (A := A)). Qed.
(* Every representation is read, with spaces around each part. *)
Theorem C95_value_partial : forall A (t : ty A) v s, reads t v s -> lits_proper t -> value_of t s = Ok (Some v).
Proof. intros A t v s R L. apply value_is; auto. Qed.

(* Nothing else is read, but for the separators and the text behind the closing parenthesis. *)
Theorem C95_value_only : forall A (t : ty A) v s, value_of t s = Ok (Some v) -> lits_proper t -> loosely t v s.
Proof. intros A t v s H L. apply value_only; auto. Qed.

(* What is written is read back, for types without strings, if this holds for the scalars and
   their images have no parentheses or commas. *)
Inductive simple {A} : ty A -> Prop :=
| simple_scalar img p : (forall a, p (img a) = Some a) -> (forall a, plain (img a)) -> simple (TScalar img p)
| simple_array n e : simple e -> simple (TArray n e)
| simple_record fs : Forall simple fs -> simple (TRecord fs).
(* Arrays in records have the length of the field. *)
Inductive sized {A} : ty A -> value A -> Prop :=
| sized_scalar img p a : sized (TScalar img p) (Scalar a)
| sized_array n e vs : Forall (sized e) vs -> sized (TArray n e) (Comp vs)
| sized_record fs vs : Forall2 sized fs vs -> Forall2 fits fs vs -> sized (TRecord fs) (Comp vs).
Lemma written_reads : forall A (t : ty A) v s, written t v s -> simple t -> nonnull v -> sized t v -> reads t v s.
Proof.
  intros A. apply (written_ind2 A (fun t v s _ => simple t -> nonnull v -> sized t v -> reads t v s)
    (fun ts vs ss _ => Forall simple ts -> Forall nonnull vs -> Forall2 sized ts vs -> all_reads ts vs ss)).
  - intros img p a S _ _. inversion S; subst. constructor; auto.
  - intros n lits ps t _ S. inversion S.
  - intros n e vs ss W IH S N Z. inversion S; subst. inversion N; subst. inversion Z; subst.
    change (parens ss) with ([] ++ parens ss). rewrite <- (app_nil_r (parens ss)). constructor; auto; try (intros ? []).
    apply IH; auto.
    + apply Forall_forall. intros x X. apply in_map_iff in X. destruct X as (? & <- & _). auto.
    + match goal with H : Forall (sized e) vs |- _ => clear - H; induction H; cbn; constructor; auto end.
  - intros fs vs ss W IH S N Z. inversion S; subst. inversion N; subst. inversion Z; subst.
    change (parens ss) with ([] ++ parens ss). rewrite <- (app_nil_r (parens ss)). constructor; auto; try (intros ? []).
  - constructor.
  - intros t ts v vs s ss W IH1 WS IH2 S N Z. inversion S; subst. inversion N; subst. inversion Z; subst. constructor; auto.
Qed.
Lemma simple_lits : forall A (t : ty A), simple t -> lits_ok t /\ lits_proper t.
Proof.
  intros A. fix IH 1. intros t S. destruct t as [img p|n lits|n e|fs].
  - split; constructor.
  - exfalso. inversion S.
  - assert (SE : simple e) by (inversion S; auto). destruct (IH e SE). split; constructor; auto.
  - assert (SF : Forall simple fs) by (inversion S; auto).
    assert (B : Forall (fun t => lits_ok t /\ lits_proper t) fs).
    { clear S. induction fs as [|f fs IHf]; constructor; [apply IH; inversion SF; auto|apply IHf; inversion SF; auto]. }
    split; constructor; (eapply Forall_impl; [|exact B]); cbn; tauto.
Qed.
Theorem C95_round_trip_partial : forall A (t : ty A) v s, written t v s -> simple t -> nonnull v -> sized t v ->
  exists img, image t v = Ok img /\ value_of t img = Ok (Some v).
Proof.
  intros A t v s W S N Z. destruct (simple_lits A t S) as [L1 L2]. exists s.
  split; [apply image_is; auto|]. apply C95_value_partial; auto. apply written_reads; auto.
Qed.

(* ---- What does not hold ---- *)
(* The image of a null array is a closing parenthesis. *)
Theorem C95_image_null_refuted : forall A n (e : ty A), written (TArray n e) (Comp []) [40; 41] /\ image (TArray n e) (Comp []) = Ok [41].
Proof. intros A n e. split; [|reflexivity]. change [40; 41] with (parens []). constructor. constructor. Qed.
(* Text after a record or array is ignored. *)
Theorem C95_value_rest_refuted : forall A (fs : list (ty A)) vs ss rest, vs <> [] -> all_reads fs vs ss -> Forall2 fits fs vs ->
  Forall lits_proper fs -> value_of (TRecord fs) (parens ss ++ rest) = Ok (Some (Comp vs)).
Proof.
  intros A fs vs ss rest N R F L.
  assert (NS : ss <> []) by (intros ->; apply all_reads_length in R; destruct vs; [congruence|discriminate]).
  assert (V : all3 valued fs vs ss /\ Forall transit ss).
  { clear N NS F. induction R as [|t ts v vs s ss R1 R2 IH]; [split; constructor|]. inversion L; subst.
    destruct (value_is t v s R1) as (A1 & A2 & _); auto. destruct IH as [B1 B2]; auto. split; [split; auto|constructor; auto]. }
  destruct (left_start [] ss rest ltac:(intros ? []) NS) as [O LO]. cbn [app] in *. rewrite value_record, O.
  rewrite (fields_is _ rest fs vs ss) by tauto. reflexivity.
Qed.

(* Scalars for the rest: digits and characters *)
Definition digit_value (s : text) : option N :=
  match filter (fun c => negb (c =? 32)) s with [c] => if isdigit c then Some (c - 48) else None | _ => None end.
Definition digit : ty N := TScalar (fun d => [48 + d mod 10]) digit_value.
Definition character : ty N := TScalar quote (fun s => match s with [39; c; 39] => Some c | _ => None end).
(* An array that is longer than the field overruns it. *)
Theorem C95_value_length_refuted : let t := TRecord [TArray (Some 2%nat) digit; digit] in
  value_of t [40; 40; 49; 44; 50; 44; 51; 41; 44; 52; 41] = Fault.   (* ((1,2,3),4) *)
Proof. vm_compute. reflexivity. Qed.
(* The null array is not read. *)
Theorem C95_value_null_refuted : value_of (TArray None digit) [40; 41] = Ok None.
Proof. vm_compute. reflexivity. Qed.
(* A closing parenthesis is taken for a comma. *)
Theorem C95_value_separator_refuted : value_of (TRecord [digit; digit]) [40; 49; 41; 50; 41] = Ok (Some (Comp [Scalar 1; Scalar 2])) /\
  value_of (TArray None (TArray None digit)) [40; 40; 49; 44; 50; 41; 41; 40; 51; 44; 52; 41; 41] =   (* ((1,2))(3,4)) *)
    Ok (Some (Comp [Comp [Scalar 1; Scalar 2]; Comp [Scalar 3; Scalar 4]])).
Proof. split; vm_compute; reflexivity. Qed.
(* A character that is a comma is not read back. *)
Theorem C95_value_delimiter_refuted : let t := TRecord [character; digit] in let v := Comp [Scalar 44; Scalar 1] in
  exists img, image t v = Ok img /\ value_of t img = Ok None.
Proof. exists [40; 39; 44; 39; 44; 49; 41]. split; vm_compute; reflexivity. Qed.
(* The image of an array of characters has quotation marks and is not read back. *)
Definition bits : list text := [quote 48; quote 49].
Theorem C95_value_quotes_refuted : forall ps, let t := TChars (A := N) None bits in Forall (fun p => p < 2)%nat ps ->
  exists img, image t (Chars ps) = Ok img /\ value_of t img = Ok None.
Proof.
  intros ps t H.
  assert (X : exists s, spelled_by bits ps s).
  { clear t. induction H as [|p ps P F (s & S)]; [exists []; constructor|].
    destruct p as [|[|p]]; [exists (48 :: s)|exists (49 :: s)|lia]; constructor; auto; reflexivity. }
  destruct X as (s & SP). exists (34 :: s ++ [34]). split; [apply chars_image_is; auto|].
  unfold t. cbn [value_of]. unfold chars_value. cbv zeta. cbn [first_loop]. replace (34 =? 32) with false by reflexivity. cbn [negb].
  change (34 :: s ++ [34]) with ([34] ++ s ++ [34]). rewrite !rev_app_distr. cbn [rev app last_loop]. replace (34 =? 32) with false by reflexivity. cbn [negb].
  cbn [length]. rewrite app_length. cbn [length skipn].
  replace (S (length s + 1) - 1 + 1 - 0)%nat with (S (length s + 1)) by lia.
  destruct (Nat.ltb_spec (S (length s + 1) - 1 + 1) 0); [lia|]. cbn [firstn map_chars]. reflexivity.
Qed.
(* With an identifier among the literals the image is written with parentheses, which are then
   read as characters: the literals are NUL, 'a', '(', ')' and '''. *)
Definition letters : list text := [[78; 85; 76]; quote 97; quote 40; quote 41; quote 39].
Theorem C95_value_string_refuted : let t := TChars (A := N) None letters in
  exists img, image t (Chars [1%nat]) = Ok img /\ value_of t img = Ok (Some (Chars [2; 4; 1; 4; 3]%nat)).
Proof. exists [40; 39; 97; 39; 41]. split; vm_compute; reflexivity. Qed.
(* The empty text makes the array of characters read outside of the string. *)
Theorem C95_value_empty_refuted : forall A n lits, value_of (TChars (A := A) n lits) [] = Fault.
Proof. reflexivity. Qed.

(* ---- Examples ---- *)
Definition nested : ty N := TRecord [TArray (Some 2%nat) digit; TArray None (TRecord [digit; digit]); digit].
Definition nested_value : value N :=
  Comp [Comp [Scalar 1; Scalar 2]; Comp [Comp [Scalar 3; Scalar 4]; Comp [Scalar 5; Scalar 6]]; Scalar 7].
(* ((1,2),((3,4),(5,6)),7) *)
Definition nested_text : text := [40; 40; 49; 44; 50; 41; 44; 40; 40; 51; 44; 52; 41; 44; 40; 53; 44; 54; 41; 41; 44; 55; 41].
Example ex_image : image nested nested_value = Ok nested_text.
Proof. vm_compute. reflexivity. Qed.
Example ex_value : value_of nested nested_text = Ok (Some nested_value).
Proof. vm_compute. reflexivity. Qed.
Example ex_written : exists s, written nested nested_value s.
Proof. eexists. repeat constructor. Qed.
Example ex_nonnull : nonnull nested_value.
Proof. repeat (constructor; try discriminate). Qed.
Example ex_sized : sized nested nested_value.
Proof. repeat constructor. Qed.
(* A type of two values, for which every image is read back *)
Definition flag : ty bool := TScalar (fun b : bool => if b then [49] else [48])
  (fun s => match s with [49] => Some true | [48] => Some false | _ => None end).
Example ex_simple : simple (TRecord [flag; TArray (Some 2%nat) flag]).
Proof.
  assert (F : simple flag).
  { constructor; [intros []; reflexivity|]. intros [] c [<- |[]]; lia. }
  apply simple_record. constructor; [exact F|]. constructor; [apply simple_array; exact F|constructor].
Qed.
Example ex_round : value_of (TRecord [flag; TArray (Some 2%nat) flag]) [40; 49; 44; 40; 48; 44; 49; 41; 41] =
  Ok (Some (Comp [Scalar true; Comp [Scalar false; Scalar true]])).
Proof. vm_compute. reflexivity. Qed.

Print Assumptions C95_image_partial.
Print Assumptions C95_value_partial.
Print Assumptions C95_value_only.
Print Assumptions C95_value_separator_refuted.
Print Assumptions C95_round_trip_partial.
Print Assumptions C95_image_null_refuted.
Print Assumptions C95_value_rest_refuted.
Print Assumptions C95_value_length_refuted.
Print Assumptions C95_value_null_refuted.
Print Assumptions C95_value_delimiter_refuted.
Print Assumptions C95_value_quotes_refuted.
Print Assumptions C95_value_string_refuted.
Print Assumptions C95_value_empty_refuted.
