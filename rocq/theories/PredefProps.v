(* C79-C82: the predefined operators of arrays and records. *)
From Coq Require Import List ZArith Arith Bool Lia.
From Verif Require Import Base JitModel ArithModel PredefSpec PredefModel PredefProofs.
Import ListNotations.
Local Open Scope Z_scope.

(* ---- C79: shift operators ---- *)

(* "sll", "srl", "rol" and "ror" of any vector by any number give the elements of the
   standard and the index range of the operand, whatever the allocated memory held, and
   never touch memory outside the vectors. *)
Theorem C79_shift_partial : forall k a s mem,
  k <> SLA -> k <> SRA ->
  arr_ok a -> - 2 ^ 62 <= s <= 2 ^ 62 -> length mem = length (adata a) ->
  predef_bit_shift k a s mem = Ok (with_data a (shifted k (adata a) s)).
Proof.
  intros k a s mem N1 N2 OK S M. apply shift_ok; auto. destruct k; cbn; auto; contradiction.
Qed.

(* The arithmetic shifts do so for a count that is not positive, or if the two ends of
   the vector are equal. *)
Theorem C79_arithmetic_partial : forall k a s mem,
  k = SLA \/ k = SRA ->
  s <= 0 \/ hd 0 (adata a) = last (adata a) 0 ->
  arr_ok a -> - 2 ^ 62 <= s <= 2 ^ 62 -> length mem = length (adata a) ->
  predef_bit_shift k a s mem = Ok (with_data a (shifted k (adata a) s)).
Proof.
  intros k a s mem K F OK S M. apply shift_ok; auto. destruct K; subst; exact F.
Qed.

(* Otherwise the element at the wrong end is shifted in: every vector with different ends
   gives a wrong result for every positive count. *)
Theorem C79_arithmetic_refuted : forall k a s mem,
  k = SLA \/ k = SRA ->
  0 < s -> hd 0 (adata a) <> last (adata a) 0 ->
  arr_ok a -> s <= 2 ^ 62 -> length mem = length (adata a) ->
  predef_bit_shift k a s mem <> Ok (with_data a (shifted k (adata a) s)).
Proof.
  intros k a s mem K P H OK S M E.
  assert (V : adata a <> []) by (intros N; rewrite N in H; now apply H).
  rewrite shift_run in E by (assumption || lia).
  apply (f_equal (fun r => match r with Ok x => adata x | Fault => [] end)) in E.
  unfold with_data in E. cbn [adata] in E.
  set (v := adata a) in *. pose proof (len_pos v V) as LP.
  rewrite at_hd, at_last in H by exact V.
  set (g := fun i : nat => _) in E.
  assert (G : forall i, 0 <= i < len_of v -> g (Z.to_nat i) = at_ (shifted k v s) i).
  { intros i I. rewrite <- E. unfold at_.
    rewrite (nth_indep _ 0 (g 0%nat)) by (rewrite map_length, seq_length; unfold len_of in I; lia).
    rewrite map_nth, seq_nth by (unfold len_of in I; lia). reflexivity. }
  replace (shifted k v s) with (iterated k v (Z.to_nat s)) in G.
  2:{ unfold shifted. destruct v; [contradiction |].
      now replace (0 <=? s) with true by (symmetry; apply Z.leb_le; lia). }
  destruct K; subst k.
  - specialize (G (len_of v - 1) ltac:(lia)). rewrite iterated_at in G by (assumption || lia).
    unfold g, picked, moved in G. rewrite !Z2Nat.id in G by lia. revert G. zcases; congruence.
  - specialize (G 0 ltac:(lia)). rewrite iterated_at in G by (assumption || lia).
    unfold g, picked, moved in G. rewrite !Z2Nat.id in G by lia. revert G. zcases; congruence.
Qed.

Example shift_left : predef_bit_shift SLL (Arr 7 3 false [1; 0; 1; 1; 1]) 2 [9; 9; 9; 9; 9]
                     = Ok (Arr 7 3 false [1; 1; 1; 0; 0]).
Proof. reflexivity. Qed.
Example rotate_far : predef_bit_shift ROR (Arr 0 4 true [1; 0; 1; 1; 0]) (-7) [9; 9; 9; 9; 9]
                     = Ok (Arr 0 4 true [1; 1; 0; 1; 0]) /\
                     shifted ROR [1; 0; 1; 1; 0] (-7) = [1; 1; 0; 1; 0].
Proof. split; reflexivity. Qed.
Example shift_ok_case : arr_ok (Arr 7 3 false [1; 0; 1; 1; 1]).
Proof. split; reflexivity. Qed.
Example arithmetic_right : predef_bit_shift SRA (Arr 0 3 true [1; 0; 0; 0]) 1 [9; 9; 9; 9]
                           = Ok (Arr 0 3 true [0; 1; 0; 0]) /\
                           shifted SRA [1; 0; 0; 0] 1 = [1; 1; 0; 0].
Proof. split; reflexivity. Qed.

Print Assumptions C79_shift_partial.
Print Assumptions C79_arithmetic_partial.
Print Assumptions C79_arithmetic_refuted.

(* ---- C80: matching operators ---- *)

(* The six operators on STD_ULOGIC, with the error about don't care. *)
Theorem C80_match : forall m a b,
  predef_match_op m (pos9 a) (pos9 b) = Ok (pos9 (fst (matched m a b)), snd (matched m a b)).
Proof. exact match_ok. Qed.

(* On BIT. *)
Theorem C80_match_bit : forall m a b, predef_match_bit m a b = matched_bit m a b.
Proof. exact match_bit_ok. Qed.

(* "?=" and "?/=" on vectors of any length; vectors of different lengths are an error. *)
Theorem C80_match_vector : forall invert l r mem,
  Z.of_nat (length l) < 2 ^ 60 -> length mem = length l ->
  predef_match_array invert (map pos9 l) (map pos9 r) mem =
  Ok (if Nat.eqb (length l) (length r) then
        Some (pos9 (if invert then not9 (vector_match l r) else vector_match l r))
      else None).
Proof.
  intros invert l r mem L M. destruct (Nat.eqb_spec (length l) (length r)).
  - now apply match_array_ok.
  - apply match_array_differ. now rewrite !map_length.
Qed.

(* On vectors of BIT: whether all elements are equal. *)
Theorem C80_match_bit_vector : forall invert l r mem,
  arr_ok l -> length (adata l) = length (adata r) -> length mem = length (adata l) ->
  exists v, predef_match_bit_array invert l r mem = Ok (Some v) /\
            (v = negb invert <-> adata l = adata r).
Proof. exact match_bit_array_ok. Qed.

Example match_vector :
  predef_match_array false (map pos9 [L1; LD; LL]) (map pos9 [LH; LX; L0]) [9; 9; 9] = Ok (Some 3) /\
  predef_match_array true (map pos9 [L1; LU; LL]) (map pos9 [LH; LX; L0]) [9; 9; 9] = Ok (Some 0) /\
  predef_match_array false [] [] [] = Ok (Some 3).
Proof. repeat split; reflexivity. Qed.
Example match_order : matched MGt LH LL = (L1, false) /\ matched MLe LD L0 = (L1, true).
Proof. split; reflexivity. Qed.
Example match_bit_vector : arr_ok (Arr 3 1 false [true; false; true]).
Proof. split; reflexivity. Qed.

Print Assumptions C80_match.
Print Assumptions C80_match_bit.
Print Assumptions C80_match_vector.
Print Assumptions C80_match_bit_vector.

(* ---- C81: equality and ordering ---- *)

(* "=" and "/=" of values of any type built from scalars, vectors, arrays of a given
   shape and records decide whether the values are equal. *)
Theorem C81_equal_partial : forall neq t depth a b,
  of_type t a -> of_type t b -> (nesting t <= depth)%nat ->
  exists v, predef_equal neq depth a b = Ok v /\ (v = negb neq <-> same a b).
Proof.
  intros neq t depth a b A B D. destruct (eq_ok depth t a b D A B) as (v & V & P).
  unfold predef_equal. rewrite V. cbn [bind]. eexists. split; [reflexivity |].
  rewrite <- P. destruct neq, v; cbn; intuition discriminate.
Qed.

(* The shape of arrays with more than one dimension is not compared. *)
Theorem C81_shape_refuted : exists a b, ~ same a b /\
  predef_equal false 2 a b = Ok true.
Proof.
  exists (Array [1; 2]%nat [Scalar 5; Scalar 6]), (Array [2; 1]%nat [Scalar 5; Scalar 6]).
  split; [| reflexivity].
  intros S. inversion S as [| | d l d' r F G E1 E2]. subst.
  destruct (F [0; 1]%nat (Scalar 6) eq_refl) as (y & Y & _). discriminate.
Qed.

(* The ordering operators on vectors of scalars, unless both vectors are null. *)
Theorem C81_order_partial : forall k a b,
  arr_ok a -> adata a <> [] \/ adata b <> [] \/ k = RLe \/ k = RGt ->
  predef_order k a b = Ok (ordered k (adata a) (adata b)).
Proof. exact order_ok. Qed.

(* A null vector is less than a null vector. *)
Theorem C81_null_refuted : forall a b, adata a = [] -> adata b = [] ->
  predef_order RLt a b = Ok true /\ ordered RLt (adata a) (adata b) = false /\
  predef_order RGe a b = Ok false /\ ordered RGe (adata a) (adata b) = true.
Proof.
  intros a b A B. unfold predef_order, predef_array_cmp, ordered. rewrite A, B. repeat split; reflexivity.
Qed.

(* What was just called the order of the standard is a strict total order. *)
Theorem C81_order_total : forall a b, arr_ok a -> arr_ok b ->
  adata a <> [] \/ adata b <> [] ->
  exists lt gt, predef_order RLt a b = Ok lt /\ predef_order RLt b a = Ok gt /\
    (lt = true -> gt = false) /\ (adata a = adata b <-> lt = false /\ gt = false).
Proof.
  intros a b A B N. rewrite !order_ok by (tauto || assumption). cbn [ordered].
  eexists _, _. split; [reflexivity |]. split; [reflexivity |].
  clear A B N. generalize (adata a), (adata b). clear a b.
  induction l as [| x l IH]; intros [| y r]; cbn [less].
  - split; [discriminate | split; auto].
  - split; [reflexivity |]. split; [discriminate | intros ([=] & _)].
  - split; [discriminate |]. split; [discriminate | intros (_ & [=])].
  - rewrite (Z.eqb_sym y x). destruct (Z.eqb_spec x y) as [-> | E].
    + destruct (IH r) as (P & Q). split; [exact P |]. rewrite <- Q. split; congruence.
    + split; [intros H; apply Z.ltb_lt in H; apply Z.ltb_ge; lia |].
      split; [congruence |]. intros (H1 & H2). apply Z.ltb_ge in H1, H2. lia.
Qed.

Example composite : of_type (TRec [TScalar; TVector (TShaped [2; 1]%nat TScalar)])
  (Rec [Scalar 1; Array [1%nat] [Array [2; 1]%nat [Scalar 2; Scalar 3]]]).
Proof.
  constructor. repeat constructor; try discriminate.
  - change 1%nat with (length [Array [2%nat; 1%nat] [Scalar 2; Scalar 3]]).
    constructor; [| reflexivity]. repeat constructor; discriminate.
Qed.
Example order_prefix : predef_order RLt (Arr 1 2 true [1; 2]) (Arr 1 3 true [1; 2; 0]) = Ok true /\
                       predef_order RGe (Arr 1 2 true [1; 3]) (Arr 1 3 true [1; 2; 0]) = Ok true.
Proof. split; reflexivity. Qed.

Print Assumptions C81_equal_partial.
Print Assumptions C81_shape_refuted.
Print Assumptions C81_order_partial.
Print Assumptions C81_null_refuted.
Print Assumptions C81_order_total.

(* ---- C82: logical operators and extremes ---- *)

(* A logical operator on two vectors works element by element and gives the index range
   of the left operand; vectors of different lengths are an error. *)
Theorem C82_vectors : forall k r0 r1 mem,
  arr_ok r0 -> length mem = length (adata r0) ->
  predef_bit_vec_op k r0 r1 mem =
  Ok (if Nat.eqb (length (adata r0)) (length (adata r1)) then
        Some (with_data r0 (map (fun p => logic k (fst p) (snd p)) (combine (adata r0) (adata r1))))
      else None).
Proof.
  intros k r0 r1 mem OK M. destruct (Nat.eqb_spec (length (adata r0)) (length (adata r1))).
  - now apply vec_op_ok.
  - now apply vec_op_differ.
Qed.

Theorem C82_not : forall r0 mem,
  arr_ok r0 -> length mem = length (adata r0) ->
  predef_array_not r0 mem = Ok (with_data r0 (map negb (adata r0))).
Proof. exact not_ok. Qed.

(* On a vector and a scalar. *)
Theorem C82_mixed : forall k a b mem,
  arr_ok a -> length mem = length (adata a) ->
  predef_mixed_bit_vec_op k a b mem = Ok (with_data a (map (fun x => logic k x b) (adata a))).
Proof. exact mixed_ok. Qed.

(* The unary operators, null vectors included. *)
Theorem C82_reduction : forall k a, arr_ok a ->
  predef_reduction_op k a = Ok (reduced k (adata a)).
Proof. exact reduction_ok. Qed.

(* MAXIMUM and MINIMUM of an array whose elements are of the element type, whichever way
   its range goes. *)
Theorem C82_extreme : forall (maximum : bool) left right (to : bool) a,
  arr_ok a ->
  let low := if to then left else right in
  let high := if to then right else left in
  Forall (fun x => low <= x <= high) (adata a) ->
  exists v, predef_min_max maximum left right to a = Ok v /\ extreme maximum low high (adata a) v.
Proof. exact min_max_ok. Qed.

Example logical_vectors :
  predef_bit_vec_op LNor (Arr 3 1 false [true; false; false]) (Arr 1 3 true [true; true; false]) [true; true; true]
  = Ok (Some (Arr 3 1 false [false; false; true])) /\
  predef_mixed_bit_vec_op LXor (Arr 1 0 true []) true [] = Ok (Arr 1 0 true []) /\
  predef_reduction_op LXnor (Arr 3 1 false [true; false; false]) = Ok false /\
  predef_reduction_op LNand (Arr 1 3 false []) = Ok false.
Proof. repeat split; reflexivity. Qed.
Example extremes : arr_ok (Arr 0 2 true [4; -3; 7]) /\
  predef_min_max false 10 (-5) false (Arr 0 2 true [4; -3; 7]) = Ok (-3) /\
  predef_min_max true 10 (-5) false (Arr 0 (-1) true []) = Ok (-5).
Proof. repeat split; reflexivity. Qed.

Print Assumptions C82_vectors.
Print Assumptions C82_not.
Print Assumptions C82_mixed.
Print Assumptions C82_reduction.
Print Assumptions C82_extreme.
