(* C69: changing what kind an object is keeps the items that both kinds have, and
   never needs more memory than the object was given. *)

From Coq Require Import ZArith NArith List Bool Arith Lia Relations.
From Verif Require Import Base NumberModel CoverModel ObjModel ObjKindSpec ObjKindProofs.
Import ListNotations.
Local Open Scope nat_scope.

Definition kinds_exist (c : class) : Prop :=
  Forall (fun p => fst p < length (c_has c) /\ snd p < length (c_has c)) (c_change c).

(* The sizes are worked out, they hold the items of the kind, kinds an object can
   go through have one size, and that size is needed by one of them. *)
Theorem C69_sizes : forall c, kinds_exist c ->
  exists s, object_init c = Ok s /\ length s = length (c_has c) /\
    (forall k, k < length (c_has c) -> 16 + popcount (has_map c k) * 8 <= size_of s k) /\
    (forall a b, related (c_change c) a b -> size_of s a = size_of s b) /\
    (forall k, k < length (c_has c) -> exists j, j < length (c_has c) /\
       related (c_change c) k j /\ size_of s k = 16 + popcount (has_map c j) * 8).
Proof.
  intros c W. destruct (object_init_ok c W) as (s & E & [FL FR] & EQ).
  assert (L : length (first_sizes c) = length (c_has c)) by (unfold first_sizes; apply map_length).
  exists s. split; [exact E|]. split; [lia|]. split; [|split].
  - intros k K. rewrite <- (first_size c k K). apply FR.
  - intros a b R. induction R as [a b R|a|a b R IH|a b d R1 IH1 R2 IH2]; [now apply EQ|reflexivity|congruence|congruence].
  - intros k K. destruct (FR k) as [G (j & RJ & EJ)].
    rewrite (first_size c k K) in G.
    assert (J : j < length (c_has c)).
    { destruct (Nat.lt_ge_cases j (length (c_has c))) as [H|H]; [exact H|].
      unfold size_of in EJ at 2. rewrite nth_overflow in EJ by lia. lia. }
    exists j. split; [exact J|]. split; [exact RJ|]. rewrite EJ. now apply first_size.
Qed.
Print Assumptions C69_sizes.

(* An object has the memory of the kind it was made as. *)
Theorem C69_change : forall c s o kind,
  kinds_exist c -> object_init c = Ok s ->
  length (o_items o) = room (size_of s (o_kind o)) ->
  In (o_kind o, kind) (c_change c) -> kind <> o_kind o ->
  exists o', change_kind c o kind = Ok o' /\
    o_kind o' = kind /\ o_tag o' = o_tag o /\ o_loc o' = o_loc o /\
    length (o_items o') = length (o_items o) /\
    length (o_items o') = room (size_of s kind) /\
    forall bit, bit < 64 -> N.testbit (has_map c kind) (N.of_nat bit) = true ->
      lookup_item (has_map c kind) (o_items o') bit =
        if N.testbit (has_map c (o_kind o)) (N.of_nat bit)
        then lookup_item (has_map c (o_kind o)) (o_items o) bit
        else Ok (zero_item (type_of_bit bit)).
Proof.
  intros c s o kind W E LI I NE.
  destruct (C69_sizes c W) as (s' & E' & LS & BIG & SAME & _). rewrite E in E'. injection E' as <-.
  assert (PI := proj1 (Forall_forall _ _) W _ I). cbn [fst snd] in PI. destruct PI as [P1 P2].
  assert (EQ : size_of s (o_kind o) = size_of s kind) by (apply SAME; now apply rst_step).
  assert (B1 := BIG _ P1). assert (B2 := BIG _ P2).
  set (old := has_map c (o_kind o)) in *. set (new := has_map c kind) in *.
  assert (R1 : popcount old <= length (o_items o)).
  { rewrite LI. unfold room. apply Nat.div_le_lower_bound; lia. }
  assert (R2 : popcount new <= length (o_items o)).
  { rewrite LI, EQ. unfold room. apply Nat.div_le_lower_bound; lia. }
  set (mx := Nat.max (popcount old) (popcount new)).
  assert (MX : mx <= length (o_items o)) by (unfold mx; lia).
  assert (LT : popcount old <= length (firstn mx (o_items o))) by (rewrite firstn_length; unfold mx in *; lia).
  assert (Z0 : forall x, rank x 0 = 0) by reflexivity.
  destruct (change_loop_ok old new (firstn mx (o_items o)) LT 64 0 (o_items o) eq_refl R2) as (it & EL & L2 & H2).
  { intros i H. lia. }
  rewrite !Z0 in EL.
  exists (Obj kind (o_tag o) (o_loc o) it). unfold change_kind. fold old new mx.
  destruct (Nat.eqb_spec kind (o_kind o)) as [X|_]; [contradiction|].
  assert (EX : existsb (fun p => (fst p =? o_kind o) && (snd p =? kind)) (c_change c) = true).
  { apply existsb_exists. exists (o_kind o, kind). split; [exact I|]. cbn [fst snd]. now rewrite !Nat.eqb_refl. }
  rewrite EX. cbn [negb]. destruct (Nat.ltb_spec (length (o_items o)) mx) as [C|_]; [lia|].
  rewrite EL. cbn [bind o_kind o_tag o_loc o_items].
  split; [reflexivity|]. split; [reflexivity|]. split; [reflexivity|]. split; [reflexivity|].
  split; [exact L2|]. split; [congruence|].
  intros bit B T. unfold lookup_item. rewrite T. rewrite (slot_rank new bit) by lia.
  rewrite (H2 bit B T). unfold wanted. fold (tb old bit). destruct (tb old bit) eqn:O; [|reflexivity].
  rewrite (slot_rank old bit) by lia.
  assert (RB := rank_lt old bit 64 B O). rewrite <- popcount_rank in RB.
  assert (NF : forall (l : list item) n i, i < n -> nth_error (firstn n l) i = nth_error l i).
  { induction l as [|x l IHl]; intros [|n] [|i] H; try lia; try reflexivity. cbn. apply IHl. lia. }
  rewrite NF by (unfold mx; lia). reflexivity.
Qed.
Print Assumptions C69_change.

(* A call that is not one of the allowed changes stops; the kind it has is allowed. *)
Theorem C69_refused : forall c o kind,
  kind <> o_kind o -> ~ In (o_kind o, kind) (c_change c) -> change_kind c o kind = Fault.
Proof.
  intros c o kind NE NI. unfold change_kind.
  destruct (Nat.eqb_spec kind (o_kind o)) as [X|_]; [contradiction|].
  destruct (existsb _ (c_change c)) eqn:EX; [|reflexivity].
  exfalso. apply NI. apply existsb_exists in EX. destruct EX as ([a b] & I & H). cbn [fst snd] in H.
  apply andb_true_iff in H. destruct H as [H1 H2]. apply Nat.eqb_eq in H1, H2. now subst.
Qed.
Print Assumptions C69_refused.

(* Four kinds: 0 can become 1, 1 can become 2; kind 3 stands alone.  Kind 0 has
   items 1 and 5, kind 1 has items 0, 5 and 40, kind 2 has seven items. *)
Definition c69_class : class :=
  Class [34; 1099511627809; 127; 1]%N [(0, 1); (1, 2)] [3] true.
Definition c69_sizes : res (list nat) := object_init c69_class.
Definition c69_object : object :=
  Obj 0 0 (Loc 1 0 0 0 0) [zero_item (type_of_bit 1); VInt 7; VInt 9; VInt 9; VInt 9; VInt 9; VInt 9].

Example C69_example :
  kinds_exist c69_class /\
  c69_sizes = Ok [72; 72; 72; 24] /\
  length (o_items c69_object) = room 72 /\
  (do! o <- change_kind c69_class c69_object 1; lookup_item 1099511627809%N (o_items o) 5)
    = lookup_item 34%N (o_items c69_object) 5 /\
  lookup_item 34%N (o_items c69_object) 5 = Ok (VInt 7).
Proof.
  split; [repeat constructor|]. repeat split; vm_compute; reflexivity.
Qed.
