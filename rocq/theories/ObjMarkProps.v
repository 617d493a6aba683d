(* C68: a traversal of the objects of a design unit meets each of them once. *)

From Coq Require Import NArith List Bool Arith Lia.
From Verif Require Import Base ObjMarkModel ObjMarkSpec ObjMarkProofs.
Import ListNotations.

Lemma mark_words_ok nbits bit : bit < nbits -> bit / 64 < mark_words nbits.
Proof.
  intros H. unfold mark_words.
  assert (E : (nbits + 63) / 64 * 64 / 8 / 8 = (nbits + 63) / 64).
  { rewrite Nat.div_div by lia. now rewrite Nat.div_mul by lia. }
  rewrite E. dlia.
Qed.

(* Whatever the memory held and whichever objects are met in whichever order, an
   object counts as met exactly when this traversal has met it before. *)
Theorem C68_marks : forall nbits fresh qs,
  length fresh = mark_words nbits -> Forall (fun q => snd q < nbits) qs -> one_after_another qs ->
  exists rs, calls fresh marks0 qs = Ok rs /\ answers [] qs rs.
Proof.
  intros nbits fresh qs L F T.
  assert (F' : Forall (fun q : N * nat => snd q / 64 < length fresh) qs).
  { eapply Forall_impl; [|exact F]. intros q H. cbv beta in *. rewrite L. now apply mark_words_ok. }
  destruct qs as [|[g bit] qs]; [exists []; split; [reflexivity|constructor]|].
  cbn [one_after_another in_turn] in T. destruct T as [_ T]. inversion F' as [|? ? F1 F2]; subst.
  cbn [snd] in F1.
  destruct (marked_p_first fresh g bit F1) as (r & m & E & -> & I).
  destruct (calls_ok fresh qs m [(g, bit)] g I) as (rs & E2 & A); [|exact T|exact F2|].
  { intros x b [H|[]]. injection H as -> ->. lia. }
  exists (false :: rs). cbn [calls]. rewrite E. cbn [bind]. rewrite E2. cbn [bind].
  split; [reflexivity|]. constructor; [|exact A]. cbn. split; [discriminate|tauto].
Qed.
Print Assumptions C68_marks.

(* 200 objects; the second traversal starts behind the first, goes below its
   words and above, and meets two objects again.  The array holds ones. *)
Example C68_example :
  let fresh := repeat (N.ones 64) (mark_words 200) in
  let qs := [(7, 70); (7, 199); (7, 70); (65542, 3); (65542, 130); (65542, 70); (65542, 3); (65542, 70)]%N in
  let qs := map (fun q => (fst q, N.to_nat (snd q))) qs in
  Forall (fun q => snd q < 200) qs /\ one_after_another qs /\
  calls fresh marks0 qs = Ok [false; false; true; false; false; false; true; true].
Proof.
  cbv zeta. split; [repeat constructor; cbn; lia|]. split; [cbn; lia|]. vm_compute. reflexivity.
Qed.

(* The numbers of traversals start again after 65536: the marks of one that long
   ago count, and objects are left out. *)
Theorem C68_wrap_refuted : exists nbits fresh qs rs,
  length fresh = mark_words nbits /\ Forall (fun q => snd q < nbits) qs /\
  (forall i a b, nth_error qs i = Some a -> nth_error qs (S i) = Some b -> (fst a <= fst b)%N) /\
  calls fresh marks0 qs = Ok rs /\ ~ answers [] qs rs.
Proof.
  exists 10, [0%N], [(1%N, 5); (65537%N, 5)], [false; true].
  split; [reflexivity|]. split; [repeat constructor|]. split.
  - intros [|[|[|i]]] a b H1 H2; cbn in H1, H2; try discriminate.
    injection H1 as <-. injection H2 as <-. cbn. lia.
  - split; [vm_compute; reflexivity|]. intros A. inversion A as [|? ? ? ? ? _ A1]; subst.
    inversion A1 as [|? ? ? ? ? H _]; subst. destruct (proj1 H eq_refl) as [E|[]]. discriminate E.
Qed.
Print Assumptions C68_wrap_refuted.

(* A traversal that is started within another one of the same unit clears its
   marks: objects are met again. *)
Theorem C68_nested_refuted : exists nbits fresh qs rs,
  length fresh = mark_words nbits /\ Forall (fun q => snd q < nbits) qs /\
  (forall q, In q qs -> (fst q < 3)%N) /\
  calls fresh marks0 qs = Ok rs /\ ~ answers [] qs rs.
Proof.
  exists 10, [0%N], [(1%N, 5); (2%N, 6); (1%N, 5)], [false; false; false].
  split; [reflexivity|]. split; [repeat constructor|]. split.
  - intros q [<-|[<-|[<-|[]]]]; cbn; lia.
  - split; [vm_compute; reflexivity|]. intros A. inversion A as [|? ? ? ? ? _ A1]; subst.
    inversion A1 as [|? ? ? ? ? _ A2]; subst. inversion A2 as [|? ? ? ? ? H _]; subst.
    assert (F : false = true) by (apply H; cbn; auto). discriminate F.
Qed.
Print Assumptions C68_nested_refuted.
