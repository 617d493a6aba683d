(* C67: a reference to a source file names that file for the rest of the run. *)

From Coq Require Import NArith List Bool Arith Lia.
From Verif Require Import FileRefModel FileRefSpec FileRefProofs.
Import ListNotations.

(* Whatever files are opened before and after, the reference for a name stands for
   the same path, written without repeated slashes. *)
Theorem C67_path : forall before name after,
  (N.of_nat (length before) < 65536)%N ->
  let '(ref, files) := file_ref (file_refs [] before) name in
  exists path, file_str (file_refs files after) ref = Some path /\
    same_path name path /\ ~ doubled path.
Proof.
  intros before name after B.
  destruct (file_refs_ext before []) as (e & E & L). cbn [app] in E.
  assert (F := file_refs_single before [] (Forall_nil _)).
  destruct (file_ref_entry _ name F) as (i & p & R & NE & LI & SP & D & _).
  destruct (file_ref (file_refs [] before) name) as [ref files]. cbn [fst snd] in R, NE.
  exists p. split; [|auto]. destruct (file_refs_ext after files) as (e2 & -> & _).
  unfold file_str. rewrite R, ref16_small by (rewrite E in LI; lia).
  rewrite nth_error_app1; [exact NE|]. apply nth_error_Some. congruence.
Qed.
Print Assumptions C67_path.

(* Asking again for a name without repeated slashes gives the same reference and
   adds nothing to the table. *)
Theorem C67_same_reference : forall before name after, ~ doubled name ->
  let '(ref, files) := file_ref (file_refs [] before) name in
  file_ref (file_refs files after) name = (ref, file_refs files after).
Proof.
  intros before name after ND.
  assert (F := file_refs_single before [] (Forall_nil _)).
  destruct (file_ref_entry _ name F) as (i & p & R & NE & LI & SP & D & H).
  destruct (file_ref (file_refs [] before) name) as [ref files]. cbn [fst snd] in R, NE, H.
  destruct (H ND) as [-> LU]. destruct (file_refs_ext after files) as (e2 & -> & _).
  unfold file_ref. rewrite (lookup_app _ _ e2 _ LU). now subst ref.
Qed.
Print Assumptions C67_same_reference.

(* Names of different paths get different references. *)
Theorem C67_different_paths : forall before a between b, ~ same_path a b ->
  (N.of_nat (length before + length between + 1) < 65536)%N ->
  let '(ra, files) := file_ref (file_refs [] before) a in
  fst (file_ref (file_refs files between) b) <> ra.
Proof.
  intros before a between b ND B.
  destruct (file_refs_ext before []) as (e & E & L). cbn [app] in E.
  assert (F := file_refs_single before [] (Forall_nil _)).
  destruct (file_ref_entry _ a F) as (i & p & R & NE & LI & SP & D & _).
  assert (LF : exists e1, snd (file_ref (file_refs [] before) a) = file_refs [] before ++ e1 /\ length e1 <= 1).
  { unfold file_ref. destruct (lookup _ a); cbn [snd]; [exists []; rewrite app_nil_r; cbn; auto|eexists; split; [reflexivity|cbn; auto]]. }
  assert (F1 : Forall (fun f => ~ doubled f) (snd (file_ref (file_refs [] before) a)))
    by exact (file_refs_single [a] _ F).
  destruct (file_ref (file_refs [] before) a) as [ra files]. cbn [fst snd] in R, NE, LF, F1.
  destruct LF as (e1 & EF & L1).
  destruct (file_refs_ext between files) as (e2 & E2 & L2).
  assert (F2 := file_refs_single between files F1).
  destruct (file_ref_entry _ b F2) as (j & q & R2 & NE2 & LJ & SP2 & _).
  destruct (file_ref_ext (file_refs files between) b) as (e3 & E3).
  rewrite R2, R. intros C.
  assert (BI : (N.of_nat i < 65536)%N) by (rewrite E in LI; lia).
  assert (BJ : (N.of_nat j < 65536)%N).
  { rewrite E2, EF, E, !app_length in LJ. lia. }
  assert (IJ : j = i) by (rewrite <- (ref16_small i BI), <- (ref16_small j BJ); congruence).
  subst j. rewrite E3, E2, <- app_assoc in NE2.
  rewrite nth_error_app1 in NE2 by (apply nth_error_Some; congruence).
  assert (q = p) by congruence. subst q. apply ND.
  destruct SP as (A1 & A2 & A3), SP2 as (B1 & B2 & B3). repeat split; congruence.
Qed.
Print Assumptions C67_different_paths.

(* A name with a repeated slash is never found again: each call makes an entry. *)
Theorem C67_repeated_slash_refuted : exists before name after,
  let '(ref, files) := file_ref (file_refs [] before) name in
  fst (file_ref (file_refs files after) name) <> ref.
Proof. exists [], [97; 47; 47; 98]%N, []. vm_compute. discriminate. Qed.
Print Assumptions C67_repeated_slash_refuted.

Theorem C67_repeated_slash_always : forall before name, doubled name ->
  snd (file_ref (file_refs [] before) name) = file_refs [] before ++ [strip name].
Proof.
  intros before name D. unfold file_ref.
  assert (F := file_refs_single before [] (Forall_nil _)).
  destruct (lookup (file_refs [] before) name) as [i|] eqn:L; [|reflexivity].
  exfalso. apply lookup_some, nth_error_In in L.
  exact (proj1 (Forall_forall _ _) F name L D).
Qed.
Print Assumptions C67_repeated_slash_always.

(* "/a///b/" is entry 1 after "x", as "/a/b/"; "/a/b/" finds it, "a/b/" is new. *)
Example C67_example :
  let x := [120]%N in
  let p := [47; 97; 47; 47; 47; 98; 47]%N in
  let q := [47; 97; 47; 98; 47]%N in
  let t := file_refs [] [x; p] in
  t = [x; q] /\ file_ref t q = (1%N, t) /\ fst (file_ref t [97; 47; 98; 47]%N) = 2%N /\
  same_path p q /\ ~ same_path [97; 47; 98; 47]%N q.
Proof.
  vm_compute. repeat split. intros (_ & H & _). discriminate.
Qed.
