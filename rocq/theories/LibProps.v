(* C96 and C97: file names of design units and the index of a library *)
From Coq Require Import List Arith NArith Bool Lia Sorted Permutation.
From Verif Require Import LibSpec LibModel LibProofs LibWorld.
Import ListNotations.
Local Open Scope N_scope.

(* ---- C96 ---- *)
(* On a file system that ignores case, two units have the same file exactly if they have the same
   name. *)
Theorem C96_file_same : forall a b, bytes a -> bytes b -> no_plus false a -> no_plus false b ->
  (map toupper (file_name a) = map toupper (file_name b) <-> same_name false a b).
Proof.
  intros a b Ba Bb Na Nb. unfold file_name. rewrite !encode_up. split; [apply upname_inj; auto|apply upname_same].
Qed.
(* With case, different names still have different files. *)
Theorem C96_file_distinct : forall a b, bytes a -> bytes b -> no_plus false a -> no_plus false b ->
  file_name a = file_name b -> same_name false a b.
Proof. intros a b Ba Bb Na Nb H. apply C96_file_same; auto. rewrite H. reflexivity. Qed.
(* Whatever is in extended identifiers, the name of the file has letters, digits and few signs. *)
Theorem C96_file_legal : forall s, bytes s -> basic_legal false s -> Forall legal (file_name s).
Proof.
  assert (H : forall c, c < 256 -> Forall legal (hex c)).
  { intros c C. assert (D : forall d, d < 16 -> legal (digit d)) by (intros d D; unfold digit, legal; destruct (N.ltb_spec d 10); lia).
    unfold hex. apply Forall_app. split; [destruct (128 <=? c); repeat (apply Forall_cons; [unfold legal; lia|]); apply Forall_nil|].
    apply Forall_cons; [apply D; apply N.div_lt_upper_bound; lia|]. apply Forall_cons; [apply D; apply N.mod_lt; lia|apply Forall_nil]. }
  enough (G : forall s e, bytes s -> basic_legal e s -> Forall legal (encode e s)) by (intros; apply G; auto).
  induction s as [|c r IH]; intros e B L; [constructor|]. inversion B as [|? ? B1 B2]; subst. cbn [encode].
  destruct (N.eqb_spec c 92) as [->|C].
  - constructor; [unfold legal; lia|]. apply IH; auto. inversion L; subst; auto; congruence.
  - destruct e.
    + apply Forall_app. split; auto. apply IH; auto. inversion L; subst; auto; congruence.
    + destruct (_ || _) eqn:S.
      * apply orb_prop in S. destruct S as [S|S]; apply andb_prop in S; destruct S as [_ S]; apply text_eqb_eq in S; rewrite S;
          repeat (apply Forall_cons; [unfold legal; lia|]); apply Forall_nil.
      * inversion L; subst; [congruence|]. constructor; [|apply IH; auto].
        destruct (toupper_lower c) as [[LO ->]|[_ ->]]; auto. unfold lower in LO. unfold legal. lia.
Qed.
(* The same name has the same file, but for the suffixes. *)
Theorem C96_file_found_partial : forall a b, same_name false a b ->
  ~ ends_in dot_elab a -> ~ ends_in dash_body a -> ~ ends_in dot_elab b -> ~ ends_in dash_body b -> file_name a = file_name b.
Proof. intros a b. apply encode_same. Qed.
Theorem C96_file_found_refuted : exists a b, same_name false a b /\ no_plus false a /\ no_plus false b /\ file_name a <> file_name b.
Proof.   (* P-body and P-BODY *)
  exists (80 :: dash_body), [80; 45; 66; 79; 68; 89]. split; [|split; [|split; [|discriminate]]].
  - repeat first [apply same_nil | apply same_basic; [discriminate|discriminate|unfold same_letter, lower; lia|]].
  - repeat first [apply np_nil | apply np_basic; [discriminate|discriminate|]].
  - repeat first [apply np_nil | apply np_basic; [discriminate|discriminate|]].
Qed.
(* The table of units in memory takes the same names for the same. *)
Theorem C96_lookup : forall a b, name_cmp false a b = true <-> same_name false a b.
Proof. exact name_cmp_is. Qed.
Theorem C96_lookup_sse_partial : forall a b, (name_cmp true a b = true -> same_name false a b) /\
  (no_latin a -> no_latin b -> same_name false a b -> name_cmp true a b = true).
Proof.
  intros a b. split; [apply name_cmp_sse_only|]. intros A B H. rewrite name_cmp_sse by auto. apply name_cmp_is. exact H.
Qed.
(* With SSE2, other letters than those of ASCII are not folded. *)
Theorem C96_lookup_sse_refuted : exists a b, same_name false a b /\ file_name a = file_name b /\ name_cmp true a b = false.
Proof.   (* small and capital e with acute accent *)
  exists [233], [201]. split; [|split; reflexivity]. apply same_basic; try discriminate; [unfold same_letter, lower; lia|constructor].
Qed.
(* Each character of an extended identifier was to be two digits; from 128 on there are eight. *)
Theorem C96_hex_refuted : exists c, c < 256 /\ length (file_name [92; c; 92]) = 10%nat.
Proof. exists 233. split; [lia|reflexivity]. Qed.

(* ---- C97 ---- *)
(* The index on disk is in order and has no name twice, after any history. *)
Theorem C97_ordered : forall K (size : index K -> nat) h, ordered (on_disk (run size h)).
Proof. intros K size h. apply all_ordered. Qed.
(* It has the units that were analysed and saved, by any process. *)
Theorem C97_no_loss : forall K (size : index K -> nat) h n, clocked h -> saved h n -> has n (on_disk (run size h)).
Proof. intros K size h n. apply no_loss. Qed.
Theorem C97_only_saved : forall K (size : index K -> nat) h n, has n (on_disk (run size h)) -> saved h n.
Proof. intros K size h n. apply only_saved. Qed.
(* Builds are reproducible: the order of analysis does not matter. *)
Theorem C97_reproducible : forall K (size : index K -> nat) p t a b, NoDup (map fst a) -> Permutation a b ->
  on_disk (run size (puts p a ++ [Save p t])) = on_disk (run size (puts p b ++ [Save p t])).
Proof.
  intros K size p t a b D P. assert (E : forall l, on_disk (run size (puts p l ++ [Save p t])) = adds l []).
  { intros l. rewrite run_snoc. unfold run. destruct (run_puts size p l initial) as (A & _ & C).
    cbn [step]. cbv zeta. unfold on_disk. cbn [disk]. rewrite A, C. reflexivity. }
  rewrite !E. apply adds_perm; auto.
Qed.
Lemma find_in : forall K (i : index K) n k, ordered i -> (find n i = Some k <-> In (n, k) i).
Proof.
  intros K i n k O. induction O as [|[m x] r S IH A]; [split; [discriminate|intros []]|]. cbn [find In]. cbn [fst] in A.
  destruct (text_eqb m n) eqn:E.
  - apply text_eqb_eq in E. subst. split; [intros X; injection X as ->; auto|]. intros [X|X]; [congruence|].
    exfalso. rewrite Forall_forall in A. apply A in X. exact (before_irrefl _ X).
  - rewrite IH. split; auto. intros [X|X]; auto. injection X as -> ->. rewrite eqb_refl in E. discriminate.
Qed.
Lemma last_put : forall K (l : index K) i n k, ordered i -> (find n (adds l i) = Some k <->
  (exists l1 l2, l = l1 ++ (n, k) :: l2 /\ ~ In n (map fst l2)) \/ (~ In n (map fst l) /\ find n i = Some k)).
Proof.
  intros K. induction l as [|[m x] l IH] using rev_ind; intros i n k O.
  - split; [intros H; right; split; auto|]. intros [([|? l1] & l2 & H & _)|[_ H]]; [discriminate|discriminate|exact H].
  - unfold adds. rewrite fold_left_app. cbn [fold_left fst snd]. fold (adds l i). rewrite add_find by (apply adds_ordered; auto).
    destruct (text_eqb m n) eqn:E.
    + apply text_eqb_eq in E. subst m. split.
      * intros H. injection H as ->. left. exists l, []. split; auto.
      * intros [(l1 & l2 & H & N)|[N _]].
        -- destruct l2 as [|y l2 _] using rev_ind; [apply app_inj_tail in H; destruct H as [_ H]; congruence|].
           rewrite app_comm_cons, app_assoc in H. apply app_inj_tail in H. destruct H as [_ H]. subst y. exfalso. apply N.
           rewrite map_app. apply in_or_app. right. left. reflexivity.
        -- exfalso. apply N. rewrite map_app. apply in_or_app. right. left. reflexivity.
    + assert (X : m <> n) by (intros ->; rewrite eqb_refl in E; discriminate). rewrite IH by auto. split.
      * intros [(l1 & l2 & -> & N)|[N H]].
        -- left. exists l1, (l2 ++ [(m, x)]). split; [rewrite <- app_assoc; reflexivity|]. rewrite map_app. intros Y. apply in_app_or in Y.
           destruct Y as [Y|[Y|[]]]; auto.
        -- right. split; auto. rewrite map_app. intros Y. apply in_app_or in Y. destruct Y as [Y|[Y|[]]]; auto.
      * intros [(l1 & l2 & H & N)|[N H]].
        -- destruct l2 as [|y l2 _] using rev_ind; [apply app_inj_tail in H; destruct H as [_ H]; congruence|].
           rewrite app_comm_cons, app_assoc in H. apply app_inj_tail in H. destruct H as [-> H]. left. exists l1, l2. split; auto.
           intros Y. apply N. rewrite map_app. apply in_or_app. auto.
        -- right. split; auto. intros Y. apply N. rewrite map_app. apply in_or_app. auto.
Qed.
(* A session alone with the library: each unit has the kind it was analysed with last, and the
   others keep theirs. *)
Theorem C97_kind_partial : forall K (size : index K -> nat) h p (l : index K) t n k,
  In (n, k) (on_disk (run size (h ++ Open p :: puts p l ++ [Save p t]))) <->
  (exists l1 l2, l = l1 ++ (n, k) :: l2 /\ ~ In n (map fst l2)) \/ (~ In n (map fst l) /\ In (n, k) (on_disk (run size h))).
Proof.
  intros K size h p l t n k.
  assert (E : on_disk (run size (h ++ Open p :: puts p l ++ [Save p t])) = adds l (on_disk (run size h))).
  { replace (h ++ Open p :: puts p l ++ [Save p t]) with ((h ++ Open p :: puts p l) ++ [Save p t]) by (rewrite <- app_assoc; reflexivity).
    rewrite run_snoc. unfold run. rewrite fold_left_app. cbn [fold_left]. set (w := fold_left (step size) h initial).
    set (w1 := step size w (Open p)). destruct (run_puts size p l w1) as (A & B & C). cbn [step]. cbv zeta. unfold on_disk at 1. cbn [disk].
    rewrite A, B, C. unfold on_disk, w1. cbn [step]. destruct (disk w) as [[i st]|] eqn:D; cbn [disk procs]; rewrite upd_same; cbn [list_of seen]; rewrite ?D; auto.
    unfold stamp_eqb. rewrite N.eqb_refl, Nat.eqb_refl. cbn [andb]. f_equal. clear. induction i as [|[m x] i IH]; auto. cbn [merge]. rewrite IH. reflexivity. }
  rewrite E. assert (O : ordered (on_disk (run size h))) by apply all_ordered.
  rewrite <- find_in by (apply adds_ordered; auto). rewrite last_put by auto. rewrite find_in by auto. reflexivity.
Qed.
(* With another process in between, the kind on disk replaces the one just analysed. *)
Theorem C97_kind_refuted : forall size : index nat -> nat, let n := [65] in let m := [66] in
  let h := [Put 0 n 1%nat; Save 0 1; Open 1; Put 0 m 1%nat; Save 0 2; Put 1 n 2%nat; Save 1 3] in
  clocked h /\ In (n, 1%nat) (on_disk (run size h)) /\ ~ In (n, 2%nat) (on_disk (run size h)).
Proof.
  intros size n m h. split; [repeat constructor|]. 
  assert (E : on_disk (run size h) = [(n, 1%nat); (m, 1%nat)]).
  { unfold h, run. cbn. unfold stamp_eqb. cbn. rewrite !Nat.eqb_refl. reflexivity. }
  rewrite E. split; [left; reflexivity|]. intros [X|[X|[]]]; discriminate.
Qed.
(* If the index is replaced by one of the same size within the resolution of the clock, units are
   lost. *)
Theorem C97_stamp_refuted : forall size : index nat -> nat, let a := [65] in let b := [66] in let c := [67] in
  size [(a, 1%nat)] = size [(a, 1%nat); (b, 1%nat)] ->
  let h := [Put 0 a 1%nat; Save 0 1; Open 1; Put 0 b 1%nat; Save 0 1; Put 1 c 1%nat; Save 1 2] in
  saved h b /\ ~ has b (on_disk (run size h)).
Proof.
  intros size a b c S h. split.
  - exists [Put 0 a 1%nat; Save 0 1; Open 1], [], [Put 1 c 1%nat; Save 1 2], 0%nat, 1%nat, 1. split; [reflexivity|intros []].
  - assert (E : on_disk (run size h) = [(a, 1%nat); (c, 1%nat)]).
    { unfold h, a, b, c, run in *. cbn. unfold stamp_eqb. cbn. rewrite !Nat.eqb_refl. cbn. 
      match goal with |- (if ?b then _ else _) = _ => replace b with true; [reflexivity|] end. symmetry. apply Nat.eqb_eq. symmetry. exact S. }
    rewrite E. intros [X|[X|[]]]; discriminate.
Qed.

(* ---- Examples ---- *)
(* WORK.\a\ and WORK.\A\ *)
Example ex_names : let a := [87; 79; 82; 75; 46; 92; 97; 92] in let b := [87; 79; 82; 75; 46; 92; 65; 92] in
  file_name a = [87; 79; 82; 75; 46; 43; 54; 49; 43] /\ file_name b = [87; 79; 82; 75; 46; 43; 52; 49; 43] /\ bytes a /\ no_plus false a /\
  name_cmp true a b = false.
Proof.
  repeat split; try reflexivity.
  - repeat constructor.
  - do 5 (apply np_basic; [discriminate|discriminate|]). apply np_slash. apply np_ext; [discriminate|]. apply np_slash. apply np_nil.
Qed.
Example ex_same : same_name false [97; 92; 98; 92] [65; 92; 98; 92].
Proof. apply C96_lookup. reflexivity. Qed.
(* The name WORK.\../x\ *)
Example ex_legal : basic_legal false [87; 46; 92; 46; 46; 47; 120; 92] /\ file_name [87; 46; 92; 46; 46; 47; 120; 92] = [87; 46; 43; 50; 101; 50; 101; 50; 102; 55; 56; 43].
Proof.
  split; [|reflexivity]. do 2 (apply bl_basic; [discriminate|unfold legal; lia|]). apply bl_slash. do 4 (apply bl_ext; [discriminate|]).
  apply bl_slash. apply bl_nil.
Qed.
Example ex_suffix : ~ ends_in dot_elab [97; 92; 98; 92] /\ ~ ends_in dash_body [97; 92; 98; 92].
Proof.
  split; intros (p & H); apply (f_equal (@rev N)) in H; rewrite rev_app_distr in H; cbn in H; discriminate.
Qed.
Example ex_history : let h := [Put 0 [65] 1%nat; Save 0 1; Open 1; Put 0 [67] 1%nat; Save 0 2; Put 1 [66] 2%nat; Save 1 3] in
  clocked h /\ saved h [66] /\ on_disk (run (@length _) h) = [([65], 1%nat); ([66], 2%nat); ([67], 1%nat)].
Proof.
  split; [repeat constructor|]. split; [|reflexivity].
  exists [Put 0 [65] 1%nat; Save 0 1; Open 1; Put 0 [67] 1%nat; Save 0 2], [], [], 1%nat, 2%nat, 3. split; [reflexivity|intros []].
Qed.

Print Assumptions C96_file_same.
Print Assumptions C96_file_distinct.
Print Assumptions C96_file_legal.
Print Assumptions C96_file_found_partial.
Print Assumptions C96_file_found_refuted.
Print Assumptions C96_lookup.
Print Assumptions C96_lookup_sse_partial.
Print Assumptions C96_lookup_sse_refuted.
Print Assumptions C96_hex_refuted.
Print Assumptions C97_ordered.
Print Assumptions C97_no_loss.
Print Assumptions C97_only_saved.
Print Assumptions C97_reproducible.
Print Assumptions C97_kind_partial.
Print Assumptions C97_kind_refuted.
Print Assumptions C97_stamp_refuted.
