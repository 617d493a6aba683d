(* C64: names of user-defined cover points. *)

From Coq Require Import ZArith NArith List Bool Arith Lia.
From Verif Require Import Base CoverNameModel CoverNameProofs.
Import ListNotations.

(* C64: for every sequence of names given to the items of a scope their full
   names are pairwise different, and the name of each is that of the scope, a
   dot, the encoding of its own and, when the name was used before, '#' and
   how often. *)
Theorem C64_items : forall hier names items,
  (forall n, In n names -> n <> [] /\ Forall (fun c => (c < 256)%N) n) ->
  add_items hier [] names = Ok items ->
  NoDup items /\ length items = length names /\
  forall i n, nth_error names i = Some n ->
    let before := length (filter (str_eqb n) (firstn i names)) in
    nth_error items i =
    Some (hier ++ [46%N] ++ sanitise n ++
          (if before =? 0 then [] else [35%N] ++ decimal (N.of_nat before))).
Proof.
  intros hier names items HN E.
  destruct (add_items_ok hier names [] [] items HN) as [A [B [_ D]]].
  - split; [intros n j [] | intros name; exists 0; reflexivity].
  - intros s n k [].
  - constructor.
  - constructor.
  - exact E.
  - split; [exact A|]. split; [exact B|]. intros i n X before.
    pose proof (D i n X) as Y. cbn [length Nat.add app] in Y. rewrite Y.
    unfold full, occurrences, suffix. fold before. rewrite <- app_assoc. f_equal. f_equal. f_equal.
    f_equal. destruct (Nat.eqb_spec before 0) as [->|NZ]; [reflexivity|].
    destruct (N.eqb_spec (N.of_nat before) 0); [lia | reflexivity].
Qed.

(* C64: items are always added unless the name is empty. *)
Theorem C64_items_total : forall hier names items,
  (forall n, In n names -> n <> []) -> exists items', add_items hier items names = Ok items'.
Proof.
  intros hier. induction names as [|n r IH]; intros items H; cbn [add_items]; [eauto|].
  unfold add_item. destruct n as [|c n]; [exfalso; now apply (H []); [left|]|].
  cbn [bind]. apply IH. intros m I. apply H. now right.
Qed.

(* C64: different names are encoded differently. *)
Theorem C64_encoding : forall a b,
  Forall (fun c => (c < 256)%N) a -> Forall (fun c => (c < 256)%N) b ->
  sanitise a = sanitise b -> a = b.
Proof.
  intros a b A B E. apply (name_inj a b 0 0 A B). now rewrite E.
Qed.

(* C64: scopes created in an instance get different names from each other and
   from what is there already, as long as none is renamed.  What is there has
   an identifier as its name, or a name with some character (backslash,
   parenthesis, space) that encoded names never have. *)
Theorem C64_scopes_partial : forall start names children,
  NoDup start -> (forall s, In s start -> Forall (fun c => (c < 256)%N) s) ->
  (forall s, In s start ->
     (forall c, In c s -> isalnum c = true \/ c = 95%N) \/
     (exists c, In c s /\ isalnum c = false /\ ~ In c [95; 38; 35; 59; 45]%N)) ->
  (forall n, In n names -> n <> [] /\ Forall (fun c => (c < 256)%N) n) ->
  scope_run start (map Create names) = Ok children ->
  NoDup children /\ length children = length start + length names.
Proof.
  intros start names children ND HB HC HN E.
  destruct (start_ok start ND HB) as [O [F S]].
  - intros s I. destruct (HC s I) as [X|[c [Ic [X Y]]]].
    + left. apply forallb_forall. intros c Ic. unfold idchar.
      destruct (X c Ic) as [->| ->]; [reflexivity | apply Bool.orb_true_r].
    + right. destruct (forallb codechar s) eqn:Q; [|reflexivity].
      rewrite forallb_forall in Q. specialize (Q c Ic). exfalso. apply Y.
      unfold codechar, idchar in Q. rewrite X in Q. cbn [orb] in Q.
      repeat (apply Bool.orb_prop in Q; destruct Q as [Q|Q]); apply N.eqb_eq in Q; subst c; cbn; auto 10.
  - rewrite <- S in E at 1.
    destruct (scope_run_ok names (map classify start) children HN O F) as [A B]; auto.
    { now rewrite S. }
    split; [exact A|]. rewrite map_length in B. exact B.
Qed.

(* C64 fails with renaming: SET_NAME never looks at the other names ... *)
Theorem C64_rename_refuted : exists os children, scope_run [] os = Ok children /\ ~ NoDup children.
Proof.
  exists [Create [65%N]; Create [66%N]; Rename 1 [65%N]], [[65%N]; [65%N]]. split; [reflexivity|].
  intros N. inversion N as [|? ? X _]. apply X. now left.
Qed.

(* ... and even when the new name is a fresh one, later scopes collide. *)
Theorem C64_rename_fresh_refuted : exists c0 c1 k name os children,
  scope_run [] c0 = Ok c1 /\ ~ In (sanitise name) c1 /\ NoDup c1 /\
  scope_run c1 (Rename k name :: map Create os) = Ok children /\ ~ NoDup children.
Proof.
  exists [Create [65%N]; Create [65%N]], [[65%N]; [65; 35; 49]%N], 0, [66%N], [[65%N]; [65%N]].
  exists [[66%N]; [65; 35; 49]%N; [65%N]; [65; 35; 49]%N]. split; [reflexivity|]. split.
  - intros [X|[X|[]]]; discriminate.
  - split.
    + constructor; [intros [X|[]]; discriminate | constructor; [intros [] | constructor]].
    + split; [vm_compute; reflexivity|]. intros N. inversion N as [|? ? _ N1].
      inversion N1 as [|? ? X _]. apply X. right. now left.
Qed.

(* "A", "b c", "A", "A", "a#1" in the scope T *)
Example C64_example : add_items [84%N] [] [[65]; [98; 32; 99]; [65]; [65]; [97; 35; 49]]%N =
  Ok [[84; 46; 65]; [84; 46; 98; 38; 35; 51; 50; 59; 99]; [84; 46; 65; 35; 49]; [84; 46; 65; 35; 50];
      [84; 46; 97; 38; 35; 51; 53; 59; 49]]%N.
Proof. vm_compute. reflexivity. Qed.
Example C64_scope_example : scope_run [[65]; [71; 40; 49; 41]]%N (map Create [[65]; [65]; [66]]%N) =
  Ok [[65]; [71; 40; 49; 41]; [65; 35; 49]; [65; 35; 50]; [66]]%N.
Proof. vm_compute. reflexivity. Qed.

Print Assumptions C64_items.
Print Assumptions C64_items_total.
Print Assumptions C64_encoding.
Print Assumptions C64_scopes_partial.
Print Assumptions C64_rename_refuted.
Print Assumptions C64_rename_fresh_refuted.
