(* C04, C05: the hash tables of src/hash.c are finite maps and sets. *)
From Coq Require Import List Arith Lia.
From Verif Require Import Base HashModel HashSpec HashProofs GhashModel GhashProofs.
Import ListNotations.

(* The pointer hash (hash_new / hash_put / hash_delete / hash_get / hash_iter):
   every history runs without an endless probe or failed assertion and its
   outputs are those of a finite map.  Sizes below four are excluded, see
   C04_small_table_refuted. *)
Theorem C04_hash_is_finite_map :
  forall (K V : Type) (eqb : K -> K -> bool) (hash : K -> nat) (p : nat) (ops : list (map_op K V)),
    (forall a b, eqb a b = true <-> a = b) -> 2 <= p ->
    exists outs h s',
      run_ops (hash_step eqb hash) (hash_new (2 ^ p)) ops = Ok (outs, h) /\
      map_run eqb (empty_map, no_keys) ops outs s'.
Proof.
  intros K V eqb hash p ops Heq Hp.
  assert (P4 : 4 <= 2 ^ p) by (change 4 with (2 ^ 2); apply Nat.pow_le_mono_r; lia).
  assert (I : hashrep hash (@hash_new K V (2 ^ p)) (empty_map, no_keys)).
  { split; [apply new_tinv; [exists p; reflexivity|assumption]|].
    split; [apply rep_new|]. intros k (s & A). discriminate. }
  revert I. generalize (@hash_new K V (2 ^ p)) (@empty_map K V, @no_keys K).
  induction ops as [|op ops IH]; intros h s I.
  - exists [], h, s. split; [reflexivity|constructor].
  - destruct (hash_step_ok eqb hash Heq h s op I) as (o & h1 & s1 & E & S1 & I1).
    destruct (IH h1 s1 I1) as (os & h2 & s2 & E2 & R2).
    exists (o :: os), h2, s2. cbn [run_ops]. rewrite E. cbn [bind]. rewrite E2.
    split; [reflexivity|econstructor; eassumption].
Qed.
Print Assumptions C04_hash_is_finite_map.

(* The string hash. *)
Theorem C04_shash_is_finite_map :
  forall (K V : Type) (eqb : K -> K -> bool) (hash : K -> nat) (p : nat) (ops : list (map_op K V)),
    (forall a b, eqb a b = true <-> a = b) -> 2 <= p ->
    exists outs h s',
      run_ops (shash_step eqb hash) (hash_new (2 ^ p)) ops = Ok (outs, h) /\
      map_run eqb (empty_map, no_keys) ops outs s'.
Proof.
  intros K V eqb hash p ops Heq Hp.
  assert (P4 : 4 <= 2 ^ p) by (change 4 with (2 ^ 2); apply Nat.pow_le_mono_r; lia).
  assert (I : tinv hash (@hash_new K V (2 ^ p)))
    by (apply new_tinv; [exists p; reflexivity|assumption]).
  assert (R : rep (@hash_new K V (2 ^ p)) empty_map) by apply rep_new.
  revert I R. generalize (@hash_new K V (2 ^ p)) (@empty_map K V) (@no_keys K).
  induction ops as [|op ops IH]; intros h m e I R.
  - exists [], h, (m, e). split; [reflexivity|constructor].
  - destruct (shash_step_ok eqb hash Heq h m e op I R) as (o & h1 & m1 & e1 & E & S1 & I1 & R1).
    destruct (IH h1 m1 e1 I1 R1) as (os & h2 & s2 & E2 & R2).
    exists (o :: os), h2, s2. cbn [run_ops]. rewrite E. cbn [bind]. rewrite E2.
    split; [reflexivity|econstructor; eassumption].
Qed.
Print Assumptions C04_shash_is_finite_map.

(* The integer hash, whatever its uninitialised cache holds. *)
Theorem C04_ihash_is_finite_map :
  forall (K V : Type) (eqb : K -> K -> bool) (hash : K -> nat) (p : nat)
         (junk_key : K) (junk_val : option V) (ops : list (map_op K V)),
    (forall a b, eqb a b = true <-> a = b) -> 2 <= p -> Forall put_or_get ops ->
    exists outs h s',
      run_ops (ihash_step eqb hash) (ihash_new (2 ^ p) junk_key junk_val) ops = Ok (outs, h) /\
      map_run eqb (empty_map, no_keys) ops outs s'.
Proof.
  intros K V eqb hash p jk jv ops Heq Hp HF.
  assert (P4 : 4 <= 2 ^ p) by (change 4 with (2 ^ 2); apply Nat.pow_le_mono_r; lia).
  assert (I : tinv hash (it (@ihash_new K V (2 ^ p) jk jv)))
    by (apply new_tinv; [exists p; reflexivity|assumption]).
  assert (R : rep (it (@ihash_new K V (2 ^ p) jk jv)) empty_map) by apply rep_new.
  assert (C : cache_ok (@ihash_new K V (2 ^ p) jk jv) empty_map) by (intros H; cbn in H; lia).
  revert I R C. generalize (@ihash_new K V (2 ^ p) jk jv) (@empty_map K V) (@no_keys K).
  induction HF as [|op ops HO HF IH]; intros h m e I R C.
  - exists [], h, (m, e). split; [reflexivity|constructor].
  - destruct (ihash_step_ok eqb hash Heq h m e op HO I R C)
      as (o & h1 & m1 & e1 & E & S1 & I1 & R1 & C1).
    destruct (IH h1 m1 e1 I1 R1 C1) as (os & h2 & s2 & E2 & R2).
    exists (o :: os), h2, s2. cbn [run_ops]. rewrite E. cbn [bind]. rewrite E2.
    split; [reflexivity|econstructor; eassumption].
Qed.
Print Assumptions C04_ihash_is_finite_map.

(* The hash set. *)
Theorem C04_hset_is_set :
  forall (K : Type) (eqb : K -> K -> bool) (hash : K -> nat) (p : nat) (ops : list (set_op K)),
    (forall a b, eqb a b = true <-> a = b) -> 2 <= p ->
    exists h, hset_run eqb hash (hset_new (2 ^ p)) ops = Ok (set_outs eqb no_keys ops, h).
Proof.
  intros K eqb hash p ops Heq Hp.
  assert (P4 : 4 <= 2 ^ p) by (change 4 with (2 ^ 2); apply Nat.pow_le_mono_r; lia).
  assert (I : sinv hash (@hset_new K (2 ^ p)) no_keys).
  { split; [apply kinv_empty; exists p; reflexivity|]. cbn. split; [assumption|].
    split; [lia|]. intros k. split; [discriminate|intros (i & A); discriminate]. }
  revert I. generalize (@hset_new K (2 ^ p)) (@no_keys K).
  induction ops as [|op ops IH]; intros h s I.
  - exists h. reflexivity.
  - destruct op as [k|k]; cbn [hset_run hset_step set_outs].
    + destruct (hset_insert_ok eqb hash Heq h k s I) as (h1 & E & I1). rewrite E. cbn [bind].
      destruct (IH _ _ I1) as (h2 & E2). rewrite E2. exists h2. reflexivity.
    + rewrite (hset_contains_ok eqb hash Heq h k s I). cbn [bind].
      destruct (IH _ _ I) as (h2 & E2). rewrite E2. exists h2. reflexivity.
Qed.
Print Assumptions C04_hset_is_set.

(* A table created with size two (hash_new(2), also hash_new(1) after one
   growth) fills up completely: looking up a third key never ends, for any
   number of iterations of the loop. *)
Theorem C04_small_table_refuted :
  exists (hash : nat -> nat) outs (h : tab nat nat),
    run_ops (hash_step Nat.eqb hash) (hash_new 2)
            [MapPut 1 (Some 10); MapPut 2 (Some 20)] = Ok (outs, h) /\
    forall fuel, probe Nat.eqb fuel (tsize h) (tkeys h) (hash_slot hash (tsize h) 3) 3 = Fault.
Proof.
  exists (fun k => k). vm_compute run_ops. do 2 eexists. split; [reflexivity|].
  intros fuel.
  cbn [tsize tkeys].
  match goal with |- probe _ _ _ ?ks _ _ = _ => set (keys := ks) end.
  assert (forall f, probe Nat.eqb f 2 keys 0 3 = Fault /\ probe Nat.eqb f 2 keys 1 3 = Fault) as G.
  { induction f as [|f [A B]]; [split; reflexivity|].
    split; cbn [probe]; unfold keys at 1; cbn [upd Nat.eqb]; assumption. }
  change (hash_slot (fun k => k) 2 3) with 1. apply G.
Qed.
Print Assumptions C04_small_table_refuted.

(* A history with colliding keys, growth, delete and re-insertion. *)
Example C04_case :
  let ops := [MapPut 1 (Some 10); MapPut 2 (Some 20); MapPut 3 (Some 30); MapDelete 2;
              MapGet 2; MapPut 4 (Some 40); MapPut 5 (Some 50); MapPut 2 (Some 21);
              MapGet 2; MapGet 3; MapGet 9; MapPut 3 (Some 31); MapIter] in
  match run_ops (hash_step Nat.eqb (fun _ => 7)) (hash_new 4) ops with
  | Ok (outs, h) =>
    outs = [MpBool false; MpBool false; MpBool false; MpUnit; MpVal None; MpBool false;
            MpBool false; MpBool false; MpVal (Some 21); MpVal (Some 30); MpVal None;
            MpBool true; MpPairs [(1, 10); (4, 40); (5, 50); (2, 21); (3, 31)]] /\ tsize h = 16
  | Fault => False
  end.
Proof. vm_compute. split; reflexivity. Qed.

Example C04_ihash_case :
  match run_ops (ihash_step Nat.eqb (fun k => k)) (ihash_new 4 7 (Some 99))
     [MapGet 7; MapPut 1 (Some 10); MapGet 7; MapPut 5 (Some 20); MapPut 9 None;
      MapPut 13 (Some 40); MapGet 5; MapGet 13] with
  | Ok (outs, h) => outs = [MpVal None; MpUnit; MpVal None; MpUnit; MpUnit; MpUnit;
                            MpVal (Some 20); MpVal (Some 40)]
  | Fault => False
  end.
Proof. vm_compute. reflexivity. Qed.

Example C04_hset_case :
  match hset_run Nat.eqb (fun k => k * 4) (hset_new 4)
     [SetInsert 1; SetInsert 2; SetInsert 3; SetInsert 1; SetInsert 4; SetContains 4; SetContains 9] with
  | Ok (outs, h) => outs = [None; None; None; None; None; Some true; Some false] /\ ssize h = 8
  | Fault => False
  end.
Proof. vm_compute. split; reflexivity. Qed.

(* C05 fails: after put, put, delete of one key and a growth of the table, the
   deleted value is returned again. *)
Theorem C05_ghash_refuted :
  exists (ops : list (map_op nat nat)) outs h,
    run_ops (ghash_step Nat.eqb (fun k => k)) (hash_new 4) ops = Ok (outs, h) /\
    forall s', ~ map_run Nat.eqb (empty_map, no_keys) ops outs s'.
Proof.
  exists [MapPut 1 (Some 10); MapPut 1 (Some 10); MapDelete 1; MapPut 2 (Some 20);
          MapPut 3 (Some 30); MapGet 1].
  vm_compute run_ops. do 2 eexists. split; [reflexivity|].
  intros s' R.
  repeat match goal with
  | H : map_run _ _ (_ :: _) _ _ |- _ => inversion H; subst; clear H
  | H : map_step _ _ _ _ _ |- _ => inversion H; subst; clear H
  end.
  match goal with H : _ = Some 10 |- _ => vm_compute in H; discriminate H
                | H : Some 10 = _ |- _ => vm_compute in H; discriminate H
  end.
Qed.
Print Assumptions C05_ghash_refuted.

(* What does hold, and is all that src/lib.c uses: histories of puts and gets,
   with repeated puts of the same key, for every equivalence [cmp] and every
   hash function that agrees with it.  Missing: ghash_delete. *)
Theorem C05_ghash_put_get_partial :
  forall (K V : Type) (cmp : K -> K -> bool) (hash : K -> nat) (p : nat) (ops : list (map_op K V)),
    (forall a, cmp a a = true) -> (forall a b, cmp a b = cmp b a) ->
    (forall a b c, cmp a b = true -> cmp b c = true -> cmp a c = true) ->
    (forall a b, cmp a b = true -> hash a = hash b) ->
    2 <= p -> Forall put_or_get ops ->
    exists outs h s',
      run_ops (ghash_step cmp hash) (hash_new (2 ^ p)) ops = Ok (outs, h) /\
      map_run cmp (empty_map, no_keys) ops outs s'.
Proof.
  intros K V cmp hash p ops Hr Hs Ht Hh Hp HF.
  assert (P4 : 4 <= 2 ^ p) by (change 4 with (2 ^ 2); apply Nat.pow_le_mono_r; lia).
  assert (I : ghash_rep cmp hash (@hash_new K V (2 ^ p)) empty_map).
  { pose proof (@kinv_empty K hash (2 ^ p) (ex_intro _ p eq_refl)) as KI.
    split; [constructor; cbn; try discriminate; apply KI|].
    cbn. split; [assumption|]. split; [lia|]. split; [intros ? ? ?; reflexivity|].
    split; [intros ? ? A; discriminate|]. intros k C. exfalso. apply C. reflexivity. }
  revert I. generalize (@hash_new K V (2 ^ p)) (@empty_map K V) (@no_keys K).
  induction HF as [|op ops HO HF IH]; intros h m e I.
  - exists [], h, (m, e). split; [reflexivity|constructor].
  - destruct op; try contradiction; cbn [run_ops ghash_step].
    + destruct (ghash_put_ok cmp hash Hr Hs Ht Hh h k v m I) as (h1 & E & I1).
      rewrite E. cbn [bind].
      destruct (IH h1 _ (fun k' => if cmp k k' then true else e k') I1) as (os & h2 & s2 & E2 & R2).
      rewrite E2. exists (MpUnit :: os), h2, s2. split; [reflexivity|].
      econstructor; [apply ms_put|eassumption].
    + rewrite (ghash_get_ok cmp hash Hh h k m I). cbn [bind].
      destruct (IH h m e I) as (os & h2 & s2 & E2 & R2).
      rewrite E2. exists (MpVal (m k) :: os), h2, s2. split; [reflexivity|].
      econstructor; [apply ms_get|eassumption].
Qed.
Print Assumptions C05_ghash_put_get_partial.

Example C05_case :
  match run_ops (ghash_step Nat.eqb (fun k => k)) (hash_new 4)
    [MapPut 1 (Some 10); MapPut 5 (Some 11); MapPut 1 (Some 12); MapPut 9 (Some 13);
     MapGet 1; MapGet 5; MapGet 13] with
  | Ok (outs, h) => outs = [MpUnit; MpUnit; MpUnit; MpUnit; MpVal (Some 12); MpVal (Some 11);
                            MpVal None] /\ tmembers h = 4 /\ tsize h = 8
  | Fault => False
  end.
Proof. vm_compute. repeat split; reflexivity. Qed.
