(* C66: a coverage database that is written to a file and read back, by a
   process with its own tables of names and of files, is the same database. *)

From Coq Require Import ZArith NArith List Bool Arith Lia.
From Verif Require Import Base FbufModel FbufSpec CoverModel CoverFileModel CoverFileSpec CoverFileProofs.
Import ListNotations.

(* Whatever the tree of scopes and items, the blocks the writer hands to the
   compressor make up a file from which the reader gets the tree back: the same
   scopes in the same order, the same items with the same counts, and locations
   that name the same files, although the numbers of the files differ.  Nothing
   the reader had in its table of files changes. *)
Theorem C66_round_trip : forall names intern wfiles rfiles z a stale pre d,
  z <> ZFastlz ->
  Forall name_fits wfiles -> (Z.of_nat (length rfiles + length wfiles) < 65535)%Z ->
  (0 <= d_mask d < 2 ^ 32)%Z -> int32 (d_array_limit d) -> int32 (d_next_tag d) ->
  scope_fits (ident_fits names intern) wfiles (d_root d) ->
  (Z.of_nat (mentions (d_root d)) <= 2 ^ 31)%Z ->
  exists f f' d' files',
    write_fields (fbuf_open_out z a) (write_db names wfiles d) = Ok f /\
    fbuf_maybe_flush f 61440 true = Ok f' /\
    read_db intern stale rfiles pre (concat (map fst (f_blocks f'))) = Ok (d', rfiles ++ files') /\
    d_mask d' = Z.lor (d_mask d) pre /\ d_array_limit d' = d_array_limit d /\
    d_next_tag d' = d_next_tag d /\
    same_scope wfiles (rfiles ++ files') (d_root d) (d_root d').
Proof.
  intros names intern wfiles rfiles z a stale pre d Hz WF FF M AL NT SF MB.
  destruct (read_db_ok names intern wfiles WF ltac:(unfold FILE_INVALID; lia) stale rfiles pre d FF M AL NT SF MB)
    as (R & s & g & E & (files' & ->) & SS).
  destruct (blocks_ok z a _ Hz R) as (f & f' & W & FL & B).
  exists f, f'. eexists. exists files'. rewrite B.
  split; [exact W|]. split; [exact FL|]. split; [exact E|]. cbn. auto.
Qed.
Print Assumptions C66_round_trip.

(* The database of an entity with two statements and a comparison, in which a
   name occurs twice, read by a process that knows the second of the two files
   under another number. *)
Definition ex_names (i : ident) : list N := [97 + N.of_nat i]%N.
Definition ex_intern (n : list N) : ident := match n with c :: _ => N.to_nat (c - 97) | [] => 0 end.
Definition ex_wfiles : list (list N) := [[120]; [121; 121]]%N.
Definition ex_rfiles : list (list N) := [[122]; [121; 121]]%N.
Definition ex_loc (file line : Z) : loc := Loc line 3 1 7 file.
Definition ex_item (k : item_kind) (tag data flags : Z) (l : loc) (f : option ident) : item :=
  Item k tag data flags 0 1 1 (-5) [(-3, 9)%Z] l l (ex_loc 0 99) 4 f.
Definition ex_inner : scope :=
  Scope false 2 4 (ex_loc 1 20) None [ex_item KStmt 1 17 (-1) (ex_loc 1 21) None] [].
Definition ex_root : scope :=
  Scope true 1 2 (Loc 0 0 0 0 0) (Some 3)
    [ex_item KExpression 0 4 8 (ex_loc 1 5) (Some 2)]
    [ex_inner; Scope false 5 5 (Loc 0 0 0 0 65535) None [] []].
Definition ex_db : cover_db := Db 7 10 2 ex_root.

Example C66_applies :
  Forall name_fits ex_wfiles /\ (Z.of_nat (length ex_rfiles + length ex_wfiles) < 65535)%Z /\
  scope_fits (ident_fits ex_names ex_intern) ex_wfiles ex_root /\
  (Z.of_nat (mentions ex_root) <= 2 ^ 31)%Z.
Proof.
  assert (K : forall i, In i [1; 2; 3; 4; 5] -> ident_fits ex_names ex_intern i).
  { cbn [In]. intros i [<-|[<-|[<-|[<-|[<-|[]]]]]]; (split; [|split; [discriminate|reflexivity]]);
      (split; [repeat constructor|cbn; lia]). }
  assert (L : forall f n, (f = 0 \/ f = 1)%Z -> (0 <= n < 100)%Z -> loc_fits ex_wfiles (ex_loc f n)).
  { intros f n F H. split; cbn; lia. }
  assert (L0 : loc_fits ex_wfiles (Loc 0 0 0 0 0)) by (split; cbn; lia).
  assert (L1 : loc_fits ex_wfiles (Loc 0 0 0 0 65535)) by (split; cbn; lia).
  assert (I : forall k t d fl l f, (0 <= t < 9)%Z -> (0 <= d < 99)%Z -> (-9 <= fl < 9)%Z ->
    loc_fits ex_wfiles l -> (forall i, f = Some i -> In i [1; 2; 3; 4; 5]) ->
    item_fits (ident_fits ex_names ex_intern) ex_wfiles (ex_item k t d fl l f)).
  { intros k t d fl l f T D F LL FF. split; cbn; unfold int32, int64; try lia; try assumption.
    - constructor; [cbn; lia|constructor].
    - apply K. cbn. tauto.
    - intros i H. apply K, FF, H.
    - apply L; lia. }
  split; [repeat (constructor; [split; [repeat constructor|cbn; lia]|]); constructor|].
  split; [cbn; lia|]. split; [|vm_compute; discriminate].
  constructor; try (apply K; cbn; tauto).
  - intros i [= <-]. apply K. cbn. tauto.
  - exact L0.
  - cbn. lia.
  - constructor; [|constructor]. apply I; try lia; [apply L; lia|]. intros i [= <-]. cbn. tauto.
  - constructor; [|constructor; [|constructor]].
    + constructor; try (apply K; cbn; tauto).
      * discriminate.
      * apply L; lia.
      * cbn. lia.
      * constructor; [|constructor]. apply I; try lia; [apply L; lia|]. discriminate.
      * constructor.
    + constructor; try (apply K; cbn; tauto); try discriminate; try exact L1; try constructor; cbn; lia.
Qed.

(* What the reader gets: file 1 of the writer is still 1, file 0 is new. *)
Definition ex_bytes : res (list N) :=
  do! f <- write_fields (fbuf_open_out ZOther CsNone) (write_db ex_names ex_wfiles ex_db);
  do! f <- fbuf_maybe_flush f 61440 true;
  Ok (concat (map fst (f_blocks f))).
Definition ex_read : res (cover_db * list (list N)) :=
  do! b <- ex_bytes;
  read_db ex_intern (ex_item KStmt 0 0 0 (ex_loc 0 0) None) ex_rfiles 256 b.

Example C66_example :
  match ex_read with
  | Ok (Db m _ _ (Scope _ _ _ l b (it :: _) (Scope _ _ _ l2 _ (it2 :: _) _ :: _)), files) =>
      files = [[122]; [121; 121]; [120]]%N /\ m = 263%Z /\ l_file l = 2%Z /\ b = Some 3 /\
      l_file (i_loc it) = 1%Z /\ i_loc_rhs it = ex_loc 2 99 /\
      i_data it2 = 17%Z /\ i_flags it2 = (-1)%Z
  | _ => False
  end.
Proof. vm_compute. repeat split. Qed.
