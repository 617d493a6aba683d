(* C72: a design unit saved to a library and loaded again is the same. *)

From Coq Require Import ZArith NArith List Bool Arith Lia Relations.
From Verif Require Import Base FbufModel FbufSpec FbufProofs NumberModel NumberProps CoverModel CoverFileModel CoverFileSpec CoverFileProofs
  ObjModel ObjKindProofs ObjGraphModel ObjGraphSpec ObjGraphProofs ObjGraphProps ObjFileModel ObjFileSpec ObjFileProofs.
Import ListNotations.
Local Open Scope nat_scope.

Lemma place_snd rg objs : forall z, map snd (place rg z objs) = objs.
Proof. induction objs as [|o l IH]; intros z; cbn; [reflexivity|now rewrite IH]. Qed.

Lemma find_filter {A B} (f : B -> bool) (g : A * B -> bool) l :
  (forall p, In p l -> f (snd p) = true -> g p = true) -> find f (map snd (filter g l)) = find f (map snd l).
Proof.
  induction l as [|p l IH]; intros H; [reflexivity|]. cbn [filter map find].
  assert (IH' := IH (fun q Q => H q (or_intror Q))).
  destruct (g p) eqn:G; cbn [map find].
  - now rewrite IH'.
  - destruct (f (snd p)) eqn:F; [|exact IH']. rewrite (H p (or_introl eq_refl) F) in G. discriminate.
Qed.

(* What is known of a unit that was frozen. *)
Record frozen (rg : registry) (ws : list arena) (key : nat) (a : arena) (fwd : list (nat * option nat)) : Prop := {
  fr_kept : forall i o, lookup rg (objects_of ws) (key, i) = Some o ->
    (exists w, forwarded fwd i = Some w) <-> needed rg (objects_of ws) key i;
  fr_at : forall i o w, lookup rg (objects_of ws) (key, i) = Some o -> forwarded fwd i = Some w ->
    find_at w (place rg 0 (kept rg (a_objs a) fwd)) = Some o;
  fr_order : forall i i' w w', forwarded fwd i = Some w -> forwarded fwd i' = Some w' -> i < i' -> w < w';
  fr_live : a_live a = list_sum (map (units rg) (kept rg (a_objs a) fwd));
  fr_place : forall i o, lookup rg (objects_of ws) (key, i) = Some o <-> In (i, o) (place rg 0 (a_objs a));
  fr_one : forall o, In o (a_objs a) -> 1 <= units rg o;
  fr_onto : forall w o, In (w, o) (place rg 0 (kept rg (a_objs a) fwd)) ->
    exists i, lookup rg (objects_of ws) (key, i) = Some o /\ forwarded fwd i = Some w }.

Lemma kept_in rg objs fwd o : In o (kept rg objs fwd) <-> exists i w, In (i, o) (place rg 0 objs) /\ forwarded fwd i = Some w.
Proof.
  unfold kept. rewrite in_map_iff. split.
  - intros ([i x] & <- & I). apply filter_In in I. cbn [fst snd] in I. destruct I as [I F].
    destruct (forwarded fwd i) as [w|] eqn:FW; [|discriminate]. exists i, w. auto.
  - intros (i & w & I & F). exists (i, o). split; [reflexivity|]. apply filter_In. split; [exact I|]. cbn [fst]. now rewrite F.
Qed.

Lemma unit_frozen unnamed rg ok ws files key a : unit_fits unnamed rg ok ws files key a ->
  exists fwd, a_fwd a = Some fwd /\ frozen rg ws key a fwd.
Proof.
  intros U. destruct (uf_gc _ _ _ _ _ _ _ U) as (fwd & GC & FW). exists fwd. split; [exact FW|].
  assert (NH : nth_error (objects_of ws) key = Some (a_objs a)).
  { unfold objects_of. rewrite nth_error_map, (uf_self _ _ _ _ _ _ _ U). reflexivity. }
  assert (SZ := uf_sized _ _ _ _ _ _ _ U).
  assert (PL := fun i o => lookup_place rg (objects_of ws) key (a_objs a) i o SZ NH).
  assert (ONE : forall o, In o (a_objs a) -> 1 <= units rg o).
  { intros o O. apply SZ with (a_objs a); [|exact O]. eapply nth_error_In. exact NH. }
  destruct (uf_root _ _ _ _ _ _ _ U) as (ro & RI & RK).
  assert (RJ : exists j, In (j, ro) (place rg 0 (a_objs a))).
  { rewrite <- (place_snd rg (a_objs a) 0) in RI. apply in_map_iff in RI. destruct RI as ([j x] & <- & I). exists j. exact I. }
  destruct RJ as (j & RJ). apply PL in RJ.
  destruct (C71_kept rg (objects_of ws) key (a_objs a) j ro (uf_sound _ _ _ _ _ _ _ U) SZ NH RJ RK)
    as (fwd' & live & GC' & A & B & C & D & _).
  rewrite GC in GC'. injection GC' as <- <-.
  split; try assumption.
  intros w o I.
  assert (IN : In w (map (fun p => match forwarded fwd (fst p) with Some v => v | None => 0 end)
                      (filter (fun p => is_some (forwarded fwd (fst p))) (place rg 0 (a_objs a))))).
  { assert (X : incl (map fst (place rg 0 (kept rg (a_objs a) fwd)))
      (map (fun p => match forwarded fwd (fst p) with Some v => v | None => 0 end)
         (filter (fun p => is_some (forwarded fwd (fst p))) (place rg 0 (a_objs a))))).
    { apply NoDup_length_incl.
      - assert (ND : NoDup (map fst (filter (fun p => is_some (forwarded fwd (fst p))) (place rg 0 (a_objs a))))).
        { assert (N0 := place_nodup rg (a_objs a) ONE 0). revert N0. generalize (place rg 0 (a_objs a)). intros l.
          induction l as [|p l IH]; intros N0; [constructor|]. cbn [map] in N0. inversion N0 as [|? ? N1 N2]; subst.
          cbn [filter]. destruct (is_some (forwarded fwd (fst p))); [|now apply IH]. cbn [map]. constructor; [|now apply IH].
          intros X. apply N1. apply in_map_iff in X. destruct X as (q & Q1 & Q2). apply filter_In in Q2. rewrite <- Q1.
          apply in_map. apply Q2. }
        assert (AS : forall p, In p (filter (fun p => is_some (forwarded fwd (fst p))) (place rg 0 (a_objs a))) ->
                  is_some (forwarded fwd (fst p)) = true) by (intros p P; apply filter_In in P; apply P).
        revert ND AS. generalize (filter (fun p => is_some (forwarded fwd (fst p))) (place rg 0 (a_objs a))). intros l.
        induction l as [|p l IH]; intros ND AS; [constructor|]. cbn [map] in *. inversion ND as [|? ? N1 N2]; subst. constructor.
        + intros X. apply in_map_iff in X. destruct X as (q & Q1 & Q2). apply N1.
          assert (AP := AS p (or_introl eq_refl)). assert (AQ := AS q (or_intror Q2)).
          destruct (forwarded fwd (fst p)) as [v|] eqn:FP; [|discriminate].
          destruct (forwarded fwd (fst q)) as [v'|] eqn:FQ; [|discriminate]. subst v'.
          destruct (Nat.lt_trichotomy (fst p) (fst q)) as [L|[L|L]].
          * assert (Y := C _ _ _ _ FP FQ L). lia.
          * rewrite L. now apply in_map.
          * assert (Y := C _ _ _ _ FQ FP L). lia.
        + apply IH; [exact N2|]. intros q Q. apply AS. now right.
      - rewrite !map_length. rewrite place_len. unfold kept. rewrite map_length. apply le_n.
      - intros v V. apply in_map_iff in V. destruct V as ([i x] & V1 & V2). apply filter_In in V2. cbn [fst] in *.
        destruct V2 as [V2 V3]. destruct (forwarded fwd i) as [v'|] eqn:FI; [|discriminate]. subst v'.
        apply PL in V2. assert (Y := B i x v V2 FI). apply find_at_in in Y. exact (in_map fst _ _ Y). }
    apply X. exact (in_map fst _ _ I). }
  apply in_map_iff in IN. destruct IN as ([i x] & V1 & V2). apply filter_In in V2. cbn [fst] in *.
  destruct V2 as [V2 V3]. destruct (forwarded fwd i) as [v'|] eqn:FI; [|discriminate]. subst v'.
  apply PL in V2. assert (Y := B i x w V2 FI).
  assert (x = o).
  { assert (ND : NoDup (map fst (place rg 0 (kept rg (a_objs a) fwd)))).
    { apply place_nodup. intros y K. apply kept_in in K. destruct K as (i' & _ & K & _). apply ONE. eapply place_in. exact K. }
    rewrite (find_at_nodup w _ o ND I) in Y. congruence. }
  subst x. exists i. split; [exact V2|exact FI].
Qed.

Lemma same_place_units rg tr fa fb l l' : Forall2 (same_object rg tr fa fb) l l' ->
  forall z, Forall2 (fun p q => fst q = fst p /\ same_object rg tr fa fb (snd p) (snd q)) (place rg z l) (place rg z l').
Proof.
  induction 1 as [|o o' l l' S F IH]; intros z; cbn [place]; constructor; [split; [reflexivity|exact S]|].
  assert (UE : units rg o' = units rg o) by (unfold units; now rewrite (so_tag _ _ _ _ _ _ S), (so_kind _ _ _ _ _ _ S)).
  rewrite UE. apply IH.
Qed.

Lemma same_find_at rg tr fa fb l l' w : Forall2 (same_object rg tr fa fb) l l' -> forall z,
  match find_at w (place rg z l), find_at w (place rg z l') with
  | Some o, Some o' => same_object rg tr fa fb o o'
  | None, None => True
  | _, _ => False
  end.
Proof.
  intros F z. assert (P := same_place_units _ _ _ _ _ _ F z). unfold find_at.
  induction P as [|p q lp lq [E S] P IH]; cbn [find]; [exact I|]. rewrite E. destruct (fst p =? w); [exact S|exact IH].
Qed.

Lemma same_root rg tr fa fb l l' : Forall2 (same_object rg tr fa fb) l l' ->
  match find (is_root rg) l, find (is_root rg) l' with
  | Some o, Some o' => same_object rg tr fa fb o o'
  | None, None => True
  | _, _ => False
  end.
Proof.
  induction 1 as [|o o' l l' S F IH]; cbn [find]; [exact I|].
  assert (IE : is_root rg o' = is_root rg o) by (unfold is_root; now rewrite (so_tag _ _ _ _ _ _ S), (so_kind _ _ _ _ _ _ S)).
  rewrite IE. destruct (is_root rg o); assumption.
Qed.

Lemma unit_name unnamed rg ok ws files key a fwd tr fa fb objs' n :
  unit_fits unnamed rg ok ws files key a -> frozen rg ws key a fwd ->
  Forall2 (same_object rg tr fa fb) (kept rg (a_objs a) fwd) objs' ->
  name_of unnamed rg (a_objs a) = Ok n -> name_of unnamed rg objs' = Ok n.
Proof.
  intros U FR F NM.
  assert (FE : find (is_root rg) (kept rg (a_objs a) fwd) = find (is_root rg) (a_objs a)).
  { unfold kept. rewrite find_filter, place_snd; [reflexivity|]. intros [i o] I R. cbn [fst snd] in *.
    apply (fr_place _ _ _ _ _ FR) in I.
    destruct (proj2 (fr_kept _ _ _ _ _ FR i o I)) as (w & W).
    - exists i, o. split; [exact I|]. split; [|apply rt_refl].
      unfold is_root in R. apply existsb_exists in R. destruct R as (x & X1 & X2). apply Nat.eqb_eq in X2. now subst.
    - now rewrite W. }
  assert (FS : exists o, find (is_root rg) (a_objs a) = Some o).
  { destruct (uf_root _ _ _ _ _ _ _ U) as (ro & RI & RK).
    destruct (find (is_root rg) (a_objs a)) as [o|] eqn:FN; [now exists o|]. exfalso.
    assert (X := find_none _ _ FN ro RI). unfold is_root in X.
    assert (Y : existsb (Nat.eqb (o_kind ro)) (c_roots (class_of rg (o_tag ro))) = true).
    { apply existsb_exists. exists (o_kind ro). split; [exact RK|apply Nat.eqb_refl]. }
    congruence. }
  destruct FS as (o & FO). assert (S := same_root _ _ _ _ _ _ F). rewrite FE, FO in S.
  unfold name_of, root_of in *. rewrite FO in NM.
  destruct (find (is_root rg) objs') as [o'|]; [|contradiction].
  assert (HE : obj_has rg o' = obj_has rg o) by (unfold obj_has; now rewrite (so_tag _ _ _ _ _ _ S), (so_kind _ _ _ _ _ _ S)).
  rewrite HE. destruct (N.testbit (obj_has rg o) 0) eqn:T0; [|exact NM].
  destruct (o_items o) as [|it its] eqn:IT; [discriminate|]. destruct it; try discriminate. injection NM as ->.
  destruct (so_items _ _ _ _ _ _ S 0 (VIdent n) ltac:(lia)) as (it' & L' & SV).
  { apply lookup_item_slot; [lia|]. split; [exact T0|]. rewrite IT. reflexivity. }
  apply lookup_item_slot in L'; [|lia]. destruct L' as [_ L']. change (rank (obj_has rg o') 0) with 0 in L'.
  destruct (o_items o') as [|x xs]; [discriminate|]. cbn in L'. injection L' as ->. cbn in SV. destruct it'; try discriminate. now injection SV as ->.
Qed.

Lemma own_deps unnamed rg std flags n : goes_by rg unnamed (empty_unit std flags) n -> n = Some unnamed.
Proof. unfold goes_by, empty_unit, name_of, root_of. cbn. congruence. Qed.

Lemma set_own ws x y more : set_arena ((ws ++ [x]) ++ more) (length ws) y = ws ++ y :: more.
Proof. unfold set_arena. rewrite <- app_assoc. cbn [app]. apply replace_app. Qed.

Theorem C72_faithful : forall names intern unnamed rg ws wfiles key a digest std z chk,
  z <> ZFastlz -> Forall name_fits wfiles -> (Z.of_nat (length wfiles) < 65535)%Z ->
  unit_fits unnamed rg (ident_fits names intern) ws wfiles key a -> (digest < 2 ^ 32)%N -> (std < 2 ^ 32)%N ->
  exists fs f f', write_unit names unnamed rg wfiles ws digest std key = Ok fs /\
    write_fields (fbuf_open_out z chk) fs = Ok f /\ fbuf_maybe_flush f 61440 true = Ok f' /\
  forall loader digest' now rws rfiles ws' own r',
    loads rg unnamed loader -> (Z.of_nat (length rfiles + length wfiles) < 65535)%Z ->
    read_unit intern unnamed rg loader digest' now rws (start (concat (map fst (f_blocks f'))) rfiles) = Ok (ws', own, r') ->
    digest' = digest /\ (rws = [] \/ std <= now)%N /\ r_buf r' = [] /\ (exists files', r_files r' = rfiles ++ files') /\
    exists a' more tk, ws' = arenas rws ++ a' :: more /\ own = length (arenas rws) /\ tk key = own /\
      a_std a' = std /\ a_flags a' = a_flags a /\
      (forall n, goes_by rg unnamed a n -> goes_by rg unnamed a' n) /\
      Forall2 (fun k m => tk k = m /\ same_unit rg unnamed ws ws' k m) (a_deps a) (a_deps a') /\
      (forall i o, lookup rg (objects_of ws) (key, i) = Some o -> needed rg (objects_of ws) key i ->
         exists o', lookup rg (objects_of ws') (moved ws tk (key, i)) = Some o' /\
                    same_object rg (moved ws tk) wfiles (r_files r') o o') /\
      (forall j o', lookup rg (objects_of ws') (own, j) = Some o' ->
         exists i o, lookup rg (objects_of ws) (key, i) = Some o /\ needed rg (objects_of ws) key i /\
                     moved ws tk (key, i) = (own, j)) /\
      (forall i i' o o', lookup rg (objects_of ws) (key, i) = Some o -> needed rg (objects_of ws) key i ->
         lookup rg (objects_of ws) (key, i') = Some o' -> needed rg (objects_of ws) key i' ->
         moved ws tk (key, i) = moved ws tk (key, i') -> i = i').
Proof.
  intros names intern unnamed rg ws wfiles key a digest std z chk Hz WF FF U DB SB.
  destruct (unit_frozen _ _ _ _ _ _ _ U) as (fwd & FW & FR).
  assert (DN : forall k, In k (key :: a_deps a) -> dep_named names intern unnamed rg ws k).
  { intros k K. destruct (uf_named _ _ _ _ _ _ _ U k K) as (K0 & d & n & D1 & D2 & D3 & D4 & D5 & D6).
    split; [exact K0|]. exists d, n. auto. }
  assert (OB : forall o, In o (kept rg (a_objs a) fwd) -> well_typed rg o /\ object_fits rg (ident_fits names intern) ws wfiles o).
  { intros o K. apply kept_in in K. destruct K as (i & w & I & W). apply (fr_place _ _ _ _ _ FR) in I. split.
    - exact (proj1 (uf_sound _ _ _ _ _ _ _ U) _ _ I).
    - apply (uf_objects _ _ _ _ _ _ _ U i o I). apply (fr_kept _ _ _ _ _ FR i o I). now exists w. }
  destruct (unit_ok names intern unnamed rg wfiles WF FF ws (uf_arenas _ _ _ _ _ _ _ U) key a fwd digest std
    (uf_self _ _ _ _ _ _ _ U) (DN key (or_introl eq_refl)) FW (fun k K => DN k (or_intror K)) OB
    (fr_live _ _ _ _ _ FR) (uf_size _ _ _ _ _ _ _ U) (uf_flags _ _ _ _ _ _ _ U) DB SB (uf_few _ _ _ _ _ _ _ U))
    as (fs & WE & RG & G).
  destruct (blocks_ok z chk _ Hz RG) as (f & f' & W1 & W2 & W3).
  exists fs, f, f'. split; [exact WE|]. split; [exact W1|]. split; [exact W2|].
  intros loader digest' now rws rfiles ws' own r' LD RF RD. rewrite W3 in RD.
  specialize (G loader digest' now rws rfiles [] RF). cbv zeta in G.
  destruct G as (r1 & f2 & f3 & w1 & w2 & w3 & E2 & E3 & L1 & L2 & S1 & F1 & B1 & RE).
  rewrite app_nil_r in RE. rewrite RE in RD. clear RE.
  destruct (N.eqb_spec digest digest') as [ED|]; [|discriminate]. cbn [negb] in RD.
  destruct (match rws with [] => std | _ => now end <? std)%N eqn:ST; [discriminate|].
  destruct (65533 <=? N.of_nat (length (arenas rws)))%N; [discriminate|].
  set (kmap0 := replace (repeat 0 (fold_left Nat.max (a_deps a) key + 1)) key (length (arenas rws))) in *.
  assert (UF := uf_few _ _ _ _ _ _ _ U).
  destruct (read_deps_ok names intern unnamed rg wfiles FF ws (uf_arenas _ _ _ _ _ _ _ U) (a_deps a) w1
    (fun k K => DN k (or_intror K)) ltac:(unfold BOUND; lia)) as (f2' & w2' & E2' & _ & _ & G2).
  rewrite E2 in E2'. injection E2' as <- <-.
  destruct (read_deps intern unnamed rg loader (length (a_deps a)) (arenas rws ++ [empty_unit std (a_flags a)]) kmap0 r1)
    as [[[[ws1 ks] kmap] r2]|] eqn:RDP; cbn [bind] in RD; [|discriminate].
  destruct (proj1 (G2 loader _ _ r1 _ S1 B1) _ _ _ _ LD RDP) as (B2 & S2 & F2 & (more & WM) & KE & FD & KL).
  destruct (read_objects_ok names intern unnamed rg wfiles WF FF ws (uf_arenas _ _ _ _ _ _ _ U) ws1 (length (arenas rws)) kmap fwd
    (place rg 0 (a_objs a)) w2 OB ltac:(rewrite place_len; unfold BOUND; lia)) as (f3' & w3' & E3' & _ & KB & G3).
  rewrite E3 in E3'. injection E3' as <- <-.
  assert (LB := proj2 (pages_bound _ (uf_size _ _ _ _ _ _ _ U))).
  assert (FU : length (keeps fwd (place rg 0 (a_objs a))) < length (r_buf r2)).
  { rewrite B2, !app_length. change (length (enc (FUint END_OF_OBJECTS))) with 3. lia. }
  assert (LV := fr_live _ _ _ _ _ FR).
  destruct (G3 r2 [] (N.to_nat (pages (a_live a) / 16)) (length (r_buf r2)) S2 B2
    ltac:(change (keeps fwd (place rg 0 (a_objs a))) with (kept rg (a_objs a) fwd); rewrite <- LV; exact LB) FU)
    as [(objs & r3 & RO & B3 & P3 & SO)|(RO & _)]; rewrite RO in RD; cbn [bind] in RD; [|discriminate].
  change (keeps fwd (place rg 0 (a_objs a))) with (kept rg (a_objs a) fwd) in SO.
  destruct (negb _); [discriminate|]. injection RD as <- <- <-.
  rewrite WM, set_own.
  split; [congruence|]. split.
  { destruct rws; [now left|right]. apply N.ltb_ge in ST. exact ST. }
  split; [exact B3|]. split.
  { rewrite F2, F1 in P3. exact P3. }
  set (x := Arena objs None 0 std 0 (a_flags a) ks).
  exists x, more, (tk kmap).
  assert (KK : tk kmap key = length (arenas rws)).
  { unfold tk. rewrite KE, assign_other.
    - unfold kmap0. rewrite replace_nth, Nat.eqb_refl, repeat_length.
      destruct (Nat.ltb_spec key (fold_left Nat.max (a_deps a) key + 1)) as [_|X]; [reflexivity|].
      assert (Y := proj1 (fold_max_ge (a_deps a) key)). lia.
    - assert (ND := uf_deps _ _ _ _ _ _ _ U). inversion ND. assumption. }
  assert (NOWN : nth_error (objects_of (arenas rws ++ x :: more)) (length (arenas rws)) = Some objs).
  { unfold objects_of. rewrite nth_error_map, nth_error_app2, Nat.sub_diag by lia. reflexivity. }
  assert (MV : forall i w, forwarded fwd i = Some w -> moved ws (tk kmap) (key, i) = (length (arenas rws), w)).
  { intros i w W. unfold moved. cbn [fst snd]. rewrite (uf_self _ _ _ _ _ _ _ U), KK. rewrite <- saved_at. unfold saved. rewrite FW, W, Nnat.Nat2N.id. reflexivity. }
  split; [reflexivity|]. split; [reflexivity|]. split; [exact KK|]. split; [reflexivity|]. split; [reflexivity|].
  split; [|split; [|split; [|split]]].
  - intros n. apply (unit_name _ _ _ _ _ _ _ fwd _ _ _ _ n U FR SO).
  - assert (ND := uf_deps _ _ _ _ _ _ _ U). inversion ND as [|? ? N1 N2]; subst.
    assert (LN : length ks = length (a_deps a)) by (symmetry; eapply f2_length; exact FD).
    assert (AD := assign_deps (a_deps a) kmap0 ks N2 KL LN). cbn [a_deps x].
    assert (DK : forall k, In k (a_deps a) -> forall n d, nth_error ws k = Some d -> goes_by rg unnamed d n -> n <> Some unnamed).
    { intros k K n d D GD. destruct (uf_named _ _ _ _ _ _ _ U k (or_intror K)) as (_ & d' & n' & D1 & D2 & D3 & _).
      rewrite D in D1. injection D1 as <-. unfold goes_by in *. congruence. }
    fold (tk (assign kmap0 (a_deps a) ks)) in AD.
    change (fun d k => nth d (assign kmap0 (a_deps a) ks) 0 = k) with (fun d k => tk (assign kmap0 (a_deps a) ks) d = k) in AD.
    set (T := tk (assign kmap0 (a_deps a) ks)) in *. clearbody T.
    clearbody x. revert DK AD FD. clear. generalize (a_deps a). intros deps. revert ks.
    induction deps as [|k deps IH]; intros ks DK AD FD; inversion AD as [|? m ? ks' A1 A2]; subst; constructor.
    + inversion FD as [|? ? ? ? F1 F2]; subst. split; [reflexivity|]. destruct F1 as (M0 & d & d' & n & D1 & D2 & D3 & D4 & D5 & D6).
      split; [exact M0|]. exists d, d', n. split; [exact D1|]. split; [|auto].
      assert (NU := DK k (or_introl eq_refl) n d D1 D3).
      destruct (Nat.eq_dec (T k) (length (arenas rws))) as [EQ|NE].
      * exfalso. apply NU. rewrite EQ, <- app_assoc in D2. rewrite nth_error_app2, Nat.sub_diag in D2 by lia.
        cbn in D2. injection D2 as <-. eapply own_deps. exact D4.
      * rewrite <- app_assoc in D2. destruct (Nat.lt_ge_cases (T k) (length (arenas rws))) as [L|L].
        -- rewrite nth_error_app1 in * by exact L. exact D2.
        -- rewrite nth_error_app2 in * by exact L. destruct (T k - length (arenas rws)) as [|q] eqn:Q; [lia|]. exact D2.
    + inversion FD as [|? ? ? ? F1 F2]; subst. apply IH; [|exact A2|exact F2]. intros k' K'. apply DK. now right.
  - intros i o LO ND. destruct (proj2 (fr_kept _ _ _ _ _ FR i o LO) ND) as (w & W). rewrite (MV i w W).
    assert (FA := fr_at _ _ _ _ _ FR i o w LO W).
    assert (SF := same_find_at _ _ _ _ _ _ w SO 0). rewrite FA in SF.
    unfold lookup. cbn [fst snd]. rewrite NOWN. destruct (find_at w (place rg 0 objs)) as [o'|]; [|contradiction].
    exists o'. split; [reflexivity|exact SF].
  - intros j o' LO. unfold lookup in LO. cbn [fst snd] in LO. rewrite NOWN in LO.
    assert (SF := same_find_at _ _ _ _ _ _ j SO 0). rewrite LO in SF.
    destruct (find_at j (place rg 0 (kept rg (a_objs a) fwd))) as [o|] eqn:FA; [|contradiction].
    apply find_at_in in FA. destruct (fr_onto _ _ _ _ _ FR j o FA) as (i & LI & W).
    exists i, o. split; [exact LI|]. split; [|now apply MV]. apply (fr_kept _ _ _ _ _ FR i o LI). now exists j.
  - intros i i' o o' LO ND LO' ND' EQ.
    destruct (proj2 (fr_kept _ _ _ _ _ FR i o LO) ND) as (w & W). destruct (proj2 (fr_kept _ _ _ _ _ FR i' o' LO') ND') as (w' & W').
    rewrite (MV i w W), (MV i' w' W') in EQ. injection EQ as <-.
    destruct (Nat.lt_trichotomy i i') as [L|[L|L]]; [|exact L|].
    + assert (Y := fr_order _ _ _ _ _ FR _ _ _ _ W W' L). lia.
    + assert (Y := fr_order _ _ _ _ _ FR _ _ _ _ W' W L). lia.
Qed.
Print Assumptions C72_faithful.

Lemma f2_nth {A B} (R : A -> B -> Prop) l l' p x y : Forall2 R l l' -> nth_error l p = Some x -> nth_error l' p = Some y -> R x y.
Proof.
  intros F. revert p. induction F as [|a b l l' H F IH]; intros [|p] NX NY; try discriminate NX.
  - injection NX as <-. injection NY as <-. exact H.
  - now apply (IH p).
Qed.

Theorem C72_accepted : forall names intern unnamed rg ws wfiles key a digest std z chk fs f f' loader now rws rfiles xs ws1 ks,
  z <> ZFastlz -> Forall name_fits wfiles -> (Z.of_nat (length wfiles) < 65535)%Z ->
  unit_fits unnamed rg (ident_fits names intern) ws wfiles key a -> (digest < 2 ^ 32)%N -> (std < 2 ^ 32)%N ->
  write_unit names unnamed rg wfiles ws digest std key = Ok fs ->
  write_fields (fbuf_open_out z chk) fs = Ok f -> fbuf_maybe_flush f 61440 true = Ok f' ->
  loads rg unnamed loader -> (Z.of_nat (length rfiles + length wfiles) < 65535)%Z ->
  (* the standard is not newer, there is room, and all dependencies are available *)
  (rws = [] \/ std <= now)%N -> (N.of_nat (length (arenas rws)) < 65533)%N ->
  Forall2 (described rg unnamed ws) (a_deps a) xs ->
  available rg unnamed loader (arenas rws ++ [Arena [] None 0 std 0 (a_flags a) []]) xs ws1 ks ->
  (* references stay within the unit and its dependencies *)
  (forall i o y, lookup rg (objects_of ws) (key, i) = Some o -> needed rg (objects_of ws) key i ->
     refers rg (N.ones 64) o y ->
     fst y = key \/ exists p m d', nth_error (a_deps a) p = Some (fst y) /\ nth_error ks p = Some m /\
                      nth_error ws1 m = Some d' /\ snd (moved ws (fun _ => m) y) < extent rg d') ->
  exists ws' r', read_unit intern unnamed rg loader digest now rws (start (concat (map fst (f_blocks f'))) rfiles)
                   = Ok (ws', length (arenas rws), r').
Proof.
  intros names intern unnamed rg ws wfiles key a digest std z chk fs f f' loader now rws rfiles xs ws1 ks
    Hz WF FF U DB SB WE W1 W2 LD RF ST RM DX AV RS.
  destruct (unit_frozen _ _ _ _ _ _ _ U) as (fwd & FW & FR).
  assert (DN : forall k, In k (key :: a_deps a) -> dep_named names intern unnamed rg ws k).
  { intros k K. destruct (uf_named _ _ _ _ _ _ _ U k K) as (K0 & d & n & D1 & D2 & D3 & D4 & D5 & D6).
    split; [exact K0|]. exists d, n. auto. }
  assert (OB : forall o, In o (kept rg (a_objs a) fwd) -> well_typed rg o /\ object_fits rg (ident_fits names intern) ws wfiles o).
  { intros o K. apply kept_in in K. destruct K as (i & w & I & W). apply (fr_place _ _ _ _ _ FR) in I. split.
    - exact (proj1 (uf_sound _ _ _ _ _ _ _ U) _ _ I).
    - apply (uf_objects _ _ _ _ _ _ _ U i o I). apply (fr_kept _ _ _ _ _ FR i o I). now exists w. }
  destruct (unit_ok names intern unnamed rg wfiles WF FF ws (uf_arenas _ _ _ _ _ _ _ U) key a fwd digest std
    (uf_self _ _ _ _ _ _ _ U) (DN key (or_introl eq_refl)) FW (fun k K => DN k (or_intror K)) OB
    (fr_live _ _ _ _ _ FR) (uf_size _ _ _ _ _ _ _ U) (uf_flags _ _ _ _ _ _ _ U) DB SB (uf_few _ _ _ _ _ _ _ U))
    as (fs0 & WE0 & RG & G).
  rewrite WE in WE0. injection WE0 as <-.
  destruct (blocks_ok z chk _ Hz RG) as (f0 & f0' & X1 & X2 & W3).
  rewrite W1 in X1. injection X1 as <-. rewrite W2 in X2. injection X2 as <-. rewrite W3.
  specialize (G loader digest now rws rfiles [] RF). cbv zeta in G.
  destruct G as (r1 & f2 & f3 & w1 & w2 & w3 & E2 & E3 & L1 & L2 & S1 & F1 & B1 & RE).
  rewrite app_nil_r in RE. rewrite RE. clear RE.
  rewrite N.eqb_refl. cbn [negb].
  destruct (N.ltb_spec match rws with [] => std | _ => now end std) as [X|_].
  { exfalso. destruct rws; [lia|]. destruct ST as [?|ST]; [discriminate|lia]. }
  destruct (N.leb_spec 65533 (N.of_nat (length (arenas rws)))) as [X|_]; [lia|].
  set (kmap0 := replace (repeat 0 (fold_left Nat.max (a_deps a) key + 1)) key (length (arenas rws))) in *.
  assert (UF := uf_few _ _ _ _ _ _ _ U).
  destruct (read_deps_ok names intern unnamed rg wfiles FF ws (uf_arenas _ _ _ _ _ _ _ U) (a_deps a) w1
    (fun k K => DN k (or_intror K)) ltac:(unfold BOUND; lia)) as (f2' & w2' & E2' & _ & _ & G2).
  rewrite E2 in E2'. injection E2' as <- <-.
  assert (KL : forall k, In k (a_deps a) -> k < length kmap0).
  { intros k K. unfold kmap0. rewrite replace_length, repeat_length. assert (Y := proj2 (fold_max_ge (a_deps a) key) k K). lia. }
  destruct (proj2 (G2 loader _ kmap0 r1 _ S1 B1) xs ws1 ks DX AV KL) as (r2 & RDP & B2 & S2 & F2).
  assert (PC := proj1 (G2 loader _ kmap0 r1 _ S1 B1) _ _ _ _ LD RDP).
  destruct PC as (_ & _ & _ & _ & _ & FD & _).
  unfold empty_unit. rewrite RDP. cbn [bind].
  set (kmap := assign kmap0 (a_deps a) ks) in *.
  destruct (read_objects_ok names intern unnamed rg wfiles WF FF ws (uf_arenas _ _ _ _ _ _ _ U) ws1 (length (arenas rws)) kmap fwd
    (place rg 0 (a_objs a)) w2 OB ltac:(rewrite place_len; unfold BOUND; lia)) as (f3' & w3' & E3' & _ & KB & G3).
  rewrite E3 in E3'. injection E3' as <- <-.
  assert (LB := proj2 (pages_bound _ (uf_size _ _ _ _ _ _ _ U))).
  assert (FU : length (keeps fwd (place rg 0 (a_objs a))) < length (r_buf r2)).
  { rewrite B2, !app_length. change (length (enc (FUint END_OF_OBJECTS))) with 3. lia. }
  assert (LV := fr_live _ _ _ _ _ FR).
  assert (ND := uf_deps _ _ _ _ _ _ _ U). inversion ND as [|? ? N1 N2]; subst.
  assert (KK : tk kmap key = length (arenas rws)).
  { unfold tk, kmap. rewrite assign_other by exact N1.
    unfold kmap0. rewrite replace_nth, Nat.eqb_refl, repeat_length.
    destruct (Nat.ltb_spec key (fold_left Nat.max (a_deps a) key + 1)) as [_|X]; [reflexivity|].
    assert (Y := proj1 (fold_max_ge (a_deps a) key)). lia. }
  destruct (G3 r2 [] (N.to_nat (pages (a_live a) / 16)) (length (r_buf r2)) S2 B2
    ltac:(change (keeps fwd (place rg 0 (a_objs a))) with (kept rg (a_objs a) fwd); rewrite <- LV; exact LB) FU)
    as [(objs & r3 & RO & B3 & P3 & SO)|(RO & o & y & O1 & O2 & O3)].
  - rewrite RO. cbn [bind].
    change (keeps fwd (place rg 0 (a_objs a))) with (kept rg (a_objs a) fwd) in SO.
    assert (UE : extent rg (Arena objs None 0 std 0 (a_flags a) ks) = a_live a).
    { unfold extent. cbn [a_objs]. rewrite LV. clear - SO. induction SO as [|o o' l l' S F IH]; [reflexivity|].
      cbn [map]. unfold list_sum in *. cbn [fold_right]. rewrite IH. unfold units. now rewrite (so_tag _ _ _ _ _ _ S), (so_kind _ _ _ _ _ _ S). }
    rewrite UE, N.eqb_refl. cbn [negb]. eexists _, _. reflexivity.
  - exfalso. apply O3. change (keeps fwd (place rg 0 (a_objs a))) with (kept rg (a_objs a) fwd) in O1.
    apply kept_in in O1. destruct O1 as (i & w & I & W). apply (fr_place _ _ _ _ _ FR) in I.
    assert (NE : needed rg (objects_of ws) key i) by (apply (fr_kept _ _ _ _ _ FR i o I); now exists w).
    assert (AL := length (arenas rws)).
    destruct (RS i o y I NE O2) as [EK|(p & m & d' & P1 & P2 & P3 & P4)].
    + split; [|left]; rewrite EK, KK; [apply world0_length|reflexivity].
    + assert (LN : length ks = length (a_deps a)) by (symmetry; eapply f2_length; exact FD).
      assert (AD := assign_deps (a_deps a) kmap0 ks N2 KL LN).
      assert (TM : tk kmap (fst y) = m) by exact (f2_nth _ _ _ _ _ _ AD P1 P2).
      destruct (f2_nth _ _ _ _ _ _ FD P1 P2) as (M0 & _).
      split; [congruence|]. right. exists d'. rewrite TM. split; [exact P3|exact P4].
Qed.
Print Assumptions C72_accepted.

(* A package (arena 1) whose first object was removed, and a unit (arena 2) that
   refers to its own second object and to the last one of the package. *)
Definition x_reg : registry := Registry [Class [3; 1]%N [] [0] true] [[32; 24]].
Definition x_names (i : ident) : list N := [N.of_nat i + 65]%N.
Definition x_intern (l : list N) : ident := N.to_nat (nth 0 l 0 - 65)%N.
Definition x_files : list (list N) := [[97]%N].
Definition x_loc : loc := Loc 3 4 0 1 0.
Definition x_node (i : ident) (r : oref) : object := Obj 0 0 x_loc [VIdent (Some i); VObject (Some r)].
Definition x_leaf (i : ident) : object := Obj 1 0 x_loc [VIdent (Some i)].
Definition x_pkg : arena :=
  Arena [x_leaf 5; x_node 1 (1, 4); x_leaf 6] (Some [(0, None); (2, Some 0); (4, Some 2)]) 4 8 77 0 [].
Definition x_unit : arena :=
  Arena [x_node 2 (2, 2); x_node 3 (1, 4)] (Some [(0, Some 0); (2, Some 2)]) 4 8 0 1 [1].
Definition x_ws : list arena := [arena0; x_pkg; x_unit].

Lemma x_ident i : i < 100 -> ident_fits x_names x_intern i.
Proof.
  intros L. unfold ident_fits, name_fits, x_names, x_intern. cbn [nth length]. split; [split|split].
  - constructor; [lia|constructor].
  - reflexivity.
  - discriminate.
  - lia.
Qed.

Lemma x_objects i o : lookup x_reg (objects_of x_ws) (2, i) = Some o -> object_fits x_reg (ident_fits x_names x_intern) x_ws x_files o.
Proof.
  intros L. unfold lookup in L. cbn [fst snd] in L. change (nth_error (objects_of x_ws) 2) with (Some (a_objs x_unit)) in L.
  apply find_at_in in L.
  assert (LF : loc_fits x_files x_loc) by (split; cbn; lia).
  destruct L as [L|[L|[]]]; injection L as <- <-; split.
  1-3, 6-8: vm_compute; repeat constructor.
  1, 3: intros _; exact LF.
  - intros [|[|bit]] it B LI; [vm_compute in LI; injection LI as <-; cbn [value_fits]| vm_compute in LI; injection LI as <-; cbn [value_fits]|].
    + intros x [= <-]. apply x_ident. lia.
    + intros x [= <-]. split; [discriminate|]. eexists. split; [reflexivity|]. vm_compute. reflexivity.
    + exfalso. apply lookup_item_slot in LI; [|exact B]. destruct LI as [T _]. unfold tb in T.
      change (obj_has x_reg (x_node 2 (2, 2))) with 3%N in T. rewrite N.bits_above_log2 in T; [discriminate|].
      change (N.log2 3) with 1%N. lia.
  - intros [|[|bit]] it B LI; [vm_compute in LI; injection LI as <-; cbn [value_fits]| vm_compute in LI; injection LI as <-; cbn [value_fits]|].
    + intros x [= <-]. apply x_ident. lia.
    + intros x [= <-]. split; [discriminate|]. eexists. split; [reflexivity|]. vm_compute. reflexivity.
    + exfalso. apply lookup_item_slot in LI; [|exact B]. destruct LI as [T _]. unfold tb in T.
      change (obj_has x_reg (x_node 3 (1, 4))) with 3%N in T. rewrite N.bits_above_log2 in T; [discriminate|].
      change (N.log2 3) with 1%N. lia.
Qed.

Lemma x_fits : unit_fits 99 x_reg (ident_fits x_names x_intern) x_ws x_files 2 x_unit.
Proof.
  split.
  - reflexivity.
  - reflexivity.
  - discriminate.
  - apply soundb_ok. vm_compute. reflexivity.
  - intros objs o I J. cbn in I. destruct I as [<-|[<-|[<-|[]]]]; cbn in J;
      repeat (destruct J as [<-|J]; [apply Nat.leb_le; vm_compute; reflexivity|]); destruct J.
  - eexists. split; [vm_compute; reflexivity|]. vm_compute. reflexivity.
  - exists (x_node 2 (2, 2)). split; [now left|]. now left.
  - reflexivity.
  - reflexivity.
  - constructor; [cbn; intuition discriminate|]. constructor; [intros []|constructor].
  - intros k [<-|[<-|[]]]; (split; [discriminate|]).
    + exists x_unit, (Some 2). split; [reflexivity|]. split; [reflexivity|]. split; [discriminate|].
      split; [intros i [= <-]; apply x_ident; lia|]. split; reflexivity.
    + exists x_pkg, (Some 1). split; [reflexivity|]. split; [reflexivity|]. split; [discriminate|].
      split; [intros i [= <-]; apply x_ident; lia|]. split; reflexivity.
  - intros i o L _. exact (x_objects i o L).
  - cbn. lia.
Qed.

(* A process that has loaded the package, as its second arena, from its file. *)
Definition x_loaded : arena := Arena [x_node 1 (2, 2); x_leaf 6] None 0 8 77 0 [].
Definition x_other : arena := Arena [x_node 7 (1, 0)] None 0 8 5 0 [].

Definition x_bytes : list N :=
  match write_unit x_names 99 x_reg x_files x_ws 1234 8 2 with Ok fs => encs fs | Fault => [] end.

Definition x_read (rws : list arena) : res (list arena * nat * rctx) :=
  read_unit x_intern 99 x_reg (fun _ _ => None) 1234 8 rws (start x_bytes [[98]%N]).

Definition x_loc' : loc := Loc 3 4 0 1 1.
Definition x_result : arena :=
  Arena [Obj 0 0 x_loc' [VIdent (Some 2); VObject (Some (3, 2))];
         Obj 0 0 x_loc' [VIdent (Some 3); VObject (Some (2, 2))]] None 0 8 0 1 [2].

Example C72_example :
  unit_fits 99 x_reg (ident_fits x_names x_intern) x_ws x_files 2 x_unit /\
  (exists ws' r', x_read [arena0; x_other; x_loaded] = Ok (ws', 3, r') /\
     ws' = [arena0; x_other; x_loaded; x_result] /\ r_files r' = [[98]; [97]]%N) /\
  available x_reg 99 (fun _ _ => None) ([arena0; x_other; x_loaded] ++ [Arena [] None 0 8 0 1 []]) [(Some 1, 8%N, 77%N)]
    [arena0; x_other; x_loaded; Arena [] None 0 8 0 1 []] [2] /\
  x_read [arena0; x_other] = Fault.
Proof.
  split; [exact x_fits|]. split; [|split].
  - destruct (x_read [arena0; x_other; x_loaded]) as [[[ws' k] r']|] eqn:E; [|vm_compute in E; discriminate].
    exists ws', r'. vm_compute in E. injection E as <- <- <-. repeat split.
  - eapply av_here with (a := x_loaded); try reflexivity; [|constructor]. split; [lia|]. split.
    + exists x_loaded. split; reflexivity.
    + intros [|[|j]] b J NB; [lia| |lia]. injection NB as <-. exists (Some 7). split; [reflexivity|discriminate].
  - vm_compute. reflexivity.
Qed.

(* The package is still the one that was analysed by the process, with an object in
   it that was removed from the file: same name, standard and checksum.  The reference
   to the object named 6 becomes one to the object named 1. *)
Theorem C72_same_process_refuted : exists names intern unnamed rg ws wfiles key a fs loader rws ws' own r' k i x y n,
  unit_fits unnamed rg (ident_fits names intern) ws wfiles key a /\
  write_unit names unnamed rg wfiles ws 1234 8 key = Ok fs /\
  loads rg unnamed loader /\
  read_unit intern unnamed rg loader 1234 8 rws (start (encs fs) []) = Ok (ws', own, r') /\
  (* the very arena, at the same place *)
  In k (a_deps a) /\ nth_error ws k <> None /\ nth_error ws' k = nth_error ws k /\
  (exists o ox, lookup rg (objects_of ws) (key, i) = Some o /\ lookup_item (obj_has rg o) (o_items o) 1 = Ok (VObject (Some x)) /\
     fst x = k /\ lookup rg (objects_of ws) x = Some ox /\ lookup_item (obj_has rg ox) (o_items ox) 0 = Ok (VIdent (Some n))) /\
  (exists o oy m, lookup rg (objects_of ws') (own, i) = Some o /\ lookup_item (obj_has rg o) (o_items o) 1 = Ok (VObject (Some y)) /\
     lookup rg (objects_of ws') y = Some oy /\ lookup_item (obj_has rg oy) (o_items oy) 0 = Ok (VIdent (Some m)) /\ m <> n).
Proof.
  destruct (write_unit x_names 99 x_reg x_files x_ws 1234 8 2) as [fs|] eqn:W; [|vm_compute in W; discriminate].
  destruct (read_unit x_intern 99 x_reg (fun _ _ => None) 1234 8 [arena0; x_pkg] (start (encs fs) [])) as [[[ws' own] r']|] eqn:R;
    [|vm_compute in W; injection W as <-; vm_compute in R; discriminate].
  exists x_names, x_intern, 99, x_reg, x_ws, x_files, 2, x_unit, fs, (fun _ _ => None), [arena0; x_pkg], ws', own, r'.
  exists 1, 2, (1, 4), (1, 2), 6.
  split; [exact x_fits|]. split; [exact W|]. split; [intros ? ? ? ? H; discriminate H|]. split; [exact R|].
  vm_compute in W. injection W as <-. vm_compute in R. injection R as <- <- <-.
  split; [now left|]. split; [discriminate|]. split; [reflexivity|]. split.
  - eexists _, _. split; [vm_compute; reflexivity|]. split; [reflexivity|]. split; [reflexivity|]. split; reflexivity.
  - eexists _, _, 1. split; [vm_compute; reflexivity|]. split; [reflexivity|]. split; [vm_compute; reflexivity|]. split; [reflexivity|lia].
Qed.
Print Assumptions C72_same_process_refuted.
