(* C70: a traversal calls the function for the objects reached, once, children first.
   C71: freezing an arena keeps what its root objects lead to. *)

From Coq Require Import ZArith NArith List Bool Arith Lia Relations.
From Verif Require Import Base NumberModel CoverModel ObjModel ObjGraphModel ObjGraphSpec ObjKindProofs ObjGraphProofs.
Import ListNotations.
Local Open Scope nat_scope.

Lemma ileads_all rg h mask x y : ileads rg h (fun _ => true) mask x y <-> leads rg h mask x y.
Proof. split; apply clos_impl; unfold iedge; intros a b; tauto. Qed.

(* No other class has as many kinds as the number that was asked for. *)
Definition unambiguous (rg : registry) (tag kind : nat) : Prop :=
  forall t, t <> tag -> kind <> length (c_has (class_of rg t)).

Theorem C70_visit : forall rg h deep tag kind r o,
  sound rg h -> lookup rg h r = Some o -> unambiguous rg tag kind ->
  exists l, visit_only rg h deep tag kind r = Ok (l, length l) /\
    NoDup l /\
    (forall x, In x l <-> leads rg h (visit_mask deep) r x /\
                          exists o, lookup rg h x = Some o /\ picked rg tag kind o) /\
    (forall x y, In x l -> In y l -> edge rg h (visit_mask deep) x y ->
       before l y x \/ leads rg h (visit_mask deep) y x).
Proof.
  intros rg h deep tag kind r o SD LO U. unfold visit_only.
  destruct (visit_good rg h (fun _ => true) (visit_mask deep) SD (enough h) [] (Some r)) as (s & ev & E & G).
  { constructor. } { intros x []. } { intros x [= <-]. now exists o. } { unfold enough. lia. }
  rewrite E. cbn [bind]. rewrite called_filter.
  assert (R := good_reach _ _ _ _ _ _ _ G). destruct (g_leaves _ _ _ _ _ _ _ _ G) as [NL ML].
  assert (SEL : forall x, sel rg h tag kind x = true <-> exists o, lookup rg h x = Some o /\ picked rg tag kind o).
  { intros x. unfold sel, selects, picked. destruct (lookup rg h x) as [ox|]; split.
    - intros S1. exists ox. split; [reflexivity|]. apply orb_true_iff in S1. destruct S1 as [S1|S1].
      + apply andb_true_iff in S1. rewrite !Nat.eqb_eq in S1. tauto.
      + apply Nat.eqb_eq in S1. destruct (Nat.eq_dec (o_tag ox) tag) as [T|T]; [|now destruct (U _ T)].
        split; [exact T|right; congruence].
    - intros (o' & [= <-] & T & [K|K]); apply orb_true_iff.
      + left. rewrite T, K, !Nat.eqb_refl. reflexivity.
      + right. rewrite T. now apply Nat.eqb_eq.
    - discriminate.
    - intros (o' & H & _). discriminate. }
  assert (IN : forall x, In x s <-> leads rg h (visit_mask deep) r x).
  { intros x. rewrite R. split.
    - intros (s0 & [= <-] & _ & L). now apply ileads_all.
    - intros L. exists r. split; [reflexivity|]. split; [reflexivity|]. now apply ileads_all. }
  exists (filter (sel rg h tag kind) (leaves ev)). split; [reflexivity|]. split; [now apply NoDup_filter|]. split.
  - intros x. rewrite filter_In, ML, IN, SEL. cbn [In]. tauto.
  - intros x y I J ED. apply filter_In in I, J. destruct I as [I1 I2], J as [J1 J2].
    apply ML in I1. destruct I1 as [I1 _].
    destruct (g_order _ _ _ _ _ _ _ _ G x y I1) as [[]|[B|B]]; [intros []|split; [exact ED|reflexivity]| |].
    + left. apply before_filter; [now apply before_leaves|exact J2|exact I2].
    + right. now apply ileads_all.
Qed.
Print Assumptions C70_visit.

(* Which items a traversal follows: all, or all but types and references. *)
Theorem C70_items : forall deep bit, bit < 64 ->
  N.testbit (visit_mask deep) (N.of_nat bit) = true <-> deep = true \/ (bit <> 15 /\ bit <> 20).
Proof.
  intros deep bit B.
  assert (H : forall d, forallb (fun b => Bool.eqb (N.testbit (visit_mask d) (N.of_nat b))
     (d || (negb (b =? 15) && negb (b =? 20)))) (seq 0 64) = true) by (intros []; vm_compute; reflexivity).
  specialize (H deep). rewrite forallb_forall in H. specialize (H bit). apply eqb_prop in H; [|apply in_seq; lia].
  rewrite H, orb_true_iff, andb_true_iff, !negb_true_iff, !Nat.eqb_neq. tauto.
Qed.
Print Assumptions C70_items.

(* Asking for the kind whose number is the number of kinds of another class calls the
   function for every object of that class. *)
Theorem C70_kind_refuted : exists rg h tag kind r x o,
  sound rg h /\ kind < length (c_has (class_of rg tag)) /\
  visit_only rg h false tag kind r = Ok ([x], 1) /\ lookup rg h x = Some o /\ o_tag o <> tag.
Proof.
  (* Kinds 0 to 2 of class 0; class 3 has two kinds.  An object of kind 0 refers to
     one of class 3, nothing is of kind 2. *)
  exists (Registry [Class [2; 0; 0]%N [] [0] true; class0; class0; Class [0; 0]%N [] [] true]
                   [[24; 16; 16]; []; []; [16; 16]]).
  exists [[]; [Obj 0 0 (Loc 0 0 0 0 0) [VObject (Some (1, 2))]; Obj 1 3 (Loc 0 0 0 0 0) []]].
  exists 0, 2, (1, 0), (1, 2), (Obj 1 3 (Loc 0 0 0 0 0) []).
  split; [apply soundb_ok; vm_compute; reflexivity|].
  split; [cbn; lia|]. split; [vm_compute; reflexivity|]. split; [vm_compute; reflexivity|]. cbn. lia.
Qed.
Print Assumptions C70_kind_refuted.

(* ---- C71 ---- *)

Lemma lookup_place rg h key objs i o : sized rg h -> nth_error h key = Some objs ->
  lookup rg h (key, i) = Some o <-> In (i, o) (place rg 0 objs).
Proof.
  intros SZ N. unfold lookup. cbn [fst snd]. rewrite N. split; [apply find_at_in|].
  apply find_at_nodup. apply place_nodup. intros x X. apply SZ with objs; [|exact X].
  eapply nth_error_In. exact N.
Qed.

Definition is_some {A} (o : option A) : bool := match o with Some _ => true | None => false end.

(* The objects that are kept, in order. *)
Definition kept (rg : registry) (objs : list object) (fwd : list (nat * option nat)) : list object :=
  map snd (filter (fun p => is_some (forwarded fwd (fst p))) (place rg 0 objs)).

Theorem C71_kept : forall rg h key objs j root,
  sound rg h -> sized rg h -> nth_error h key = Some objs ->
  lookup rg h (key, j) = Some root -> In (o_kind root) (c_roots (class_of rg (o_tag root))) ->
  exists fwd live, gc rg h key = Ok (fwd, live) /\
    (forall i o, lookup rg h (key, i) = Some o ->
       (exists w, forwarded fwd i = Some w) <-> needed rg h key i) /\
    (forall i o w, lookup rg h (key, i) = Some o -> forwarded fwd i = Some w ->
       find_at w (place rg 0 (kept rg objs fwd)) = Some o) /\
    (forall i i' w w', forwarded fwd i = Some w -> forwarded fwd i' = Some w' -> i < i' -> w < w') /\
    live = list_sum (map (units rg) (kept rg objs fwd)) /\
    (forall i w, forwarded fwd i = Some w -> from_locus fwd w = Some i) /\
    (forall w i, from_locus fwd w = Some i -> forwarded fwd i = Some w).
Proof.
  intros rg h key objs j root SD SZ N LR IR. unfold gc, gc_mark. rewrite N.
  assert (SO : forall o, In o objs -> 1 <= units rg o).
  { intros o O. apply SZ with objs; [|exact O]. eapply nth_error_In. exact N. }
  set (inside := fun r : oref => fst r =? key).
  destruct (visit_each_good rg h inside (N.ones 64) (visit (enough h) rg h inside (N.ones 64)) (root_refs rg key objs) [] 0)
    as (s & ev & E & G).
  { intros s r Ns Vs Ws _. apply visit_good; auto. unfold enough. lia. }
  { constructor. } { intros x []. }
  { intros x X. unfold root_refs in X. apply in_map_iff in X. destruct X as ([i o] & [= <-] & X).
    apply filter_In in X. exists o. apply (lookup_place rg h key objs i o SZ N). apply X. }
  { cbn. lia. }
  rewrite E. cbn [bind].
  assert (R := good_reach _ _ _ _ _ _ _ G).
  destruct (forward_loop rg key s 0 0 objs) as [fwd live] eqn:FL.
  destruct (forward_loop_ok rg key s objs 0 0 fwd live SO FL) as (A & B & C & D & F).
  assert (ND : NoDup (map fst fwd)) by (rewrite A; now apply place_nodup).
  assert (FW : forall i w, forwarded fwd i = Some w <-> In (i, Some w) fwd).
  { intros i w. unfold forwarded. split.
    - destruct (find_at i fwd) as [v|] eqn:FA; [|discriminate]. intros ->. now apply find_at_in.
    - intros I. now rewrite (find_at_nodup i fwd (Some w) ND I). }
  assert (MET : forall i o, In (i, o) (place rg 0 objs) -> is_some (forwarded fwd i) = met s (key, i)).
  { intros i o I. destruct (met s (key, i)) eqn:M.
    - destruct (B i o I M) as (v & V & _). apply FW in V. now rewrite V.
    - destruct (forwarded fwd i) as [w|] eqn:W; [|reflexivity]. apply FW in W. destruct (C i w W). congruence. }
  assert (KE : kept rg objs fwd = map snd (filter (fun p => met s (key, fst p)) (place rg 0 objs))).
  { unfold kept. f_equal. apply filter_ext_in. intros [i o] I. cbn [fst]. now apply MET with o. }
  assert (NEED : forall i, met s (key, i) = true <-> needed rg h key i).
  { intros i. rewrite met_spec, R. unfold needed, root_refs, leads_within. split.
    - intros (r & RR & RI & L). apply in_map_iff in RR. destruct RR as ([k o] & [= <-] & X).
      apply filter_In in X. destruct X as [X1 X2]. cbn [fst snd] in *. exists k, o.
      split; [now apply (lookup_place rg h key objs k o SZ N)|]. split.
      + unfold is_root in X2. apply existsb_exists in X2. destruct X2 as (z & Z1 & Z2). apply Nat.eqb_eq in Z2. now subst.
      + eapply clos_impl; [|exact L]. unfold iedge, inside. intros a b [E1 E2]. split; [exact E1|now apply Nat.eqb_eq].
    - intros (k & o & LO & RO & L). exists (key, k). split; [|split].
      + apply in_map_iff. exists (k, o). split; [reflexivity|]. apply filter_In. split; [now apply (lookup_place rg h key objs k o SZ N)|].
        unfold is_root. apply existsb_exists. exists (o_kind o). split; [exact RO|apply Nat.eqb_refl].
      + unfold inside. cbn [fst]. apply Nat.eqb_refl.
      + eapply clos_impl; [|exact L]. unfold iedge, inside. intros a b [E1 E2]. split; [exact E1|now apply Nat.eqb_eq]. }
  assert (LIVE : live <> 0).
  { assert (M : met s (key, j) = true).
    { apply NEED. exists j, root. split; [exact LR|]. split; [exact IR|apply rt_refl]. }
    apply (lookup_place rg h key objs j root SZ N) in LR.
    destruct (B j root LR M) as (v & V & _). destruct (C j v V). lia. }
  destruct (Nat.eqb_spec live 0) as [Z|_]; [contradiction|].
  exists fwd, live. split; [reflexivity|]. split; [|split; [|split; [|split; [|split]]]].
  - intros i o LO. apply (lookup_place rg h key objs i o SZ N) in LO. rewrite <- NEED, <- (MET i o LO).
    destruct (forwarded fwd i) as [w|]; cbn; [split; [auto|intros _; now exists w]|].
    split; [intros [w H]; discriminate|discriminate].
  - intros i o w LO W. apply (lookup_place rg h key objs i o SZ N) in LO.
    apply FW in W. destruct (C i w W) as [_ M]. destruct (B i o LO M) as (v & V1 & V2).
    assert (v = w). { apply FW in V1, W. congruence. } subst v.
    rewrite KE. apply find_at_nodup; [|exact V2].
    apply place_nodup. intros x X. apply SO. apply in_map_iff in X. destruct X as ([i' x'] & <- & X).
    apply filter_In in X. eapply place_in. apply X.
  - intros i i' w w' W W' L. apply FW in W, W'. now apply (D i i').
  - rewrite KE. exact F.
  - intros i w W. unfold from_locus.
    destruct (find _ fwd) as [[i' v']|] eqn:FI.
    + apply find_some in FI. destruct FI as [F1 F2]. cbn [snd fst] in *. destruct v' as [v'|]; [|discriminate].
      apply Nat.eqb_eq in F2. subst v'. apply FW in W.
      destruct (Nat.lt_trichotomy i i') as [L|[->|L]]; [|reflexivity|].
      * assert (X := D i i' w w W F1 L). lia.
      * assert (X := D i' i w w F1 W L). lia.
    + exfalso. apply FW in W. assert (X := find_none _ _ FI _ W). cbn in X. now rewrite Nat.eqb_refl in X.
  - intros w i. unfold from_locus. destruct (find _ fwd) as [[i' v']|] eqn:FI; [|discriminate].
    intros [= <-]. apply find_some in FI. destruct FI as [F1 F2]. cbn [snd fst] in *. destruct v' as [v'|]; [|discriminate].
    apply Nat.eqb_eq in F2. subst v'. now apply FW.
Qed.
Print Assumptions C71_kept.

(* An object that is kept refers to none that was removed. *)
Theorem C71_complete : forall rg h key i i', needed rg h key i ->
  edge rg h (N.ones 64) (key, i) (key, i') -> needed rg h key i'.
Proof.
  intros rg h key i i' (k & o & LO & RO & L) E. exists k, o. split; [exact LO|]. split; [exact RO|].
  eapply rt_trans; [exact L|]. apply rt_step. split; [exact E|reflexivity].
Qed.
Print Assumptions C71_complete.

(* Two arenas.  In the second, object 0 (a root) refers to 2 by a value, 2 has an
   array with 5, nothing and itself, and 5 refers back to 0 and to the type at 9 of
   the first arena; 8 refers to 0 but nothing refers to 8. *)
Definition g_reg : registry :=
  Registry [Class [2; 64; 32770; 2]%N [] [0] true; Class [32768]%N [] [] true]
           [[24; 24; 32; 24]; [24]].
Definition g_loc : loc := Loc 0 0 0 0 0.
Definition g_heap : heap :=
  [[];
   [Obj 0 0 g_loc [VObject None]; Obj 0 1 g_loc [VObject None]];
   [Obj 0 0 g_loc [VObject (Some (2, 2))];
    Obj 1 0 g_loc [VArray (Some [Some (2, 4); None; Some (2, 2)])];
    Obj 2 0 g_loc [VObject (Some (2, 0)); VObject (Some (1, 2))];
    Obj 3 0 g_loc [VObject (Some (2, 0))]]].

Example C70_example :
  sound g_reg g_heap /\ unambiguous g_reg 0 4 /\
  visit_only g_reg g_heap false 0 4 (2, 0) = Ok ([(2, 4); (2, 2); (2, 0)], 3) /\
  visit_only g_reg g_heap true 1 1 (2, 0) = Ok ([(1, 2)], 1).
Proof.
  split; [apply soundb_ok; vm_compute; reflexivity|]. split.
  - intros [|[|[|t]]] T; [lia|cbn; lia|cbn; lia|]. unfold class_of. cbn. destruct t; cbn; lia.
  - split; vm_compute; reflexivity.
Qed.

Example C71_example :
  sound g_reg g_heap /\ sized g_reg g_heap /\
  gc g_reg g_heap 2 = Ok ([(0, Some 0); (2, Some 2); (4, Some 4); (6, None)], 6).
Proof.
  split; [apply soundb_ok; vm_compute; reflexivity|]. split; [|vm_compute; reflexivity].
  intros objs o [<-|[<-|[<-|[]]]] I; cbn [In] in I;
    repeat (destruct I as [<-|I]; [apply Nat.leb_le; vm_compute; reflexivity|]); destruct I.
Qed.

(* An object of another kind in front of the root can be removed: indexes move. *)
Example C71_moves :
  gc g_reg [[]; [Obj 3 0 g_loc [VObject None]; Obj 0 0 g_loc [VObject (Some (1, 4))]; Obj 1 0 g_loc [VArray None]]] 1
    = Ok ([(0, None); (2, Some 0); (4, Some 2)], 4).
Proof. vm_compute. reflexivity. Qed.
