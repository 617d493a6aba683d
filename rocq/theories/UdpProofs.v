(* The process built for a UDP table drives the output of the first matching entry. *)
From Coq Require Import List NArith Bool Lia Arith.
From Verif Require Import Base NumberModel NumberSpec UdpModel UdpSpec.
Import ListNotations.
Open Scope N_scope.

Section Udp.

Variable e : env.
Variable x : situation.
Hypothesis SEE : seen e x.
Hypothesis NZ : no_z x.

Definition sat (c : option cond) : bool := match c with None => true | Some c => holds_in e c end.

Lemma level_map_ok l : simple l -> l <> Any -> level_map (level_text l) = Ok (NumberSpec.code (level_value l)).
Proof. intros S A. destruct l as [| |[|]| |]; try reflexivity; [congruence|now destruct S]. Qed.

Lemma covers_ok l v : simple l -> l <> Any -> v <> Z ->
  (NumberSpec.code v =? NumberSpec.code (level_value l)) = covers l v.
Proof. intros S A V. destruct l as [| |[|]| |], v; try reflexivity; try congruence; now destruct S. Qed.

Lemma level_any l : {l = Any} + {l <> Any}.
Proof. destruct l as [| | | |]; auto; right; discriminate. Qed.

Lemma text_any l : l <> Any -> level_text l =? 63 = false.
Proof. destruct l as [| |[|]| |]; try reflexivity; congruence. Qed.

Lemma level_char l : simple l -> l <> Any ->
  (level_text l =? 48) || (level_text l =? 49) || (level_text l =? 120) || (level_text l =? 88) = true.
Proof. intros S A. destruct l as [| |[|]| |]; try reflexivity; [congruence|now destruct S]. Qed.

Lemma input_ok j s rest : simple_in s ->
  exists c, input_cond j (insym_text s ++ rest) = Ok (c, rest) /\
    sat c = insym_matches s (before x j) (after x j) /\ (c = None <-> s = Level Any).
Proof.
  destruct SEE as (E1 & _ & E3 & E4). destruct (proj1 NZ j) as (NA & NB).
  destruct s as [l|a b|]; cbn [simple_in insym_text app]; intros S; unfold input_cond.
  - destruct (level_any l) as [->|A].
    + exists None. repeat split; try reflexivity.
    + rewrite (level_char l S A), (level_map_ok l S A). cbn [bind]. eexists. split; [reflexivity|].
      cbn [sat holds_in insym_matches]. split; [rewrite E1; now apply covers_ok|].
      split; intros H; [discriminate|]. injection H as ->. congruence.
  - destruct S as (Sa & Sb). replace (40 =? 40) with true by reflexivity. cbn [N.eqb Pos.eqb orb].
    assert (A1 : exists c1, (if level_text a =? 63 then Ok (Event j)
        else do! v <- level_map (level_text a); Ok (And (Event j) (Last j v))) = Ok c1 /\
        holds_in e c1 = differ (before x j) (after x j) && covers a (before x j)).
    { destruct (level_any a) as [->|A].
      - exists (Event j). split; [reflexivity|]. cbn [holds_in]. rewrite E3. cbn [covers]. now destruct (before x j); rewrite andb_true_r.
      - rewrite (text_any a A), (level_map_ok a Sa A). cbn [bind]. eexists. split; [reflexivity|].
        cbn [holds_in]. destruct (event e j) eqn:EV; rewrite E3 in EV.
        + rewrite EV. cbn [andb]. rewrite E4 by (now rewrite E3). now apply covers_ok.
        + now rewrite EV. }
    destruct A1 as (c1 & C1 & H1). rewrite C1. cbn [bind].
    destruct (level_any b) as [->|B].
    + exists (Some c1). split; [reflexivity|]. split; [|split; intros; discriminate].
      cbn [sat insym_matches]. rewrite H1. cbn [covers]. now destruct (after x j); rewrite andb_true_r.
    + rewrite (text_any b B), (level_map_ok b Sb B). cbn [bind]. eexists. split; [reflexivity|].
      split; [|split; intros; discriminate]. cbn [sat holds_in insym_matches]. rewrite H1, E1.
      f_equal. now apply covers_ok.
  - exists (Some (Event j)). split; [reflexivity|]. split; [apply E3|split; intros; discriminate].
Qed.

Lemma and_sat a c : sat (and_cond a c) = sat a && sat c.
Proof. destruct a, c; cbn [and_cond sat holds_in andb]; try reflexivity. now rewrite andb_true_r. Qed.

Lemma and_none a c : and_cond a c = None <-> a = None /\ c = None.
Proof. destruct a, c; cbn; intuition discriminate. Qed.

Lemma inputs_ok ss : Forall simple_in ss -> forall j a rest,
  exists a', inputs_cond (length ss) j (concat (map insym_text ss) ++ rest) a = Ok (a', rest) /\
    sat a' = sat a && inputs_match j ss x /\ (a' = None <-> a = None /\ Forall (fun s => s = Level Any) ss).
Proof.
  induction 1 as [|s ss Si F IH]; intros j a rest; cbn [length inputs_cond map concat app inputs_match].
  - exists a. split; [reflexivity|]. split; [now rewrite andb_true_r|]. intuition.
  - rewrite <- app_assoc. destruct (input_ok j s (concat (map insym_text ss) ++ rest) Si) as (c & E & C & N).
    rewrite E. cbn [bind]. destruct (IH (S j) (and_cond a c) rest) as (a' & E' & C' & N').
    exists a'. split; [exact E'|]. split.
    + rewrite C', and_sat, C. now rewrite andb_assoc.
    + rewrite N', and_none, N, Forall_cons_iff. tauto.
Qed.

Lemma state_ok k en a rest : simple (state en) ->
  exists a', state_cond k ([58] ++ match k with Comb => [] | Seq => [level_text (state en); 58] end ++ rest) a = Ok (a', rest) /\
    sat a' = sat a && match k with Comb => true | Seq => covers (state en) (output x) end /\
    (a' = None <-> a = None /\ (k = Comb \/ state en = Any)).
Proof.
  intros S. destruct k; cbn [app state_cond].
  - exists a. split; [reflexivity|]. split; [now rewrite andb_true_r|]. intuition.
  - destruct (level_any (state en)) as [A|A].
    + rewrite A. exists a. split; [reflexivity|]. split; [cbn [covers]; destruct (output x); now rewrite andb_true_r|]. intuition.
    + rewrite (level_char _ S A), (level_map_ok _ S A). cbn [bind]. eexists. split; [reflexivity|]. split.
      * rewrite and_sat. f_equal. cbn [sat holds_in]. destruct SEE as (_ & E2 & _). rewrite E2.
        apply covers_ok; auto. apply NZ.
      * rewrite and_none. intuition (try discriminate; congruence).
Qed.

Lemma entry_cond k n en : handled k n en ->
  exists c, (do! (a, sp) <- inputs_cond n 0 (entry_text k en) None; state_cond k sp a) =
    Ok (Some c, [outsym_text (next en)]) /\ holds_in e c = entry_matches k en x.
Proof.
  intros (L & F & S & _ & T). unfold entry_text. subst n.
  destruct (inputs_ok _ F 0%nat None ([58] ++ match k with Comb => [] | Seq => [level_text (state en); 58] end ++ [outsym_text (next en)]))
    as (a & E & C & N).
  rewrite E. cbn [bind]. destruct (state_ok k en a [outsym_text (next en)] S) as (a' & E' & C' & N').
  rewrite E'. destruct a' as [c|].
  - exists c. split; [reflexivity|]. cbn [sat] in C'. rewrite C', C. reflexivity.
  - exfalso. destruct (proj1 N' eq_refl) as (Na & K). apply N in Na as (_ & A).
    destruct T as [T|(Kq & T)].
    + apply Exists_exists in T as (s & I & D). rewrite Forall_forall in A. now apply D, A.
    + destruct K as [K|K]; congruence.
Qed.

(* ---- running ---- *)

Lemma run_more fuel c b r o out : run fuel c e b r o = Ok out -> forall fuel', (fuel <= fuel')%nat -> run fuel' c e b r o = Ok out.
Proof.
  revert b r o. induction fuel as [|fuel IH]; intros b r o H fuel' L; [discriminate|].
  destruct fuel' as [|fuel']; [lia|]. cbn [run] in *.
  destruct (run_stmts _ _ _) as [(r1, o1)|]; [|discriminate]. cbn [bind] in *.
  destruct (fin (blocks c b)) as [[c1 h m|b1|]|]; try assumption; eapply IH; eauto; lia.
Qed.

Definition outcome_of (v : option logic) : outcome :=
  match v with Some l => Driven (NumberSpec.code l) 1 | None => Quiet end.

(* The block that drives the output. *)
Definition drives (c : code) (wait : nat) : Prop := blocks c wait = Block [Drive 1 1] (Some Wait).

(* Blocks of [c] that must be as they are. *)
Definition same_from (c : code) (lo t : nat) (c' : code) : Prop :=
  blocks c' t = blocks c t /\ forall b, (lo <= b < nblocks c)%nat -> blocks c' b = blocks c b.

Lemma entries_ok k n wait es : Forall (handled k n) es -> forall t c,
  (wait < nblocks c)%nat -> t <> wait -> (t < nblocks c)%nat -> blocks c t = empty ->
  (forall b, (nblocks c <= b)%nat -> blocks c b = empty) ->
  exists t' c', lower_entries k n wait (map (entry_text k) es) t c = Ok (t', c') /\
    (nblocks c <= nblocks c')%nat /\ nblocks c' = (nblocks c + 2 * length es)%nat /\ t' <> wait /\ (t' < nblocks c')%nat /\ blocks c' t' = empty /\
    (t' = t \/ nblocks c <= t')%nat /\
    (forall b, (b < nblocks c)%nat -> b <> t -> blocks c' b = blocks c b) /\
    (forall b, (nblocks c' <= b)%nat -> blocks c' b = empty) /\
    forall c'' otherwise fuel, drives c'' wait ->
      (forall b, (b = t \/ nblocks c <= b < nblocks c')%nat -> b <> t' -> blocks c'' b = blocks c' b) ->
      run (S (S fuel)) c'' e t' None Quiet = Ok (outcome_of otherwise) ->
      run (length es + S (S (S fuel))) c'' e t None Quiet = Ok (outcome_of (chosen k es x otherwise)).
Proof.
  induction 1 as [|en es H F IH]; intros t c WL TW TL ET EM; cbn [lower_entries length map].
  - exists t, c. split; [reflexivity|]. do 5 (split; [auto; lia|]). do 3 (split; [auto|]).
    intros c'' o fuel D A R. cbn [Nat.add]. unfold chosen. cbn [find].
    eapply run_more; [exact R|]. lia.
  - unfold add_block at 1. cbn [fst snd].
    destruct (entry_cond k n en H) as (cd & EC & HC).
    destruct (inputs_cond n 0 (entry_text k en) None) as [(a, sp)|]; [|discriminate]. cbn [bind] in EC |- *.
    rewrite EC. cbn [bind]. unfold add_block. cbn [nblocks blocks].
    set (h := nblocks c). set (t1 := S h).
    unfold emit at 1. cbn [blocks nblocks]. rewrite ET. cbn [fin empty bind].
    set (B1 := upd (blocks c) t _).
    assert (Bh : B1 h = empty) by (unfold B1; rewrite upd_other by lia; apply EM; lia).
    (* the hit block *)
    assert (HIT : exists B2, (forall b, b <> h -> B2 b = B1 b) /\
        (match [outsym_text (next en)] with
         | [] => Fault
         | ch :: _ =>
           if ch =? 45 then do! c4 <- emit h [] Wait (Code B1 (S t1)); lower_entries k n wait (map (entry_text k) es) t1 c4
           else do! v <- level_map ch; do! c4 <- emit h [Store v] (Jump wait) (Code B1 (S t1)); lower_entries k n wait (map (entry_text k) es) t1 c4
         end = lower_entries k n wait (map (entry_text k) es) t1 (Code B2 (S t1))) /\
        forall c'' fuel, drives c'' wait -> blocks c'' h = B2 h ->
          run (S (S fuel)) c'' e h None Quiet = Ok (outcome_of (match next en with Out l => Some (level_value l) | Same => None end))).
    { destruct H as (_ & _ & _ & O & _). destruct (next en) as [l|] eqn:NE.
      - destruct O as (OA & OB). exists (upd B1 h (Block [Store (NumberSpec.code (level_value l))] (Some (Jump wait)))).
        split; [intros b NB; now apply upd_other|]. cbn [outsym_text].
        assert (NM : level_text l =? 45 = false) by (destruct l as [| |[|]| |]; reflexivity).
        rewrite NM, (level_map_ok l) by assumption. cbn [bind]. unfold emit. cbn [blocks nblocks]. rewrite Bh. cbn [fin stmts empty app bind].
        split; [reflexivity|]. intros c'' fuel D E. cbn [run]. rewrite E, upd_same. cbn [stmts fin run_stmts bind].
        unfold drives in D. rewrite D. reflexivity.
      - exists (upd B1 h (Block [] (Some Wait))). split; [intros b NB; now apply upd_other|]. cbn [outsym_text].
        replace (45 =? 45) with true by reflexivity. unfold emit. cbn [blocks nblocks]. rewrite Bh. cbn [fin stmts empty app bind].
        split; [reflexivity|]. intros c'' fuel D E. cbn [run]. rewrite E, upd_same. reflexivity. }
    destruct HIT as (B2 & BO & HE & HR). rewrite HE.
    destruct (IH t1 (Code B2 (S t1))) as (t' & c' & E1 & E2 & E2' & E3 & E4 & E5 & E6 & E7 & E8 & E9); cbn [nblocks blocks] in *.
    + lia.
    + lia.
    + lia.
    + rewrite BO by lia. unfold B1. rewrite upd_other by lia. apply EM. lia.
    + intros b LB. rewrite BO by lia. unfold B1. rewrite upd_other by lia. apply EM. lia.
    + exists t', c'. split; [exact E1|]. split; [lia|]. split; [lia|]. split; [exact E3|]. split; [exact E4|]. split; [exact E5|].
      split; [lia|]. split; [|split; [exact E8|]].
      * intros b LB NB. rewrite E7 by lia. rewrite BO by lia. unfold B1. now apply upd_other.
      * intros c'' o fuel D A R.
        assert (Ct : blocks c'' t = Block [] (Some (Branch cd h t1))).
        { rewrite A by lia. rewrite E7 by lia. rewrite BO by lia. unfold B1. now rewrite upd_same. }
        cbn [Nat.add run]. rewrite Ct. cbn [stmts fin run_stmts bind]. rewrite HC.
        unfold chosen. cbn [find]. destruct (entry_matches k en x).
        -- replace (length es + S (S (S fuel)))%nat with (S (S (S (length es + fuel)))) by lia.
           apply HR; [exact D|]. rewrite A by lia. rewrite E7 by lia. reflexivity.
        -- apply (E9 c'' o fuel D); [|exact R]. intros b LB NB. apply A; [lia|exact NB].
Qed.

Definition unmatched (k : udp_kind) : option logic := match k with Comb => Some X | Seq => None end.

Lemma udp_ok k n es : Forall (handled k n) es ->
  exists c, vlog_lower_udp k n (map (entry_text k) es) = Ok c /\
    activate c e = Ok (outcome_of (chosen k es x (unmatched k))).
Proof.
  intros F. unfold vlog_lower_udp, add_block. cbn [nblocks blocks].
  destruct (entries_ok k n 2 es F start_bb (Code (fun _ => empty) 3)) as (t & c1 & E1 & E2 & E2' & E3 & E4 & E5 & E6 & E7 & E8 & E9);
    cbn [nblocks blocks] in *; try reflexivity; try (unfold start_bb; lia).
  rewrite E1. cbn [bind]. rewrite E5. cbn [fin empty].
  assert (W : blocks c1 2 = empty) by (apply E7; [lia|discriminate]).
  set (tb := Block (match k with Comb => [Store LOGIC_X] | Seq => [] end)
                   (Some (match k with Comb => Jump 2 | Seq => Wait end))).
  assert (S2 : exists c, (do! c2 <- match k with Comb => emit t [Store LOGIC_X] (Jump 2) c1 | Seq => emit t [] Wait c1 end;
      emit 2 [Drive 1 1] Wait c2) = Ok c /\ nblocks c = nblocks c1 /\ drives c 2 /\ blocks c t = tb /\
      forall b, b <> t -> b <> 2%nat -> blocks c b = blocks c1 b).
  { unfold emit. rewrite E5. cbn [fin empty stmts app]. destruct k; cbn [bind blocks nblocks];
      rewrite upd_other, W by lia; cbn [fin empty stmts app]; eexists;
      (split; [reflexivity|]); cbn [nblocks blocks]; (split; [reflexivity|]);
      (split; [unfold drives; cbn [blocks]; now rewrite upd_same|]);
      (split; [rewrite upd_other by lia; now rewrite upd_same|]);
      intros b B1 B2; now rewrite !upd_other. }
  destruct S2 as (c & EC & NB & D & CT & CO).
  exists c. split; [destruct k; exact EC|]. unfold activate. rewrite NB, E2'.
  assert (R0 : run 2 c e t None Quiet = Ok (outcome_of (unmatched k))).
  { cbn [run]. rewrite CT. unfold tb. destruct k; cbn [stmts fin run_stmts bind unmatched outcome_of]; [unfold drives in D; rewrite D|]; reflexivity. }
  pose proof (E9 c (unmatched k) 0%nat D) as K. 
  assert (A : forall b, (b = start_bb \/ 3 <= b < nblocks c1)%nat -> b <> t -> blocks c b = blocks c1 b).
  { intros b LB NT. apply CO; [exact NT|]. unfold start_bb in LB. lia. }
  specialize (K A R0). eapply run_more; [exact K|]. lia.
Qed.

End Udp.
