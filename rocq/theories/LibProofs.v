(* Proofs about the names of files and the index of a library *)
From Coq Require Import List Arith NArith Bool Lia Sorted.
From Verif Require Import LibSpec LibModel.
Import ListNotations.
Local Open Scope N_scope.

(* ---- Names ---- *)
Lemma toupper_lower : forall c, (lower c /\ toupper c = c - 32) \/ (~ lower c /\ toupper c = c).
Proof.
  intros c. unfold toupper, lower. destruct ((97 <=? c) && (c <=? 122)) eqn:A.
  - rewrite andb_true_iff, !N.leb_le in A. left. split; [lia|reflexivity].
  - rewrite andb_false_iff, !N.leb_gt in A. destruct (((224 <=? c) && (c <=? 246)) || ((248 <=? c) && (c <=? 254))) eqn:B.
    + rewrite orb_true_iff, !andb_true_iff, !N.leb_le in B. left. split; [lia|reflexivity].
    + rewrite orb_false_iff, !andb_false_iff, !N.leb_gt in B. right. split; [lia|reflexivity].
Qed.
Lemma toupper_same : forall c d, toupper c = toupper d <-> same_letter c d.
Proof.
  intros c d. unfold same_letter. destruct (toupper_lower c) as [[A ->]|[A ->]], (toupper_lower d) as [[B ->]|[B ->]]; split; intros H.
  - left. unfold lower in A, B. lia.
  - unfold lower in *. lia.
  - right; left; auto.
  - unfold lower in *. lia.
  - right; right; auto.
  - unfold lower in *. lia.
  - left; auto.
  - destruct H as [->|[[H _]|[H _]]]; tauto.
Qed.
Lemma text_eqb_eq : forall a b, text_eqb a b = true <-> a = b.
Proof.
  induction a as [|c a IH]; intros [|d b]; cbn; split; intros H; try discriminate; auto.
  - apply andb_prop in H. destruct H as [H1 H2]. apply N.eqb_eq in H1. apply IH in H2. subst; auto.
  - injection H as -> ->. rewrite N.eqb_refl. apply IH. reflexivity.
Qed.
Lemma toupper_idem : forall c, toupper (toupper c) = toupper c.
Proof. intros c. apply toupper_same. destruct (toupper_lower c) as [[A E]|[A E]]; rewrite E; unfold same_letter; auto. Qed.

(* The name of the file in upper case *)
Fixpoint upname (esc : bool) (s : text) : text :=
  match s with
  | [] => []
  | c :: r => if c =? 92 then 43 :: upname (negb esc) r else if esc then map toupper (hex c) ++ upname esc r else toupper c :: upname esc r
  end.
Lemma encode_up : forall s esc, map toupper (encode esc s) = upname esc s.
Proof.
  induction s as [|c r IH]; intros esc; [reflexivity|]. cbn [encode upname].
  destruct (c =? 92) eqn:E; [cbn [map]; rewrite IH; reflexivity|]. destruct esc; [rewrite map_app, IH; reflexivity|].
  destruct (((c =? 46) && text_eqb (c :: r) dot_elab) || ((c =? 45) && text_eqb (c :: r) dash_body)) eqn:S.
  - apply orb_prop in S. destruct S as [S|S]; apply andb_prop in S; destruct S as [_ S]; apply text_eqb_eq in S;
      unfold dot_elab, dash_body in S; injection S as -> ->; reflexivity.
  - cbn [map]. rewrite IH, toupper_idem. reflexivity.
Qed.
(* Reading the digits back *)
Definition undigit (x : N) : N := if x <? 65 then x - 48 else x - 55.
Definition unhex (s : text) : option (N * text) :=
  match s with
  | 70 :: _ :: _ :: _ :: _ :: _ :: a :: b :: r => Some (16 * undigit a + undigit b, r)
  | a :: b :: r => Some (16 * undigit a + undigit b, r)
  | _ => None
  end.
Lemma unhex_hex : forall c r, c < 256 -> unhex (map toupper (hex c) ++ r) = Some (c, r) /\ exists x y, map toupper (hex c) ++ r = x :: y /\ x <> 43.
Proof.
  intros c r H. assert (I : In c (map N.of_nat (seq 0 256))).
  { apply in_map_iff. exists (N.to_nat c). split; [lia|]. apply in_seq. lia. }
  cbn in I. repeat (destruct I as [<-|I]; [split; [reflexivity|eexists; eexists; split; [reflexivity|discriminate]]|]). destruct I.
Qed.
Lemma upname_inj : forall a b esc, bytes a -> bytes b -> no_plus esc a -> no_plus esc b -> upname esc a = upname esc b -> same_name esc a b.
Proof.
  assert (P : forall c, c <> 43 -> toupper c <> 43).
  { intros c C. destruct (toupper_lower c) as [[L ->]|[_ ->]]; auto. unfold lower in L. lia. }
  assert (Z : forall esc a, bytes a -> upname esc a = [] -> a = []).
  { intros esc [|c a] B H; auto. cbn [upname] in H. destruct (c =? 92); [discriminate|]. destruct esc; [|discriminate].
    inversion B; subst. destruct (unhex_hex c (upname true a)) as [_ (x & y & E & _)]; auto. rewrite E in H. discriminate. }
  induction a as [|c a IH]; intros b esc Ba Bb Na Nb H.
  { symmetry in H. apply Z in H; auto. subst. constructor. }
  destruct b as [|d b]. { apply Z in H; auto. discriminate. }
  inversion Ba as [|? ? B1 B2]; subst. inversion Bb as [|? ? B3 B4]; subst. cbn [upname] in H.
  destruct (N.eqb_spec c 92) as [->|C], (N.eqb_spec d 92) as [->|D].
  - injection H as H. constructor. apply IH; auto; [inversion Na|inversion Nb]; subst; auto; congruence.
  - exfalso. destruct esc.
    + destruct (unhex_hex d (upname true b)) as [_ (x & y & E & X)]; auto. rewrite E in H. injection H as H _. congruence.
    + injection H as H _. inversion Nb; subst; [congruence|]. symmetry in H. apply P in H; auto.
  - exfalso. destruct esc.
    + destruct (unhex_hex c (upname true a)) as [_ (x & y & E & X)]; auto. rewrite E in H. injection H as H _. congruence.
    + injection H as H _. inversion Na; subst; [congruence|]. apply P in H; auto.
  - destruct esc.
    + destruct (unhex_hex c (upname true a) B1) as [E1 _]. destruct (unhex_hex d (upname true b) B3) as [E2 _].
      rewrite H, E2 in E1. injection E1 as -> E1. apply same_ext; auto. apply IH; auto; [inversion Na|inversion Nb]; subst; auto; congruence.
    + injection H as H1 H2. apply same_basic; auto; [apply toupper_same; auto|]. apply IH; auto; [inversion Na|inversion Nb]; subst; auto; congruence.
Qed.
Lemma upname_same : forall esc a b, same_name esc a b -> upname esc a = upname esc b.
Proof.
  induction 1 as [|e a b H IH|c a b C H IH|c d a b C D L H IH]; cbn [upname]; auto.
  - rewrite N.eqb_refl, IH. reflexivity.
  - apply N.eqb_neq in C. rewrite C, IH. reflexivity.
  - apply N.eqb_neq in C, D. rewrite C, D, IH. apply toupper_same in L. rewrite L. reflexivity.
Qed.
Lemma ends_tail : forall t c s, ~ ends_in t (c :: s) -> ~ ends_in t s.
Proof. intros t c s H (p & ->). apply H. exists (c :: p). reflexivity. Qed.
Lemma special_not : forall c s, ~ ends_in dot_elab (c :: s) -> ~ ends_in dash_body (c :: s) ->
  ((c =? 46) && text_eqb (c :: s) dot_elab) || ((c =? 45) && text_eqb (c :: s) dash_body) = false.
Proof.
  intros c s A B. apply orb_false_intro; apply andb_false_intro2; match goal with |- ?x = false => destruct x eqn:E; auto end;
    apply text_eqb_eq in E; exfalso; [apply A|apply B]; exists []; exact E.
Qed.
Lemma encode_same : forall esc a b, same_name esc a b -> ~ ends_in dot_elab a -> ~ ends_in dash_body a ->
  ~ ends_in dot_elab b -> ~ ends_in dash_body b -> encode esc a = encode esc b.
Proof.
  induction 1 as [|e a b H IH|c a b C H IH|c d a b C D L H IH]; intros A1 A2 B1 B2; auto;
    pose proof (ends_tail _ _ _ A1) as T1; pose proof (ends_tail _ _ _ A2) as T2; pose proof (ends_tail _ _ _ B1) as T3; pose proof (ends_tail _ _ _ B2) as T4;
    cbn [encode].
  - rewrite N.eqb_refl, IH; auto.
  - apply N.eqb_neq in C. rewrite C, IH; auto.
  - apply N.eqb_neq in C, D. rewrite C, D. rewrite (special_not c a), (special_not d b) by auto. rewrite IH by auto.
    apply toupper_same in L. rewrite L. reflexivity.
Qed.

Lemma loop_same : forall a b e, length a = length b -> (name_loop e a b = true <-> same_name e a b).
Proof.
  induction a as [|c a IH]; intros [|d b] e L; try discriminate; [split; auto; constructor|]. injection L as L. cbn [name_loop].
  destruct (N.eqb_spec c 92) as [->|C].
  - destruct (N.eqb_spec d 92) as [->|D]; cbn [andb].
    + rewrite IH by auto. split; intros H; [constructor; auto|]. inversion H; subst; auto; congruence.
    + split; intros H; [|inversion H; subst; congruence]. exfalso. destruct e; cbn [andb negb] in H.
      * destruct (N.eqb_spec 92 d); [congruence|discriminate].
      * destruct (N.eqb_spec (toupper 92) (toupper d)) as [E|]; [|discriminate]. apply toupper_same in E. unfold same_letter, lower in E.
        destruct E as [E|[E|E]]; [congruence|lia|]. assert (d = 124) by lia. subst. lia.
  - cbn [andb]. destruct e; cbn [andb negb].
    + destruct (N.eqb_spec c d) as [->|D]; cbn [negb].
      * rewrite IH by auto. split; intros H; [apply same_ext; auto|]. inversion H; subst; auto; congruence.
      * split; [discriminate|]. intros H. inversion H; subst; congruence.
    + destruct (N.eqb_spec (toupper c) (toupper d)) as [E|E]; cbn [negb].
      * rewrite IH by auto. apply toupper_same in E. split; intros H; [|inversion H; subst; auto; congruence].
        apply same_basic; auto. intros ->. unfold same_letter, lower in E. destruct E as [E|[E|E]]; [congruence| |lia].
        assert (c = 124) by lia. lia.
      * split; [discriminate|]. intros H. inversion H; subst; [congruence|]. exfalso. apply E. apply toupper_same. auto.
Qed.
Lemma same_length : forall e a b, same_name e a b -> length a = length b.
Proof. induction 1; cbn; auto. Qed.
Lemma same_upper : forall e a b, same_name e a b -> map toupper a = map toupper b.
Proof.
  induction 1 as [|e a b H IH|c a b C H IH|c d a b C D L H IH]; cbn; auto; try (rewrite IH; reflexivity).
  apply toupper_same in L. rewrite L, IH. reflexivity.
Qed.
Lemma name_cmp_is : forall a b, name_cmp false a b = true <-> same_name false a b.
Proof.
  intros a b. unfold name_cmp, casecmp. cbv zeta. destruct (Nat.eqb_spec (length a) (length b)) as [L|L]; cbn [andb].
  - destruct (text_eqb (map toupper a) (map toupper b)) eqn:E; [apply loop_same; auto|]. split; [discriminate|].
    intros H. apply same_upper in H. apply text_eqb_eq in H. congruence.
  - split; [discriminate|]. intros H. apply same_length in H. congruence.
Qed.
Lemma ascii_upper : forall c, c < 128 -> toupper c = toupper_ascii c.
Proof.
  intros c H. unfold toupper, toupper_ascii. destruct ((97 <=? c) && (c <=? 122)); auto.
  destruct (N.leb_spec 224 c); [lia|]. destruct (N.leb_spec 248 c); [lia|]. reflexivity.
Qed.
Lemma map_ascii : forall a, no_latin a -> map toupper a = map toupper_ascii a.
Proof. induction 1; cbn; auto. rewrite ascii_upper by auto. congruence. Qed.
Lemma name_cmp_sse : forall a b, no_latin a -> no_latin b -> name_cmp true a b = name_cmp false a b.
Proof. intros a b A B. unfold name_cmp, casecmp. cbv zeta. rewrite !map_ascii by auto. reflexivity. Qed.
Lemma name_cmp_sse_only : forall a b, name_cmp true a b = true -> same_name false a b.
Proof.
  intros a b H. unfold name_cmp in H. destruct (casecmp true a b) eqn:C; [|discriminate]. unfold casecmp in C. apply andb_prop in C.
  destruct C as [C _]. apply Nat.eqb_eq in C. apply loop_same; auto.
Qed.

(* ---- The index ---- *)
Lemma compare_eq : forall a b, compare a b = Eq <-> a = b.
Proof.
  induction a as [|c a IH]; intros [|d b]; cbn; split; intros H; try discriminate; auto.
  - destruct (N.compare_spec c d); try discriminate. subst. apply IH in H. subst; auto.
  - injection H as -> ->. rewrite N.compare_refl. apply IH. reflexivity.
Qed.
Lemma compare_lt : forall a b, compare a b = Lt <-> before a b.
Proof.
  induction a as [|c a IH]; intros [|d b]; cbn; split; intros H; try discriminate; try (inversion H; fail); try apply before_nil; auto.
  - destruct (N.compare_spec c d); try discriminate; [subst; apply before_tail; apply IH; auto|apply before_head; auto].
  - inversion H; subst; [destruct (N.compare_spec c d); auto; lia|]. rewrite N.compare_refl. apply IH; auto.
Qed.
Lemma compare_gt : forall a b, compare a b = Gt -> before b a.
Proof.
  induction a as [|c a IH]; intros [|d b] H; cbn in H; try discriminate; try apply before_nil.
  destruct (N.compare_spec c d); try discriminate; [subst; apply before_tail; auto|apply before_head; auto].
Qed.
Lemma before_trans : forall a b c, before a b -> before b c -> before a c.
Proof.
  intros a b c H. revert c. induction H as [x s|x y s t L|x s t H IH]; intros c G; inversion G; subst; try (apply before_nil); try (apply before_tail; auto; fail); apply before_head; lia.
Qed.
Lemma before_irrefl : forall a, ~ before a a.
Proof. induction a; intros H; inversion H; subst; auto; lia. Qed.

Section Index.
Context {K : Type}.
Implicit Types i es : index K.
Fixpoint find (n : text) (i : index K) : option K :=
  match i with
  | [] => None
  | (m, k) :: r => if text_eqb m n then Some k else find n r
  end.
Definition above (n : text) (i : index K) : Prop := Forall (fun x => before n (fst x)) i.
Lemma above_trans : forall m n i, before m n -> above n i -> above m i.
Proof. intros m n i H A. eapply Forall_impl; [|exact A]. cbn. intros x X. eapply before_trans; eauto. Qed.
Lemma add_above : forall m n k i, above m i -> before m n -> above m (add n k i).
Proof.
  intros m n k. induction i as [|[x y] r IH]; intros A B; cbn [add]; [repeat constructor; auto|]. inversion A; subst.
  destruct (compare x n); constructor; auto. apply IH; auto.
Qed.
Lemma add_ordered : forall n k i, ordered i -> ordered (add n k i).
Proof.
  intros n k. induction 1 as [|[m x] r S IH A]; cbn [add]; [repeat constructor|]. destruct (compare m n) eqn:E.
  - apply compare_eq in E. subst. constructor; auto.
  - constructor; auto. apply add_above; auto. apply compare_lt. auto.
  - apply compare_gt in E. constructor; [constructor; auto|]. constructor; auto. eapply above_trans; eauto.
Qed.
Lemma add_has : forall n k i m, has m (add n k i) <-> m = n \/ has m i.
Proof.
  intros n k. unfold has. induction i as [|[x y] r IH]; intros m; cbn [add map In fst]; [intuition|].
  destruct (compare x n) eqn:E; cbn [map In fst].
  - apply compare_eq in E. subst. intuition.
  - rewrite IH. intuition.
  - intuition.
Qed.
Lemma find_none : forall n i, above n i -> find n i = None.
Proof.
  intros n. induction 1 as [|[x y] r A F IH]; auto. cbn. destruct (text_eqb x n) eqn:E; auto. apply text_eqb_eq in E. subst.
  exfalso. eapply before_irrefl; eauto.
Qed.
Lemma eqb_refl : forall n, text_eqb n n = true.
Proof. intros n. apply text_eqb_eq. reflexivity. Qed.
Lemma eqb_before : forall m n, before m n -> text_eqb m n = false /\ text_eqb n m = false.
Proof.
  intros m n H. split; match goal with |- ?x = false => destruct x eqn:E; auto end; apply text_eqb_eq in E; subst; exfalso; eapply before_irrefl; eauto.
Qed.
Lemma add_find : forall n k i m, ordered i -> find m (add n k i) = if text_eqb n m then Some k else find m i.
Proof.
  intros n k i m S. induction S as [|[x y] r S IH A]; cbn [add find]; auto.
  destruct (compare x n) eqn:E; cbn [find].
  - apply compare_eq in E. subst. destruct (text_eqb n m); auto.
  - rewrite IH. apply compare_lt in E. destruct (text_eqb x m) eqn:X; auto. apply text_eqb_eq in X. subst.
    destruct (eqb_before _ _ E) as [_ ->]. reflexivity.
  - destruct (text_eqb n m); auto.
Qed.
Lemma find_has : forall n i, has n i <-> find n i <> None.
Proof.
  intros n. unfold has. induction i as [|[x y] r IH]; cbn; [intuition|]. destruct (text_eqb x n) eqn:E.
  - apply text_eqb_eq in E. subst. intuition discriminate.
  - rewrite <- IH. intuition. subst. rewrite eqb_refl in E. discriminate.
Qed.
(* Two lists in order with the same entries are the same. *)
Lemma ordered_unique : forall i j, ordered i -> ordered j -> (forall n, find n i = find n j) -> i = j.
Proof.
  intros i j Si. revert j. induction Si as [|[m x] r S IH A]; intros j Sj F.
  - destruct j as [|[n y] j]; auto. specialize (F n). cbn in F. rewrite eqb_refl in F. discriminate.
  - destruct j as [|[n y] t]; [specialize (F m); cbn in F; rewrite eqb_refl in F; discriminate|].
    inversion Sj as [|? ? St At]; subst. cbn [fst] in *.
    destruct (compare m n) eqn:E.
    + apply compare_eq in E. subst n. assert (x = y) as -> by (specialize (F m); cbn in F; rewrite !eqb_refl in F; congruence). f_equal.
      apply IH; auto. intros n. specialize (F n). cbn in F. destruct (text_eqb m n) eqn:M; auto.
      apply text_eqb_eq in M. subst. rewrite !find_none; auto.
    + exfalso. apply compare_lt in E. specialize (F m). cbn in F. rewrite eqb_refl in F. destruct (eqb_before _ _ E) as [_ Q]. rewrite Q in F.
      rewrite find_none in F; [discriminate|]. eapply above_trans; eauto.
    + exfalso. apply compare_gt in E. specialize (F n). cbn in F. rewrite eqb_refl in F. destruct (eqb_before _ _ E) as [_ Q]. rewrite Q in F.
      rewrite find_none in F; [discriminate|]. eapply above_trans; eauto.
Qed.
Lemma merge_cons : forall n k es i, merge ((n, k) :: es) i =
  match i with
  | [] => (n, k) :: merge es []
  | (m, x) :: r => match compare m n with Lt => (m, x) :: merge ((n, k) :: es) r | Eq => (n, k) :: merge es r | Gt => (n, k) :: merge es i end
  end.
Proof. intros n k es [|[m x] r]; reflexivity. Qed.
Lemma merge_above : forall m es i, above m es -> above m i -> above m (merge es i).
Proof.
  intros m. induction es as [|[n k] es IH]; intros i A B; auto. pose proof (Forall_inv A) as A1. pose proof (Forall_inv_tail A) as A2.
  induction i as [|[x y] r IHr]; rewrite merge_cons; [constructor; [exact A1|apply IH; auto]|]. pose proof (Forall_inv B) as B1. pose proof (Forall_inv_tail B) as B2.
  destruct (compare x n); constructor; auto; try (apply IH; auto; fail); apply IHr; auto.
Qed.
Lemma merge_ordered : forall es i, ordered es -> ordered i -> ordered (merge es i).
Proof.
  induction es as [|[n k] es IH]; intros i Se Si; auto. inversion Se as [|? ? S1 A1]; subst. cbn [fst] in *.
  induction Si as [|[m x] r S IHr A]; rewrite merge_cons.
  - constructor; [apply IH; auto; constructor|]. apply merge_above; auto. constructor.
  - cbn [fst] in *. destruct (compare m n) eqn:E.
    + apply compare_eq in E. subst. constructor; [apply IH; auto|]. apply merge_above; auto.
    + constructor; auto. apply compare_lt in E. apply merge_above; auto. constructor; auto. eapply above_trans; eauto.
    + apply compare_gt in E. constructor; [apply IH; auto; constructor; auto|]. apply merge_above; auto. constructor; auto.
      eapply above_trans; eauto.
Qed.
Lemma merge_has : forall es i m, has m (merge es i) <-> has m es \/ has m i.
Proof.
  unfold has. induction es as [|[n k] es IH]; intros i m; [cbn; intuition|].
  induction i as [|[x y] r IHr]; rewrite merge_cons; [cbn [map In fst]; rewrite IH; cbn; intuition|].
  destruct (compare x n) eqn:E; cbn [map In fst] in *.
  - apply compare_eq in E. subst. rewrite IH. intuition.
  - rewrite IHr. intuition.
  - rewrite IH. cbn [map In fst]. intuition.
Qed.
Lemma merge_find : forall es i m, ordered es -> ordered i -> find m (merge es i) = match find m es with Some k => Some k | None => find m i end.
Proof.
  induction es as [|[n k] es IH]; intros i m Se Si; auto. inversion Se as [|? ? S1 A1]; subst. cbn [fst] in *.
  induction Si as [|[x y] r S IHr A]; rewrite merge_cons.
  - cbn [find]. destruct (text_eqb n m); auto. apply IH; auto. constructor.
  - cbn [fst] in *. destruct (compare x n) eqn:E.
    + apply compare_eq in E. subst. cbn [find]. rewrite IH by auto. destruct (text_eqb n m); auto.
    + apply compare_lt in E. cbn [find] in *. rewrite IHr. destruct (text_eqb x m) eqn:X; auto.
      apply text_eqb_eq in X. subst. destruct (eqb_before _ _ E) as [_ ->]. rewrite find_none; auto.
      eapply above_trans; eauto.
    + cbn [find]. rewrite IH; auto; [|constructor; auto]. cbn [find]. destruct (text_eqb n m); auto.
Qed.
End Index.
