From Coq Require Import List NArith ZArith Bool Lia.
From Verif Require Import Base PvalSpec PvalModel PvalProofs CompSpec CompModel.
Import ListNotations.
Local Open Scope N_scope.

(* ---- Images ---- *)
Lemma put_at : forall d r s, (length s <= length r)%nat -> put (d ++ r) (length d) s = Ok (d ++ s ++ skipn (length s) r).
Proof.
  intros d r s H. unfold put. rewrite app_length. destruct (Nat.leb_spec (length d + length s) (length d + length r)); [|lia].
  rewrite firstn_app, Nat.sub_diag, firstn_all, firstn_O, app_nil_r. rewrite skipn_app.
  rewrite skipn_all2 by lia. replace (length d + length s - length d)%nat with (length s) by lia. reflexivity.
Qed.
Definition tailjoin (l : list text) : text := flat_map (fun s => 44 :: s) l.
Lemma join_cons : forall s l, join (s :: l) = s ++ tailjoin l.
Proof.
  intros s l. revert s. induction l as [|x l IH]; intros s; [cbn; rewrite app_nil_r; reflexivity|].
  change (join (s :: x :: l)) with (s ++ 44 :: join (x :: l)). rewrite IH. reflexivity.
Qed.
Lemma tailjoin_length : forall l, length (tailjoin l) = (length l + total l)%nat.
Proof. induction l as [|x l IH]; auto. cbn. rewrite app_length. unfold tailjoin in IH. rewrite IH. unfold total. cbn. lia. Qed.
Lemma skipn_add : forall A (a b : nat) (l : list A), skipn a (skipn b l) = skipn (b + a) l.
Proof. induction b; intros l; cbn; auto. destruct l; [destruct a; reflexivity|apply IHb]. Qed.
Lemma record_rest : forall l d r, (length (tailjoin l) <= length r)%nat ->
  record_fields l false (length d) (d ++ r) = Ok (length (d ++ tailjoin l), (d ++ tailjoin l) ++ skipn (length (tailjoin l)) r).
Proof.
  induction l as [|s l IH]; intros d r H; cbn [record_fields].
  - cbn. rewrite !app_nil_r. reflexivity.
  - cbn in H. rewrite app_length in H. fold (tailjoin l) in H.
    rewrite put_at by (cbn; lia). cbn [bind].
    replace (d ++ [44%N] ++ skipn (length [44%N]) r) with ((d ++ [44%N]) ++ skipn 1 r) by (rewrite <- app_assoc; reflexivity).
    replace (length d + 1)%nat with (length (d ++ [44%N])) by (rewrite app_length; reflexivity).
    rewrite put_at by (rewrite skipn_length, ?M; cbn [length]; lia). cbn [bind].
    rewrite app_assoc. replace (length (d ++ [44%N]) + length s)%nat with (length ((d ++ [44%N]) ++ s)) by (rewrite !app_length; cbn; lia).
    rewrite IH by (rewrite !skipn_length; lia). rewrite !skipn_add.
    replace (tailjoin (s :: l)) with ([44%N] ++ s ++ tailjoin l) by reflexivity.
    rewrite <- !app_assoc. f_equal. f_equal. rewrite !app_length. cbn [length]. do 4 f_equal.
Qed.
Lemma record_image_is : forall l, l <> [] -> record_image l = Ok (parens l).
Proof.
  intros [|s l] H; [congruence|]. unfold record_image. cbv zeta.
  set (m := alloc (length (s :: l) + 1 + total (s :: l))).
  assert (M : length m = (length l + 2 + (length s + total l))%nat) by (unfold m, alloc; rewrite repeat_length; cbn; unfold total; lia).
  change (put m 0 [40%N]) with (put ([] ++ m) (length (@nil N)) [40%N]). rewrite put_at by (rewrite M; cbn [length]; lia). cbn [bind app].
  cbn [record_fields bind]. change (40 :: skipn (length [40%N]) m) with ([40%N] ++ skipn 1 m). change 1%nat with (length [40%N]) at 1.
  rewrite put_at by (rewrite skipn_length, ?M; cbn [length]; lia). cbn [bind].
  rewrite app_assoc. change (1 + length s)%nat with (length ([40%N] ++ s)).
  rewrite record_rest by (rewrite !skipn_length, ?M, tailjoin_length; cbn [length]; lia). cbn [bind].
  rewrite put_at by (rewrite !skipn_length, ?M, tailjoin_length; cbn [length]; lia).
  rewrite skipn_all2 by (rewrite !skipn_length, ?M, tailjoin_length; cbn [length]; lia).
  unfold parens. rewrite join_cons, app_nil_r. cbn [app]. rewrite <- !app_assoc. reflexivity.
Qed.
Lemma array_rest : forall l d r, (length (tailjoin l) <= length r)%nat ->
  array_elems l (length d) (d ++ r) = Ok ((d ++ flat_map (fun s => s ++ [44%N]) l) ++ skipn (length (tailjoin l)) r).
Proof.
  induction l as [|s l IH]; intros d r H; cbn [array_elems].
  - cbn. rewrite app_nil_r. reflexivity.
  - cbn in H. rewrite app_length in H. fold (tailjoin l) in H. rewrite put_at by lia. cbn [bind].
    rewrite app_assoc. replace (length d + length s)%nat with (length (d ++ s)) by (rewrite app_length; lia).
    rewrite put_at by (rewrite skipn_length; cbn; lia). cbn [bind].
    rewrite (app_assoc (d ++ s) [44%N]). replace (length (d ++ s) + 1)%nat with (length ((d ++ s) ++ [44%N])) by (rewrite !app_length; reflexivity).
    rewrite IH by (rewrite !skipn_length, ?M; cbn [length]; lia). rewrite !skipn_add. cbn [flat_map].
    replace (tailjoin (s :: l)) with (44 :: s ++ tailjoin l) by reflexivity.
    rewrite <- !app_assoc. f_equal. do 4 f_equal. cbn [length app]. rewrite app_length. f_equal. lia.
Qed.
Lemma flat_join : forall l, l <> [] -> flat_map (fun s => s ++ [44%N]) l = join l ++ [44%N].
Proof.
  induction l as [|s l IH]; intros H; [congruence|]. destruct l as [|x l]; [cbn; rewrite app_nil_r; reflexivity|].
  cbn [flat_map] in *. rewrite IH by discriminate. change (join (s :: x :: l)) with (s ++ 44 :: join (x :: l)).
  rewrite <- !app_assoc. reflexivity.
Qed.
Lemma array_image_is : forall l, l <> [] -> array_image l = Ok (parens l).
Proof.
  intros l H. unfold array_image. cbv zeta. set (sum := (length l + 1 + total l)%nat).
  assert (M : length (alloc sum) = sum) by (unfold alloc; apply repeat_length).
  change (put (alloc sum) 0 [40%N]) with (put ([] ++ alloc sum) (length (@nil N)) [40%N]).
  rewrite put_at by (rewrite M; unfold sum; cbn; lia). cbn [bind app].
  change (40 :: skipn (length [40%N]) (alloc sum)) with ([40%N] ++ skipn 1 (alloc sum)). change 1%nat with (length [40%N]) at 1.
  rewrite array_rest by (rewrite skipn_length, M, tailjoin_length; unfold sum; lia). cbn [bind].
  rewrite skipn_all2 by (rewrite skipn_length, M, tailjoin_length; unfold sum; lia).
  rewrite app_nil_r, flat_join by auto.
  assert (L : (sum - 1)%nat = length ([40%N] ++ join l)).
  { destruct l as [|s l]; [congruence|]. rewrite join_cons, app_length, app_length, tailjoin_length. unfold sum, total. cbn. unfold total. lia. }
  rewrite app_assoc, L. rewrite put_at by (cbn; lia). reflexivity.
Qed.
Lemma chars_rest : forall lits ps t, spelled_by lits ps t -> forall i d r, length d = (i + 1)%nat -> (length ps <= length r)%nat ->
  chars_elems lits ps i (d ++ r) = Ok ((d ++ t) ++ skipn (length ps) r).
Proof.
  induction 1 as [|p ps c t L S IH]; intros i d r D H; cbn [chars_elems].
  - rewrite app_nil_r. reflexivity.
  - unfold literal_at in L. rewrite L. unfold quote. rewrite <- D. cbn [length] in H. rewrite put_at by (cbn; lia). cbn [bind].
    rewrite app_assoc. rewrite IH by (rewrite ?app_length, ?skipn_length; cbn; lia). rewrite skipn_add. rewrite <- !app_assoc. reflexivity.
Qed.
Lemma spelled_length : forall lits ps t, spelled_by lits ps t -> length ps = length t.
Proof. induction 1; cbn; congruence. Qed.
Lemma chars_image_is : forall lits ps t, spelled_by lits ps t -> chars_image lits ps = Ok (34 :: t ++ [34%N]).
Proof.
  intros lits ps t S. unfold chars_image. set (m := alloc (length ps + 2)).
  assert (M : length m = (length ps + 2)%nat) by (unfold m, alloc; apply repeat_length).
  change (put m 0 [34%N]) with (put ([] ++ m) (length (@nil N)) [34%N]). rewrite put_at by (rewrite M; cbn [length]; lia). cbn [bind app].
  change (34 :: skipn (length [34%N]) m) with ([34%N] ++ skipn 1 m).
  rewrite (chars_rest lits ps t S) by (rewrite ?skipn_length, ?M; cbn [length]; lia). cbn [bind].
  replace (length ps + 1)%nat with (length ([34%N] ++ t)) by (rewrite (spelled_length _ _ _ S), app_length; cbn; lia).
  rewrite put_at by (rewrite !skipn_length, ?M; cbn [length]; lia).
  rewrite skipn_all2 by (rewrite !skipn_length, ?M; cbn [length]; lia). rewrite app_nil_r. reflexivity.
Qed.

Section Types.
Context {A : Type}.
(* No null arrays *)
Inductive nonnull : value A -> Prop :=
| nn_scalar a : nonnull (Scalar a)
| nn_chars ps : nonnull (Chars ps)
| nn_comp vs : vs <> [] -> Forall nonnull vs -> nonnull (Comp vs).
(* Character arrays have only character literals; no literal occurs twice *)
Inductive lits_ok : ty A -> Prop :=
| lo_scalar img p : lits_ok (TScalar img p)
| lo_chars n lits : NoDup lits -> (forall l, In l lits -> exists c, l = quote c) -> lits_ok (TChars n lits)
| lo_array n e : lits_ok e -> lits_ok (TArray n e)
| lo_record fs : Forall lits_ok fs -> lits_ok (TRecord fs).
Fixpoint imgs (fs : list (ty A)) (vs : list (value A)) : res (list text) :=
  match fs, vs with
  | [], [] => Ok []
  | f :: fs, v :: vs => do! s <- image f v; do! l <- imgs fs vs; Ok (s :: l)
  | _, _ => Fault
  end.
Lemma image_record : forall fs vs, image (TRecord fs) (Comp vs) = do! l <- imgs fs vs; record_image l.
Proof. reflexivity. Qed.
Lemma image_array : forall n e vs, image (TArray n e) (Comp vs) = do! l <- imgs (map (fun _ => e) vs) vs; array_image l.
Proof.
  intros n e vs. cbn [image]. f_equal. induction vs as [|v vs IH]; cbn [map imgs]; auto. destruct (image e v); cbn [bind]; auto.
  rewrite IH. reflexivity.
Qed.
Lemma all_written_length : forall ts vs ss, all_written (A := A) ts vs ss -> length vs = length ss.
Proof. induction 1; cbn; congruence. Qed.
Lemma image_is : forall t v s, written (A := A) t v s -> lits_ok t -> nonnull v -> image t v = Ok s.
Proof.
  apply (written_ind2 A (fun t v s _ => lits_ok t -> nonnull v -> image t v = Ok s)
    (fun ts vs ss _ => Forall lits_ok ts -> Forall nonnull vs -> imgs ts vs = Ok ss)).
  - reflexivity.
  - intros n lits ps t S L _. inversion L as [| ? ? ND Q | |]; subst. cbn [image].
    assert (X : forallb is_char_lit lits = true).
    { apply forallb_forall. intros l I. destruct (Q l I) as [c ->]. reflexivity. }
    rewrite X. apply chars_image_is; auto.
  - intros n e vs ss W IH L N. rewrite image_array. inversion L; subst. inversion N; subst. rewrite IH; auto.
    + cbn [bind]. apply array_image_is. intros ->. apply all_written_length in W. destruct vs; [congruence|discriminate].
    + apply Forall_forall. intros x X. apply in_map_iff in X. destruct X as (? & <- & _). auto.
  - intros fs vs ss W IH L N. rewrite image_record. inversion L; subst. inversion N; subst. rewrite IH by auto. cbn [bind].
    apply record_image_is. intros ->. apply all_written_length in W. destruct vs; [congruence|discriminate].
  - reflexivity.
  - intros t ts v vs s ss W IH1 WS IH2 L N. inversion L; subst. inversion N; subst. cbn [imgs]. rewrite IH1 by auto. cbn [bind].
    rewrite IH2 by auto. reflexivity.
Qed.

(* ---- Values ---- *)
Definition transit (s : text) : Prop := forall r n, next_loop (s ++ r) n = s ++ next_loop r n.
Definition uncounted (s : text) : Prop := forall r n k, (1 <= n)%nat -> count_loop (s ++ r) n k = count_loop r n k.
Lemma plain_transit : forall s, plain s -> transit s.
Proof.
  induction s as [|c s IH]; intros P r n; auto. destruct (P c (or_introl eq_refl)) as (A1 & A2 & A3).
  cbn [app next_loop]. apply N.eqb_neq in A1, A2, A3. rewrite A1, A2, A3. cbn [orb]. rewrite andb_false_r.
  rewrite IH; auto. intros d D. apply P. right; auto.
Qed.
Lemma plain_uncounted : forall s, plain s -> forall r n k, count_loop (s ++ r) n k = count_loop r n k.
Proof.
  induction s as [|c s IH]; intros P r n k; auto. destruct (P c (or_introl eq_refl)) as (A1 & A2 & A3).
  cbn [app count_loop]. apply N.eqb_neq in A1, A2, A3. rewrite A1, A2, A3. rewrite andb_false_r. cbn [andb].
  apply IH. intros d D. apply P. right; auto.
Qed.
Lemma spaces_plain : forall s, spaces s -> plain s.
Proof. intros s H c C. rewrite (H c C). lia. Qed.
Lemma plain_app : forall a b, plain a -> plain b -> plain (a ++ b).
Proof. intros a b P Q c C. apply in_app_or in C. destruct C; auto. Qed.
Lemma join_transit : forall ss, Forall transit ss -> forall r n, next_loop (join ss ++ r) (S n) = join ss ++ next_loop r (S n).
Proof.
  induction 1 as [|s ss T F IH]; intros r n; [reflexivity|]. destruct ss as [|x ss]; [apply T|].
  change (join (s :: x :: ss)) with (s ++ 44 :: join (x :: ss)). rewrite <- !app_assoc, T. cbn [app next_loop Nat.eqb andb].
  replace (44 =? 41) with false by reflexivity. replace (44 =? 40) with false by reflexivity. rewrite IH. reflexivity.
Qed.
Lemma parens_transit : forall ss, Forall transit ss -> transit (parens ss).
Proof.
  intros ss F r n. unfold parens. cbn [app next_loop]. replace ((40 =? 44) || (40 =? 41)) with false by reflexivity. rewrite andb_false_r.
  replace (40 =? 41) with false by reflexivity. rewrite N.eqb_refl. rewrite <- app_assoc, join_transit by auto.
  cbn [app next_loop Nat.eqb andb]. rewrite N.eqb_refl. replace (S n - 1)%nat with n by lia. rewrite <- app_assoc. reflexivity.
Qed.
Lemma join_uncounted : forall ss, Forall uncounted ss -> forall r n k, (2 <= n)%nat -> count_loop (join ss ++ r) n k = count_loop r n k.
Proof.
  induction 1 as [|s ss T F IH]; intros r n k N; [reflexivity|]. destruct ss as [|x ss]; [apply T; lia|].
  change (join (s :: x :: ss)) with (s ++ 44 :: join (x :: ss)). rewrite <- app_assoc, T by lia. cbn [app count_loop].
  destruct (Nat.eqb_spec n 1); [lia|]. cbn [andb]. replace (44 =? 41) with false by reflexivity. replace (44 =? 40) with false by reflexivity.
  cbn [andb]. apply IH; auto.
Qed.
Lemma join_counted : forall ss, Forall uncounted ss -> forall r k, ss <> [] -> count_loop (join ss ++ r) 1 k = count_loop r 1 (k + (length ss - 1))%nat.
Proof.
  induction 1 as [|s ss T F IH]; intros r k N; [congruence|]. destruct ss as [|x ss].
  - cbn. rewrite T by lia. f_equal. lia.
  - change (join (s :: x :: ss)) with (s ++ 44 :: join (x :: ss)). rewrite <- app_assoc, T by lia. cbn [app count_loop].
    replace ((1 =? 1)%nat && (44 =? 44)) with true by reflexivity. rewrite IH by discriminate. f_equal. cbn. lia.
Qed.
Lemma parens_uncounted : forall ss, Forall uncounted ss -> uncounted (parens ss).
Proof.
  intros ss F r n k N. unfold parens. cbn [app count_loop]. replace (40 =? 44) with false by reflexivity. rewrite andb_false_r, N.eqb_refl.
  rewrite <- app_assoc, join_uncounted by (auto; lia). cbn [app count_loop]. replace (41 =? 44) with false by reflexivity. rewrite andb_false_r.
  replace (41 =? 40) with false by reflexivity. rewrite N.eqb_refl. cbn [Nat.ltb Nat.leb andb]. f_equal. lia.
Qed.
Lemma count_is : forall l ss r, spaces l -> spaces r -> ss <> [] -> Forall uncounted ss -> count_delimiters (l ++ parens ss ++ r) = length ss.
Proof.
  intros l ss r L R N F. unfold count_delimiters. rewrite plain_uncounted by (apply spaces_plain; auto).
  unfold parens. cbn [app count_loop Nat.eqb andb]. replace (40 =? 44) with false by reflexivity. rewrite ?andb_false_r, N.eqb_refl.
  rewrite <- app_assoc, join_counted by auto. cbn [app count_loop]. replace (41 =? 44) with false by reflexivity. rewrite andb_false_r.
  replace (41 =? 40) with false by reflexivity. rewrite N.eqb_refl. cbn [Nat.ltb Nat.leb andb Nat.sub].
  rewrite <- (app_nil_r r), plain_uncounted by (apply spaces_plain; auto). cbn. destruct ss; [congruence|cbn; lia].
Qed.
Lemma open_is : forall l r i, spaces l -> open_loop (l ++ 40 :: r) i = Some (i + length l + 1)%nat.
Proof.
  induction l as [|c l IH]; intros r i S; cbn [app open_loop].
  - rewrite N.eqb_refl. f_equal. cbn. lia.
  - rewrite (S c (or_introl eq_refl)). replace (32 =? 40) with false by reflexivity. rewrite N.eqb_refl. cbn [negb].
    rewrite IH by (intros d D; apply S; right; auto). f_equal. cbn. lia.
Qed.
Lemma skipn_past : forall (s a b : text) off, skipn off s = a ++ b -> skipn (off + length a) s = b.
Proof. intros s a b off H. rewrite <- skipn_add, H, skipn_app, skipn_all2, Nat.sub_diag by lia. reflexivity. Qed.

(* What is left of the text from a position between the parts *)
Definition left_over (s : text) (off : nat) (ss : list text) (r : text) : Prop :=
  match ss with
  | [] => (1 <= off)%nat /\ skipn (off - 1) s = 41 :: r
  | _ => skipn off s = join ss ++ 41 :: r
  end.
Lemma left_step : forall s off x ss r, left_over s off (x :: ss) r -> transit x ->
  next_delimiter s off = x /\ left_over s (off + length x + 1) ss r.
Proof.
  intros s off x ss r L T. unfold left_over in L. unfold next_delimiter. rewrite L. destruct ss as [|y ss].
  - cbn [join]. rewrite T. cbn. rewrite app_nil_r. split; auto. split; [lia|].
    replace (off + length x + 1 - 1)%nat with (off + length x)%nat by lia. apply skipn_past. auto.
  - change (join (x :: y :: ss)) with (x ++ 44 :: join (y :: ss)) in *. rewrite <- app_assoc, T. cbn [app next_loop Nat.eqb andb].
    replace (44 =? 44) with true by reflexivity. cbn [orb]. rewrite app_nil_r. split; auto.
    unfold left_over. rewrite <- Nat.add_assoc. replace (length x + 1)%nat with (length (x ++ [44%N])) by (rewrite app_length; reflexivity).
    apply skipn_past. rewrite L, <- !app_assoc. reflexivity.
Qed.
Lemma left_close : forall s off r, left_over s off [] r -> find_close s off = true.
Proof. intros s off r [_ H]. unfold find_close. rewrite H. reflexivity. Qed.
Fixpoint all3 {T U W} (P : T -> U -> W -> Prop) (a : list T) (b : list U) (c : list W) : Prop :=
  match a, b, c with
  | [], [], [] => True
  | x :: a, y :: b, z :: c => P x y z /\ all3 P a b c
  | _, _, _ => False
  end.
Definition valued (t : ty A) (v : value A) (s : text) : Prop := value_of t s = Ok (Some v).
Fixpoint fields (s : text) (fs : list (ty A)) (off : nat) (acc : list (value A)) : res (option (value A)) :=
  match fs with
  | [] => if find_close s off then Ok (Some (Comp (rev acc))) else Ok None
  | f :: fs =>
    let nd := next_delimiter s off in
    do! r <- value_of f nd;
    match r with
    | None => Ok None
    | Some v => if copy_ok f v then fields s fs (off + length nd + 1)%nat (v :: acc) else Fault
    end
  end.
Lemma value_record : forall fs s, value_of (TRecord fs) s = match find_open s with None => Ok None | Some off => fields s fs off [] end.
Proof.
  intros fs s. cbn [value_of]. destruct (find_open s) as [off|]; auto. generalize (@nil (value A)). revert off.
  induction fs as [|f fs IH]; intros off acc; cbn [fields]; auto.
  destruct (value_of f (next_delimiter s off)) as [[v|]|]; cbn [bind]; auto. destruct (copy_ok f v); auto.
Qed.
Fixpoint elems (s : text) (e : ty A) (n : nat) (pos : nat) (acc : list (value A)) : res (option (value A)) :=
  match n with
  | O => if find_close s pos then Ok (Some (Comp (rev acc))) else Ok None
  | S n =>
    let nd := next_delimiter s pos in
    do! r <- value_of e nd;
    match r with
    | None => Ok None
    | Some v => elems s e n (pos + (length nd + 1))%nat (v :: acc)
    end
  end.
Lemma value_array : forall k e s, value_of (TArray k e) s =
  match find_open s with None => Ok None | Some pos => elems s e (count_delimiters s) pos [] end.
Proof.
  intros k e s. cbn [value_of]. destruct (find_open s) as [pos|]; auto. generalize (@nil (value A)). revert pos.
  induction (count_delimiters s) as [|n IH]; intros pos acc; cbn [elems]; auto.
  destruct (value_of e (next_delimiter s pos)) as [[v|]|]; cbn [bind]; auto.
Qed.
Lemma fits_copy : forall (t : ty A) v, fits t v -> copy_ok t v = true.
Proof. intros t v H. destruct t as [| [n|] | [n|] |], v; cbn in *; auto; apply Nat.eqb_eq; auto. Qed.
Lemma fields_is : forall s r fs vs ss off acc, all3 valued fs vs ss -> Forall transit ss -> Forall2 fits fs vs -> left_over s off ss r ->
  fields s fs off acc = Ok (Some (Comp (rev acc ++ vs))).
Proof.
  intros s r. induction fs as [|f fs IH]; intros vs ss off acc V T F L; destruct vs as [|v vs], ss as [|x ss]; try (destruct V; fail); cbn [fields].
  - rewrite (left_close _ _ _ L), app_nil_r. reflexivity.
  - destruct V as [V1 V2]. inversion T as [|? ? T1 T2]; subst. inversion F as [|? ? ? ? F1 F2]; subst.
    destruct (left_step _ _ _ _ _ L T1) as [N L2]. rewrite N. rewrite V1. cbn [bind]. rewrite fits_copy by auto.
    rewrite (IH vs ss) by auto. cbn [rev]. rewrite <- app_assoc. reflexivity.
Qed.
Lemma elems_is : forall s r e vs ss pos acc, all3 valued (map (fun _ => e) vs) vs ss -> Forall transit ss -> left_over s pos ss r ->
  elems s e (length ss) pos acc = Ok (Some (Comp (rev acc ++ vs))).
Proof.
  intros s r e. induction vs as [|v vs IH]; intros ss pos acc V T L; destruct ss as [|x ss]; try (destruct V; fail); cbn [elems length].
  - rewrite (left_close _ _ _ L), app_nil_r. reflexivity.
  - destruct V as [V1 V2]. inversion T as [|? ? T1 T2]; subst.
    destruct (left_step _ _ _ _ _ L T1) as [N L2]. rewrite N. rewrite V1. cbn [bind].
    rewrite Nat.add_assoc, (IH ss) by auto. cbn [rev]. rewrite <- app_assoc. reflexivity.
Qed.

(* Character arrays *)
Lemma first_is : forall l t i, spaces l -> t <> [] -> hd 0 t <> 32 -> first_loop (l ++ t) i = (i + length l)%nat.
Proof.
  induction l as [|c l IH]; intros t i S N H; cbn [app].
  - destruct t as [|c t]; [congruence|]. cbn in *. apply N.eqb_neq in H. rewrite H. cbn. lia.
  - cbn [first_loop]. rewrite (S c (or_introl eq_refl)). cbn [negb N.eqb Pos.eqb].
    destruct (l ++ t) as [|d x] eqn:E; [destruct l, t; cbn in E; congruence|]. rewrite <- E.
    rewrite IH by (auto; intros d' D; apply S; right; auto). cbn. lia.
Qed.
Lemma last_is : forall l t i, spaces l -> t <> [] -> hd 0 t <> 32 -> last_loop (l ++ t) i = (i - length l)%nat.
Proof.
  induction l as [|c l IH]; intros t i S N H; cbn [app].
  - destruct t as [|c t]; [congruence|]. cbn in *. apply N.eqb_neq in H. rewrite H. cbn. lia.
  - cbn [last_loop]. rewrite (S c (or_introl eq_refl)). cbn [negb N.eqb Pos.eqb].
    destruct (l ++ t) as [|d x] eqn:E; [destruct l, t; cbn in E; congruence|]. rewrite <- E.
    rewrite IH by (auto; intros d' D; apply S; right; auto). cbn. lia.
Qed.
Lemma chars_value_is : forall lits ps l t r, proper lits -> spelled_by lits ps t -> spaces l -> spaces r ->
  t <> [] -> hd 0 t <> 32 -> last t 0 <> 32 -> chars_value lits (l ++ t ++ r) = Ok (Some ps).
Proof.
  intros lits ps l t r P S L R N H1 H2. unfold chars_value.
  destruct (l ++ t ++ r) as [|c0 s0] eqn:E0; [destruct l, t; cbn in E0; congruence|]. rewrite <- E0. clear E0 c0 s0. cbv zeta.
  assert (F : first_loop (l ++ t ++ r) 0 = length l).
  { apply first_is; auto; destruct t; [congruence|discriminate|congruence|auto]. }
  assert (X : last_loop (rev (l ++ t ++ r)) (length (l ++ t ++ r) - 1) = (length l + length t - 1)%nat).
  { rewrite !rev_app_distr, <- app_assoc. rewrite last_is.
    - rewrite rev_length, !app_length. lia.
    - intros c C. apply in_rev in C. auto.
    - intros Z. apply app_eq_nil in Z. destruct Z as [Z _]. apply (f_equal (@length _)) in Z. rewrite rev_length in Z. destruct t; [congruence|discriminate].
    - destruct (@exists_last _ t N) as (t' & c & ->). rewrite last_last in H2. rewrite rev_app_distr. cbn. auto. }
  rewrite F, X. assert (length t <> 0)%nat by (destruct t; [congruence|discriminate]).
  destruct (Nat.ltb_spec (length l + length t - 1 + 1) (length l)); [lia|].
  replace (length l + length t - 1 + 1 - length l)%nat with (length t) by lia.
  rewrite skipn_app, skipn_all2, Nat.sub_diag by lia. cbn [app skipn]. rewrite firstn_app, firstn_all, Nat.sub_diag, firstn_O, app_nil_r.
  f_equal. clear - P S. induction S as [|i is c s I S IH]; auto. cbn [map_chars]. unfold literal_at in I.
  rewrite (char_map_at lits 0 c i) by auto. rewrite IH. reflexivity.
Qed.
Inductive lits_proper : ty A -> Prop :=
| lp_scalar img p : lits_proper (TScalar img p)
| lp_chars n lits : proper lits -> lits_proper (TChars n lits)
| lp_array n e : lits_proper e -> lits_proper (TArray n e)
| lp_record fs : Forall lits_proper fs -> lits_proper (TRecord fs).
Lemma all_reads_length : forall ts vs ss, all_reads (A := A) ts vs ss -> length vs = length ss.
Proof. induction 1; cbn; congruence. Qed.
Lemma left_start : forall l ss r, spaces l -> ss <> [] -> find_open (l ++ parens ss ++ r) = Some (length l + 1)%nat /\
  left_over (l ++ parens ss ++ r) (length l + 1) ss r.
Proof.
  intros l ss r L N. unfold parens. cbn [app]. split; [unfold find_open; rewrite open_is by auto; reflexivity|].
  unfold left_over. destruct ss as [|x ss]; [congruence|].
  replace (length l + 1)%nat with (0 + length (l ++ [40%N]))%nat by (rewrite app_length; reflexivity).
  apply skipn_past. cbn [skipn]. rewrite <- !app_assoc. reflexivity.
Qed.
Lemma value_is : forall t v s, reads (A := A) t v s -> lits_proper t -> valued t v s /\ transit s /\ uncounted s.
Proof.
  assert (PL : forall s, plain s -> transit s /\ uncounted s).
  { intros s P. split; [apply plain_transit; auto|]. intros r n k _. apply plain_uncounted; auto. }
  assert (AP : forall a b, transit a -> transit b -> transit (a ++ b)).
  { intros a b TA TB r n. rewrite <- !app_assoc, TA, TB. reflexivity. }
  assert (AU : forall a b, uncounted a -> uncounted b -> uncounted (a ++ b)).
  { intros a b TA TB r n k N. rewrite <- !app_assoc, TA, TB by auto. reflexivity. }
  apply (reads_ind2 A (fun t v s _ => lits_proper t -> valued t v s /\ transit s /\ uncounted s)
    (fun ts vs ss _ => Forall lits_proper ts -> all3 valued ts vs ss /\ Forall transit ss /\ Forall uncounted ss)).
  - intros img p a s E P _. split; [unfold valued; cbn; rewrite E; reflexivity|]. apply PL; auto.
  - intros n lits ps l t r S P L R N H1 H2 LP. inversion LP; subst. split.
    + unfold valued. cbn [value_of]. rewrite (chars_value_is lits ps) by auto. reflexivity.
    + apply PL. apply plain_app; [apply spaces_plain; auto|]. apply plain_app; auto. apply spaces_plain; auto.
  - intros n e vs ss l r N L R RS IH LP. inversion LP; subst. pose proof (all_reads_length _ _ _ RS) as LEN.
    assert (NS : ss <> []) by (intros ->; destruct vs; [congruence|discriminate]).
    destruct IH as (V & T & U). { apply Forall_forall. intros x X. apply in_map_iff in X. destruct X as (? & <- & _). auto. }
    split; [|split].
    + destruct (left_start l ss r L NS) as [O LO]. unfold valued. rewrite value_array, O, count_is by auto.
      rewrite (elems_is _ r e vs ss) by auto. reflexivity.
    + apply AP; [apply PL, spaces_plain; auto|]. apply AP; [apply parens_transit; auto|apply PL, spaces_plain; auto].
    + apply AU; [apply PL, spaces_plain; auto|]. apply AU; [apply parens_uncounted; auto|apply PL, spaces_plain; auto].
  - intros fs vs ss l r N L R RS IH F LP. inversion LP; subst. pose proof (all_reads_length _ _ _ RS) as LEN.
    assert (NS : ss <> []) by (intros ->; destruct vs; [congruence|discriminate]).
    destruct IH as (V & T & U); auto.
    split; [|split].
    + destruct (left_start l ss r L NS) as [O LO]. unfold valued. rewrite value_record, O.
      rewrite (fields_is _ r fs vs ss) by auto. reflexivity.
    + apply AP; [apply PL, spaces_plain; auto|]. apply AP; [apply parens_transit; auto|apply PL, spaces_plain; auto].
    + apply AU; [apply PL, spaces_plain; auto|]. apply AU; [apply parens_uncounted; auto|apply PL, spaces_plain; auto].
  - intros _. repeat split; constructor.
  - intros t ts v vs s ss R1 IH1 R2 IH2 F. inversion F; subst. destruct IH1 as (A1 & A2 & A3); auto. destruct IH2 as (B1 & B2 & B3); auto.
    split; [split; auto|]. split; constructor; auto.
Qed.
End Types.
