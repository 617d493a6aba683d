(* Specification of bit masks: a bank of sets of indices below [size], given
   as characteristic functions. *)
From Coq Require Import List Arith ZArith Bool.
From Verif Require Import MaskModel.
Import ListNotations.

Definition iset := nat -> bool.
Definition ibank := nat -> iset.

(* Replace set [k] of the bank. *)
Definition put (S : ibank) (k : nat) (s : iset) : ibank :=
  fun k' => if k' =? k then s else S k'.

Definition in_range (start count i : nat) : bool :=
  (start <=? i) && (i <? start + count).

(* Calls a client may make on masks of [size] bits. *)
Definition mask_pre (size : nat) (op : mask_op) : Prop :=
  match op with
  | MTest _ b | MSet _ b | MClear _ b | MTestAndSet _ b
  | MScanBackwards _ b | MCountClear _ b => b < size
  | MSetRange _ s c | MClearRange _ s c | MTestRange _ s c => s + c <= size
  | MIter _ c => (-1 <= c < Z.of_nat size)%Z
  | _ => True
  end.

(* What each call may return and how it changes the sets. *)
Inductive set_step (size : nat) (S : ibank) : mask_op -> mask_out -> ibank -> Prop :=
| ss_test k b : set_step size S (MTest k b) (MoBool (S k b)) S
| ss_set k b :
    set_step size S (MSet k b) MoUnit (put S k (fun i => (i =? b) || S k i))
| ss_clear k b :
    set_step size S (MClear k b) MoUnit (put S k (fun i => negb (i =? b) && S k i))
| ss_tas k b :
    set_step size S (MTestAndSet k b) (MoBool (S k b))
             (put S k (fun i => (i =? b) || S k i))
| ss_set_range k s c :
    set_step size S (MSetRange k s c) MoUnit
             (put S k (fun i => in_range s c i || S k i))
| ss_clear_range k s c :
    set_step size S (MClearRange k s c) MoUnit
             (put S k (fun i => negb (in_range s c i) && S k i))
| ss_test_range k s c r :
    (r = true <-> exists i, in_range s c i = true /\ S k i = true) ->
    set_step size S (MTestRange k s c) (MoBool r) S
| ss_set_all k : set_step size S (MSetAll k) MoUnit (put S k (fun _ => true))
| ss_clear_all k : set_step size S (MClearAll k) MoUnit (put S k (fun _ => false))
| ss_popcount k :
    set_step size S (MPopcount k) (MoNat (length (filter (S k) (seq 0 size)))) S
| ss_scan_none k b :
    (forall i, i <= b -> S k i = false) ->
    set_step size S (MScanBackwards k b) (MoInt (-1)) S
| ss_scan_some k b i :
    i <= b -> S k i = true -> (forall j, i < j <= b -> S k j = false) ->
    set_step size S (MScanBackwards k b) (MoInt (Z.of_nat i)) S
| ss_count_clear k b n :
    b + n <= size -> (forall i, b <= i < b + n -> S k i = false) ->
    (b + n < size -> S k (b + n) = true) ->
    set_step size S (MCountClear k b) (MoNat n) S
| ss_subtract k j :
    set_step size S (MSubtract k j) MoUnit (put S k (fun i => S k i && negb (S j i)))
| ss_union k j :
    set_step size S (MUnion k j) MoUnit (put S k (fun i => S k i || S j i))
| ss_intersect k j :
    set_step size S (MIntersect k j) MoUnit (put S k (fun i => S k i && S j i))
| ss_copy k j : set_step size S (MCopy k j) MoUnit (put S k (S j))
| ss_eq k j r :
    (r = true <-> forall i, i < size -> S k i = S j i) ->
    set_step size S (MEq k j) (MoBool r) S
| ss_iter_some k c i :
    (c < Z.of_nat i)%Z -> i < size -> S k i = true ->
    (forall j, (c < Z.of_nat j)%Z -> j < i -> S k j = false) ->
    set_step size S (MIter k c) (MoIter true (Z.of_nat i)) S
| ss_iter_none k c c' :
    (forall j, (c < Z.of_nat j)%Z -> j < size -> S k j = false) ->
    set_step size S (MIter k c) (MoIter false c') S.

Inductive set_run (size : nat) : ibank -> list mask_op -> list mask_out -> ibank -> Prop :=
| sr_nil S : set_run size S [] [] S
| sr_cons S S1 S2 op ops o os :
    set_step size S op o S1 -> set_run size S1 ops os S2 ->
    set_run size S (op :: ops) (o :: os) S2.
