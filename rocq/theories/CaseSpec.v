(* What a case statement means (IEEE 1076-2008, 10.9). *)

From Coq Require Import ZArith List.
From Verif Require Import CaseModel.
Import ListNotations.
Local Open Scope Z_scope.

(* A choice other than `others` stands for these values. *)
Definition stands_for (c : choice) (v : Z) : Prop :=
  match c with
  | Others => False
  | Named x => v = x
  | Range true l r => l <= v <= r
  | Range false l r => r <= v <= l
  end.

Definition not_null (c : choice) : Prop := exists v, stands_for c v.

(* Positions i of the choices of a statement, in the order they are written. *)
Definition choice_at (s : stmt) (i : nat) (c : choice) : Prop := nth_error (concat s) i = Some c.

Definition no_others (s : stmt) : Prop := ~ In Others (concat s).

Definition every_value (tlow thigh : Z) (s : stmt) : Prop :=
  forall v, tlow <= v <= thigh -> exists i c, choice_at s i c /\ stands_for c v.

Definition no_value_twice (s : stmt) : Prop :=
  forall i j c d v, choice_at s i c -> choice_at s j d -> stands_for c v -> stands_for d v -> i = j.

(* "Each value of the subtype is represented once and only once". *)
Definition once_and_only_once (tlow thigh : Z) (s : stmt) : Prop :=
  every_value tlow thigh s /\ no_value_twice s.

Definition values_of_type (tlow thigh : Z) (s : stmt) : Prop :=
  forall i c v, choice_at s i c -> stands_for c v -> tlow <= v <= thigh.

(* Written from the lowest to the highest, or the other way round. *)
Definition ascending (s : stmt) : Prop :=
  forall i j c d, (i < j)%nat -> choice_at s i c -> choice_at s j d -> d <> Others ->
  exists v, stands_for c v /\ forall w, stands_for d w -> v <= w.

Definition descending (s : stmt) : Prop :=
  forall i j c d, (i < j)%nat -> choice_at s i c -> choice_at s j d -> d <> Others ->
  exists v, stands_for d v /\ forall w, stands_for c w -> v <= w.

(* The type has no more values than the 32 bits of INTEGER, and the arithmetic stays
   within 64 bits. *)
Definition type_fits (tlow thigh : Z) : Prop :=
  - 2 ^ 62 <= tlow /\ thigh <= 2 ^ 62 /\ tlow <= thigh /\ thigh - tlow < 2 ^ 32.

(* The alternative for a value: the one with a choice that stands for it, otherwise
   the one with `others`, otherwise none. *)
Inductive selects (s : stmt) (v : Z) : option nat -> Prop :=
  | sel_choice k l c : nth_error s k = Some l -> In c l -> stands_for c v -> selects s v (Some k)
  | sel_others k l : nth_error s k = Some l -> In Others l ->
      (forall c, In c (concat s) -> ~ stands_for c v) -> selects s v (Some k)
  | sel_none : (forall c, In c (concat s) -> ~ stands_for c v) -> ~ In Others (concat s) -> selects s v None.

(* `others` is the last choice of the last alternative (sem_check_case, src/sem.c
   5959-5971). *)
Definition others_last (s : stmt) : Prop :=
  forall l r, concat s = l ++ Others :: r -> r = [].

(* ---- arrays of characters ---- *)

Definition word_of (elow ehigh : Z) (n : nat) (w : list Z) : Prop :=
  length w = n /\ Forall (fun c => elow <= c <= ehigh) w.

(* The choices other than `others`. *)
Fixpoint words (l : list achoice) : list (list Z) :=
  match l with
  | [] => []
  | AOthers :: r => words r
  | AName w :: r => w :: words r
  end.

Definition acovers_once (elow ehigh : Z) (n : nat) (s : astmt) : Prop :=
  (forall w, word_of elow ehigh n w -> In w (words (concat s))) /\ NoDup (words (concat s)).

Inductive aselects (s : astmt) (v : list Z) : option nat -> Prop :=
  | asel_choice k l : nth_error s k = Some l -> In (AName v) l -> aselects s v (Some k)
  | asel_others k l : nth_error s k = Some l -> In AOthers l ->
      ~ In v (words (concat s)) -> aselects s v (Some k)
  | asel_none : ~ In v (words (concat s)) -> ~ In AOthers (concat s) -> aselects s v None.

Definition aothers_last (s : astmt) : Prop :=
  forall l r, concat s = l ++ AOthers :: r -> r = [].
