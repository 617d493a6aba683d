(* What users of identifiers rely on: a handle is as good as its characters. *)
From Coq Require Import List NArith.
From Verif Require Import Base InternModel.
Import ListNotations.

(* Two completed requests that returned handles returned the same handle exactly
   when they asked for the same characters. *)
Definition unique (l : list entry) : Prop :=
  forall e e' x x', In e l -> In e' l -> e_result e = Some x -> e_result e' = Some x' ->
    (x = x' <-> e_bytes e = e_bytes e').

(* A request for a new identifier (newest first in the log) returns a handle that
   nobody had before, or reports that the identifier exists. *)
Fixpoint uniq_fresh (l : list entry) : Prop :=
  match l with
  | [] => True
  | e :: l' =>
    (e_uniq e = true -> forall x e', e_result e = Some x -> In e' l' -> e_result e' <> Some x) /\
    (e_uniq e = false -> e_result e <> None) /\ uniq_fresh l'
  end.

(* The characters that have been asked for so far. *)
Definition wants (p : pc) : option bytes :=
  match p with
  | Idle => None
  | GetTab b _ | InitCas b _ | InitFin b _ _ | Probe b _ _ _ _ | Install b _ _ _ | GrowCas b _ _
  | CopyLoad b _ _ _ _ | CopyProbe b _ _ _ _ _ _ _ | CopyCas b _ _ _ _ _ | Finish b _ _ _
  | Wait0 b _ | Wait1 b _ _ => Some b
  end.
