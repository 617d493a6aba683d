(* What dominators are, in terms of the terminators of the blocks only. *)
From Coq Require Import List Arith.
From Verif Require Import DomModel.
Import ListNotations.

(* The blocks named by a terminator exist. *)
Definition term_ok (n : nat) (t : term) : Prop :=
  match t with Wait b => b < n | Return => True | Goto bs => Forall (fun b => b < n) bs end.
Definition unit_ok (u : munit) : Prop := Forall (term_ok (length u)) u.

(* Control may enter the unit at the first block, or where a process resumes. *)
Definition enters (u : munit) (i : nat) : Prop :=
  i < length u /\ (i = 0 \/ In (Wait i) u).

(* Control may go from block [i] to block [j]. *)
Definition goes (u : munit) (i j : nat) : Prop :=
  exists ts, nth_error u i = Some (Goto ts) /\ In j ts.

(* [path u i l]: control can enter the unit and reach block [i] after the blocks [l]
   (the last one first, [i] included). *)
Inductive path (u : munit) : nat -> list nat -> Prop :=
| path_enter i : enters u i -> path u i [i]
| path_go i j l : path u i l -> goes u i j -> path u j (j :: l).

(* [d] lies on every path to [i]. *)
Definition dominates (u : munit) (d i : nat) : Prop := forall l, path u i l -> In d l.
