(* What UDP tables mean (IEEE 1364-2005, clause 8). *)
From Coq Require Import List NArith Bool.
From Verif Require Import Base NumberModel NumberSpec UdpModel.
Import ListNotations.
Open Scope N_scope.

(* Symbols of a table; [LX up] is an x or, when [up], an X. *)
Inductive level := V0 | V1 | LX (up : bool) | Any | Binary.
Inductive insym := Level (l : level) | Edge (a b : level) | Change.
Inductive outsym := Out (l : level) | Same.

(* An entry; the current state counts for sequential tables only. *)
Record entry := Entry { inputs : list insym; state : level; next : outsym }.

(* ---- as text ---- *)

Definition level_text (l : level) : N :=
  match l with V0 => 48 | V1 => 49 | LX false => 120 | LX true => 88 | Any => 63 | Binary => 98 end.
Definition insym_text (s : insym) : list N :=
  match s with
  | Level l => [level_text l]
  | Edge a b => [40; level_text a; level_text b; 41]
  | Change => [42]
  end.
Definition outsym_text (o : outsym) : N := match o with Out l => level_text l | Same => 45 end.
Definition entry_text (k : udp_kind) (e : entry) : list N :=
  concat (map insym_text (inputs e)) ++ [58] ++
  match k with Comb => [] | Seq => [level_text (state e); 58] end ++ [outsym_text (next e)].

(* ---- meaning ---- *)

(* The values a level symbol stands for: z counts as x. *)
Definition covers (l : level) (v : logic) : bool :=
  match l, v with
  | V0, L0 | V1, L1 => true
  | LX _, X | LX _, Z => true
  | Any, _ => true
  | Binary, L0 | Binary, L1 => true
  | _, _ => false
  end.

(* The inputs before and after a change, and the output. *)
Record situation := Situation { before : nat -> logic; after : nat -> logic; output : logic }.

Definition differ (a b : logic) : bool := negb (NumberSpec.code a =? NumberSpec.code b).

Definition insym_matches (s : insym) (p n : logic) : bool :=
  match s with
  | Level l => covers l n
  | Edge a b => differ p n && covers a p && covers b n
  | Change => differ p n
  end.

Fixpoint inputs_match (j : nat) (ss : list insym) (x : situation) : bool :=
  match ss with
  | [] => true
  | s :: ss' => insym_matches s (before x j) (after x j) && inputs_match (S j) ss' x
  end.

Definition entry_matches (k : udp_kind) (e : entry) (x : situation) : bool :=
  inputs_match 0 (inputs e) x && match k with Comb => true | Seq => covers (state e) (output x) end.

Definition level_value (l : level) : logic := match l with V0 => L0 | V1 => L1 | _ => X end.

(* The new value of the output, [None] if it is not assigned: that of the first entry that
   matches.  [otherwise] is for the case that none does. *)
Definition chosen (k : udp_kind) (es : list entry) (x : situation) (otherwise : option logic) : option logic :=
  match find (fun e => entry_matches k e x) es with
  | Some e => match next e with Out l => Some (level_value l) | Same => None end
  | None => otherwise
  end.

(* What the process sees of a situation.  An input has an event when it changes; without
   one the value before the last change can be any. *)
Definition seen (e : env) (x : situation) : Prop :=
  (forall j, now e j = NumberSpec.code (after x j)) /\ cur e = NumberSpec.code (output x) /\
  (forall j, event e j = differ (before x j) (after x j)) /\
  (forall j, event e j = true -> last e j = NumberSpec.code (before x j)).

(* ---- entries that are handled ---- *)

Definition simple (l : level) : Prop := l <> Binary.
Definition simple_in (s : insym) : Prop :=
  match s with Level l => simple l | Edge a b => simple a /\ simple b | Change => True end.
(* Symbols are simple, the output is 0, 1, x or, in a sequential table, unchanged, and
   something is tested. *)
Definition handled (k : udp_kind) (n : nat) (e : entry) : Prop :=
  length (inputs e) = n /\ Forall simple_in (inputs e) /\ simple (state e) /\
  (match next e with Out l => l <> Any /\ l <> Binary | Same => k = Seq end) /\
  (Exists (fun s => s <> Level Any) (inputs e) \/ k = Seq /\ state e <> Any).

(* No input, now or before, and no output is z. *)
Definition no_z (x : situation) : Prop := (forall j, after x j <> Z /\ before x j <> Z) /\ output x <> Z.
