(* Names of design units and the index of a library.  Nothing here refers to the model. *)
From Coq Require Import List NArith Bool Sorted.
Import ListNotations.
Local Open Scope N_scope.

Definition text := list N.
(* Lower-case letters of ISO 8859-1 that have an upper-case letter *)
Definition lower (c : N) : Prop := (97 <= c <= 122) \/ (224 <= c <= 254 /\ c <> 247).
Definition same_letter (c d : N) : Prop := c = d \/ (lower c /\ d = c - 32) \/ (lower d /\ c = d - 32).
(* The same name: case matters between backslashes only.  The flag says that the text starts
   inside of an extended identifier. *)
Inductive same_name : bool -> text -> text -> Prop :=
| same_nil e : same_name e [] []
| same_slash e a b : same_name (negb e) a b -> same_name e (92 :: a) (92 :: b)
| same_ext c a b : c <> 92 -> same_name true a b -> same_name true (c :: a) (c :: b)
| same_basic c d a b : c <> 92 -> d <> 92 -> same_letter c d -> same_name false a b -> same_name false (c :: a) (d :: b).
(* No plus sign outside of extended identifiers *)
Inductive no_plus : bool -> text -> Prop :=
| np_nil e : no_plus e []
| np_slash e a : no_plus (negb e) a -> no_plus e (92 :: a)
| np_ext c a : c <> 92 -> no_plus true a -> no_plus true (c :: a)
| np_basic c a : c <> 92 -> c <> 43 -> no_plus false a -> no_plus false (c :: a).
Definition bytes (s : text) : Prop := Forall (fun c => c < 256) s.
Definition ends_in (t s : text) : Prop := exists p, s = p ++ t.
Definition dot_elab : text := [46; 101; 108; 97; 98].
Definition dash_body : text := [45; 98; 111; 100; 121].
(* Characters that may be in the name of a file: letters, digits and the signs + - . _ *)
Definition legal (c : N) : Prop :=
  c = 43 \/ c = 45 \/ c = 46 \/ c = 95 \/ 48 <= c <= 57 \/ 65 <= c <= 90 \/ 97 <= c <= 122 \/ 192 <= c < 256.
(* Only such are outside of extended identifiers *)
Inductive basic_legal : bool -> text -> Prop :=
| bl_nil e : basic_legal e []
| bl_slash e a : basic_legal (negb e) a -> basic_legal e (92 :: a)
| bl_ext c a : c <> 92 -> basic_legal true a -> basic_legal true (c :: a)
| bl_basic c a : c <> 92 -> legal c -> basic_legal false a -> basic_legal false (c :: a).
(* ISO 8859-1 letters that are not ASCII *)
Definition no_latin (s : text) : Prop := Forall (fun c => c < 128) s.

(* Order of names: that of strcmp *)
Inductive before : text -> text -> Prop :=
| before_nil c s : before [] (c :: s)
| before_head c d s t : c < d -> before (c :: s) (d :: t)
| before_tail c s t : before s t -> before (c :: s) (c :: t).
Definition index (K : Type) := list (text * K).
Definition ordered {K} (i : index K) : Prop := StronglySorted (fun x y => before (fst x) (fst y)) i.
Definition has {K} (n : text) (i : index K) : Prop := In n (map fst i).

(* What processes do with a library: [Save p t] is the saving by process p at time t *)
Inductive op (K : Type) :=
| Open (p : nat)
| Put (p : nat) (n : text) (k : K)
| Save (p : nat) (t : N).
Arguments Open {K}. Arguments Put {K}. Arguments Save {K}.
Fixpoint times {K} (h : list (op K)) : list N :=
  match h with
  | [] => []
  | Save _ t :: h => t :: times h
  | _ :: h => times h
  end.
(* Each saving has a later time than the one before *)
Definition clocked {K} (h : list (op K)) : Prop := StronglySorted N.lt (0 :: times h).
(* The unit was analysed by a process that has saved it afterwards *)
Definition saved {K} (h : list (op K)) (n : text) : Prop :=
  exists h1 h2 h3 p k t, h = h1 ++ Put p n k :: h2 ++ Save p t :: h3 /\ ~ In (Open p) h2.
