(* Values as text on the command line and in the shell: numerals, enumeration literals and
   strings of character literals.  Nothing here refers to the model. *)
From Coq Require Import List NArith ZArith Bool.
Import ListNotations.

(* Characters are Latin-1 codes *)
Definition text := list N.
(* White space: space, HT, LF, VT, FF, CR and the non-breaking space *)
Definition blank (s : text) : Prop := forall c, In c s -> c = 32%N \/ (9 <= c <= 13)%N \/ c = 160%N.
Definition is_digit (c : N) : Prop := (48 <= c <= 57)%N.
(* A numeral: digits and underscores with at least one digit *)
Definition numeral (s : text) : Prop :=
  (forall c, In c s -> is_digit c \/ c = 95%N) /\ exists c, In c s /\ is_digit c.
Fixpoint numeral_value (s : text) (acc : Z) : Z :=
  match s with
  | [] => acc
  | c :: s => numeral_value s (if N.eqb c 95 then acc else 10 * acc + (Z.of_N c - 48))%Z
  end.

(* The literals of an enumeration type: identifiers in upper case, extended identifiers and
   character literals *)
Definition quote (c : N) : text := [39; c; 39]%N.
Definition basic_identifier (s : text) : Prop :=
  s <> [] /\ forall c, In c s -> (65 <= c <= 90)%N \/ is_digit c \/ c = 95%N.
(* The same letters in upper or lower case *)
Inductive spells : text -> text -> Prop :=
| spells_nil : spells [] []
| spells_same c s t : spells s t -> spells (c :: s) (c :: t)
| spells_lower c s t : (65 <= c <= 90)%N -> spells s t -> spells (c + 32 :: s)%N (c :: t).
(* The literal at a position *)
Definition literal_at (lits : list text) (i : nat) (l : text) : Prop := nth_error lits i = Some l.
(* The text of an array of character literals *)
Inductive spelled_by (lits : list text) : list nat -> text -> Prop :=
| spelled_nil : spelled_by lits [] []
| spelled_cons i is c s : literal_at lits i (quote c) -> spelled_by lits is s -> spelled_by lits (i :: is) (c :: s).
(* No literal occurs twice, and only character literals start with an apostrophe *)
Definition proper (lits : list text) : Prop :=
  NoDup lits /\ forall l, In l lits -> (exists c, l = quote c) \/ hd 0%N l <> 39%N.
(* The same letter, or the first in lower case and the second in upper case, in Latin-1 *)
Definition case_of (a b : N) : Prop :=
  a = b \/ (((97 <= a <= 122)%N \/ ((224 <= a <= 254)%N /\ a <> 247%N)) /\ b = (a - 32)%N).
