(* String representations of records and arrays (IEEE 1076-2019, 5.7 and 16.2).  Types carry the
   image and the value function of their scalars.  Nothing here refers to the model. *)
From Coq Require Import List NArith Bool.
From Verif Require Import PvalSpec.
Import ListNotations.
Local Open Scope N_scope.

Inductive ty (A : Type) :=
| TScalar (img : A -> text) (parse : text -> option A)
| TChars (len : option nat) (lits : list text)      (* array of an enumeration type with character literals *)
| TArray (len : option nat) (elem : ty A)           (* [len]: of a constrained array *)
| TRecord (fields : list (ty A)).
Arguments TScalar {A}. Arguments TChars {A}. Arguments TArray {A}. Arguments TRecord {A}.
Inductive value (A : Type) :=
| Scalar (a : A)
| Chars (ps : list nat)       (* positions of the literals *)
| Comp (vs : list (value A)).
Arguments Scalar {A}. Arguments Chars {A}. Arguments Comp {A}.

Fixpoint join (ss : list text) : text :=
  match ss with
  | [] => []
  | [s] => s
  | s :: r => s ++ 44 :: join r
  end.
Definition parens (ss : list text) : text := 40 :: join ss ++ [41].

(* The representation that T'IMAGE is to give *)
Inductive written {A} : ty A -> value A -> text -> Prop :=
| written_scalar img p a : written (TScalar img p) (Scalar a) (img a)
| written_chars n lits ps t : spelled_by lits ps t -> written (TChars n lits) (Chars ps) (34 :: t ++ [34])
| written_array n e vs ss : all_written (map (fun _ => e) vs) vs ss -> written (TArray n e) (Comp vs) (parens ss)
| written_record fs vs ss : all_written fs vs ss -> written (TRecord fs) (Comp vs) (parens ss)
with all_written {A} : list (ty A) -> list (value A) -> list text -> Prop :=
| written_nil : all_written [] [] []
| written_cons t ts v vs s ss : written t v s -> all_written ts vs ss -> all_written (t :: ts) (v :: vs) (s :: ss).
Scheme written_ind2 := Induction for written Sort Prop
  with all_written_ind2 := Induction for all_written Sort Prop.

(* Texts that T'VALUE is to take for a value: spaces are allowed around each part; scalars and
   strings without parentheses and commas *)
Definition spaces (s : text) : Prop := forall c, In c s -> c = 32.
Definition plain (s : text) : Prop := forall c, In c s -> c <> 40 /\ c <> 41 /\ c <> 44.
Definition fits {A} (t : ty A) (v : value A) : Prop :=
  match t, v with
  | TArray (Some n) _, Comp vs => length vs = n
  | TChars (Some n) _, Chars ps => length ps = n
  | _, _ => True
  end.
Inductive reads {A} : ty A -> value A -> text -> Prop :=
| reads_scalar img p a s : p s = Some a -> plain s -> reads (TScalar img p) (Scalar a) s
| reads_chars n lits ps l t r : spelled_by lits ps t -> plain t -> spaces l -> spaces r ->
    t <> [] -> hd 0 t <> 32 -> last t 0 <> 32 -> reads (TChars n lits) (Chars ps) (l ++ t ++ r)
| reads_array n e vs ss l r : vs <> [] -> spaces l -> spaces r -> all_reads (map (fun _ => e) vs) vs ss ->
    reads (TArray n e) (Comp vs) (l ++ parens ss ++ r)
| reads_record fs vs ss l r : vs <> [] -> spaces l -> spaces r -> all_reads fs vs ss -> Forall2 fits fs vs ->
    reads (TRecord fs) (Comp vs) (l ++ parens ss ++ r)
with all_reads {A} : list (ty A) -> list (value A) -> list text -> Prop :=
| reads_nil : all_reads [] [] []
| reads_cons t ts v vs s ss : reads t v s -> all_reads ts vs ss -> all_reads (t :: ts) (v :: vs) (s :: ss).
Scheme reads_ind2 := Induction for reads Sort Prop
  with all_reads_ind2 := Induction for all_reads Sort Prop.

(* Texts that are taken at most: as above, with either a comma or a closing parenthesis after each
   part but the last, and any text behind the closing parenthesis *)
Fixpoint pieces (ps : list (text * N)) : text :=
  match ps with
  | [] => []
  | (s, d) :: r => s ++ d :: pieces r
  end.
Definition closed (ps : list (text * N)) : Prop :=
  last (map snd ps) 0 = 41 /\ Forall (fun p => snd p = 44 \/ snd p = 41) ps.
Inductive loosely {A} : ty A -> value A -> text -> Prop :=
| loosely_scalar img p a s : p s = Some a -> loosely (TScalar img p) (Scalar a) s
| loosely_chars n lits vs l t r : spelled_by lits vs t -> spaces l -> spaces r -> loosely (TChars n lits) (Chars vs) (l ++ t ++ r)
| loosely_array n e vs l ps rest : spaces l -> closed ps -> all_loosely (map (fun _ => e) vs) vs (map fst ps) ->
    loosely (TArray n e) (Comp vs) (l ++ 40 :: pieces ps ++ rest)
| loosely_record fs vs l ps rest : spaces l -> closed ps -> all_loosely fs vs (map fst ps) -> Forall2 fits fs vs ->
    loosely (TRecord fs) (Comp vs) (l ++ 40 :: pieces ps ++ rest)
with all_loosely {A} : list (ty A) -> list (value A) -> list text -> Prop :=
| loosely_nil : all_loosely [] [] []
| loosely_cons t ts v vs s ss : loosely t v s -> all_loosely ts vs ss -> all_loosely (t :: ts) (v :: vs) (s :: ss).
