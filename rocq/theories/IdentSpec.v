(* What the operations on identifiers mean. *)
From Coq Require Import List NArith ZArith.
From Verif Require Import Base AdlerModel AdlerSpec FbufModel FbufSpec IdentModel.
Import ListNotations.
Local Open Scope N_scope.

(* A pattern: '*' (42) stands for any non-empty string, other characters for
   themselves. *)
Fixpoint matches (pattern s : bytes) : Prop :=
  match pattern with
  | [] => s = []
  | c :: p' =>
    if c =? 42 then exists w r, w <> [] /\ s = w ++ r /\ matches p' r
    else exists r, s = c :: r /\ matches p' r
  end.

(* One insertion, deletion or replacement of a character. *)
Inductive edit : bytes -> bytes -> Prop :=
| edit_insert : forall a b x, edit (a ++ b) (a ++ x :: b)
| edit_delete : forall a b x, edit (a ++ x :: b) (a ++ b)
| edit_replace : forall a b x y, edit (a ++ x :: b) (a ++ y :: b).
Fixpoint edits (n : nat) (a b : bytes) : Prop :=
  match n with
  | O => a = b
  | S n' => exists m, edit a m /\ edits n' m b
  end.
(* The least number of edits that leads from a to b. *)
Definition least_edits (a b : bytes) (n : nat) : Prop :=
  edits n a b /\ forall k, edits k a b -> (n <= k)%nat.

(* A part of a selected name: plain characters, '...' and \...\ in any order.
   46 is the dot, 39 the apostrophe and 92 the backslash. *)
Inductive item :=
| Plain (c : N)
| Quoted (s : bytes)
| Extended (s : bytes).
Definition item_ok (i : item) : Prop :=
  match i with
  | Plain c => c <> 46 /\ c <> 39 /\ c <> 92
  | Quoted s => ~ In 39 s
  | Extended s => ~ In 92 s
  end.
Definition item_bytes (i : item) : bytes :=
  match i with Plain c => [c] | Quoted s => [39] ++ s ++ [39] | Extended s => [92] ++ s ++ [92] end.
Definition part (p : bytes) : Prop :=
  exists is, Forall item_ok is /\ p = concat (map item_bytes is).
(* The selected name with the given parts. *)
Fixpoint dotted (ps : list bytes) : bytes :=
  match ps with [] => [] | [p] => p | p :: ps' => p ++ [46] ++ dotted ps' end.

(* What a user writes to a context, in order. *)
Fixpoint written (k : nat) (os : list wop) : list datum :=
  match os with
  | [] => []
  | WPut j d :: os' => if Nat.eqb j k then d :: written k os' else written k os'
  | WBegin :: os' => written k os'
  end.
Fixpoint begun (os : list wop) : nat :=
  match os with [] => O | WBegin :: os' => S (begun os') | _ :: os' => begun os' end.
(* Operations that name a context that exists. *)
Fixpoint well_formed (n : nat) (os : list wop) : Prop :=
  match os with
  | [] => True
  | WBegin :: os' => well_formed (S n) os'
  | WPut k _ :: os' => (k < n)%nat /\ well_formed n os'
  end.
(* A datum that can be stored: an identifier that is not empty, has no NUL and at
   most 60 KiB; a field in its range. *)
Definition storable (d : datum) : Prop :=
  match d with
  | DIdent None => True
  | DIdent (Some s) => s <> [] /\ Forall (fun c => 0 < c < 256) s /\ N.of_nat (length s) <= 61440
  | DField x => in_range x
  end.
(* The matching request. *)
Definition request_of (d : datum) : request :=
  match d with DIdent _ => RIdent | DField x => RField (kind_of x) end.

(* The upper case of a character of ISO 8859-1: the letters A-Z and the accented
   letters of the upper half, without the division sign and y with diaeresis. *)
Definition same_letter (x y : N) : Prop :=
  x = y \/ exists lo up, (lo = x /\ up = y \/ lo = y /\ up = x) /\ lo = up + 32 /\
    (65 <= up <= 90 \/ 192 <= up <= 222 /\ up <> 215).
Definition same_but_for_case (a b : bytes) : Prop := Forall2 same_letter a b.

(* Reading back a file written through a context. *)
Definition reread_data (c : codec) (a : algo) (qs : list request) (file : list N) : res (list datum * list N * N) :=
  do! (data, cs, expect) <- fbuf_open_in c a file;
  do! (l, _, rest) <- read_data qs rstart data;
  do! sum <- fbuf_close_in a cs expect;
  Ok (l, rest, sum).
