(* Model of parse_value: src/common.c:256-400.  Strings are lists of the characters before the NUL. *)
From Coq Require Import List NArith ZArith Bool.
From Verif Require Import Base IdentModel PvalSpec.
Import ListNotations.
Local Open Scope N_scope.

(* isspace_iso88591, isdigit_iso88591: src/util.c:1166-1175 *)
Definition isspace (c : N) : bool :=
  (c =? 32) || (c =? 9) || (c =? 10) || (c =? 11) || (c =? 12) || (c =? 13) || (c =? 160).
Definition isdigit (c : N) : bool := (48 <=? c) && (c <=? 57).
(* while (isspace_iso88591( *str)) ++str: src/common.c:308-309 *)
Fixpoint skip_space (s : text) : text :=
  match s with c :: t => if isspace c then skip_space t else s | [] => [] end.
(* The loop at the end: src/common.c:392-395 *)
Definition only_space (s : text) : bool := forallb isspace s.

(* Integers: src/common.c:312-332.  Overflow of a signed number is a fault. *)
Definition checked (v : Z) : res Z := if (- 2 ^ 63 <=? v)%Z && (v <? 2 ^ 63)%Z then Ok v else Fault.
Fixpoint scan_digits (s : text) (sum : Z) (num : nat) : res (Z * nat * text) :=
  match s with
  | c :: t =>
    if isdigit c || (c =? 95) then
      if negb (c =? 95) then
        do! a <- checked (sum * 10);
        do! b <- checked (a + (Z.of_N c - 48));
        scan_digits t b (S num)
      else scan_digits t sum num
    else Ok (sum, num, s)
  | [] => Ok (sum, num, s)
  end.
Definition parse_integer (s : text) : res (option Z) :=
  let s := skip_space s in
  let is_negative := match s with c :: _ => c =? 45 | [] => false end in
  let s := if is_negative then tl s else s in
  do! (sum, num, rest) <- scan_digits s 0%Z 0%nat;
  match num with
  | O => Ok None
  | _ => if only_space rest then Ok (Some (if is_negative then - sum else sum)%Z) else Ok None
  end.

(* Enumeration literals: src/common.c:334-362.  The word ends at the first space; upper case up
   to the first quote. *)
Fixpoint up_word (s : text) (upcase : bool) : text * text :=
  match s with
  | c :: t =>
    if isspace c then ([], s)
    else
      let upcase := upcase && negb (c =? 39) in
      let '(w, rest) := up_word t upcase in
      ((if upcase then toupper_iso88591 c else c) :: w, rest)
  | [] => ([], [])
  end.
Fixpoint text_eqb (a b : text) : bool :=
  match a, b with
  | [], [] => true
  | x :: a, y :: b => (x =? y) && text_eqb a b
  | _, _ => false
  end.
Fixpoint find_lit (w : text) (lits : list text) (i : nat) : option nat :=
  match lits with
  | [] => None
  | l :: r => if text_eqb l w then Some i else find_lit w r (S i)
  end.
(* ident_new asserts that the string is not empty: src/ident.c:297 *)
Definition new_ident (w : text) : res text := match w with [] => Fault | _ => Ok w end.
Definition parse_enum (lits : list text) (s : text) : res (option nat) :=
  let '(w, rest) := up_word (skip_space s) true in
  do! id <- new_ident w;
  match find_lit id lits 0 with
  | None => Ok None
  | Some i => if only_space rest then Ok (Some i) else Ok None
  end.

(* Arrays of characters: src/common.c:261-306.  [map] is filled in order, so a later literal wins. *)
Fixpoint char_map (lits : list text) (i : nat) (c : N) : option nat :=
  match lits with
  | [] => None
  | l :: r =>
    match char_map r (S i) c with
    | Some j => Some j
    | None => match l with q :: d :: _ => if (q =? 39) && (d =? c) then Some i else None | _ => None end
    end
  end.
Fixpoint skip_unmapped (map : N -> option nat) (s : text) : text :=
  match s with
  | c :: t => match map c with None => if isspace c then skip_unmapped map t else s | Some _ => s end
  | [] => []
  end.
(* The values are kept in a uint8_t: src/common.h:107-110 *)
Fixpoint take_mapped (map : N -> option nat) (s : text) : list nat * text :=
  match s with
  | c :: t => match map c with
              | Some i => let '(vs, rest) := take_mapped map t in ((i mod 256)%nat :: vs, rest)
              | None => ([], s)
              end
  | [] => ([], [])
  end.
(* [subtype]: the element type is a subtype, which has no literals of its own: type_enum_literals
   ends in object_lookup_failed, src/type.c:406-410, src/object.h:109-122 *)
Definition parse_chars (subtype : bool) (lits : list text) (s : text) : res (option (list nat)) :=
  if subtype then Fault
  else
    let map := char_map lits 0 in
    let s := skip_unmapped map s in
    let quoted := match map 34, s with None, c :: _ => c =? 34 | _, _ => false end in
    let s := if quoted then tl s else s in
    let '(vs, rest) := take_mapped map s in
    if quoted then
      match rest with
      | c :: rest => if c =? 34 then if only_space rest then Ok (Some vs) else Ok None else Ok None
      | [] => Ok None
      end
    else if only_space rest then Ok (Some vs) else Ok None.

(* Reals and physical values: src/common.c:364-390.  [strtod] is the function of the C library,
   and gives its start if there is no number there; numbers are whole here. *)
Definition parse_real (strtod : text -> Z * text) (s : text) : res (option Z) :=
  let '(v, rest) := strtod (skip_space s) in
  if only_space rest then Ok (Some v) else Ok None.
Fixpoint up_unit (s : text) : text * text :=
  match s with
  | c :: t => if isspace c then ([], s) else let '(w, rest) := up_unit t in (toupper_iso88591 c :: w, rest)
  | [] => ([], [])
  end.
Fixpoint find_unit (w : text) (units : list (text * Z)) : option Z :=
  match units with
  | [] => None
  | (u, v) :: r => if text_eqb u w then Some v else find_unit w r
  end.
Definition parse_physical (strtod : text -> Z * text) (units : list (text * Z)) (s : text) : res (option Z) :=
  let '(scale, rest) := strtod (skip_space s) in
  let '(w, rest) := up_unit (skip_space rest) in
  match w with
  | [] => Ok None
  | _ =>
    let integer := match find_unit w units with Some v => (scale * v)%Z | None => (-1)%Z end in
    if (integer =? -1)%Z then Ok None
    else if only_space rest then Ok (Some integer) else Ok None
  end.
