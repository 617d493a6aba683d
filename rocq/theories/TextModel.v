(* Model of T'IMAGE and T'VALUE for scalar types: lib/nvc/text_util-body.vhd and the code
   generated by src/lower.c:8407-8504 and 8812-9169.

   A string is the list of its character codes; a position in it is the list of the
   characters from there on.  [None] is an error reported to the user that ends the
   simulation: an assertion of severity failure, a bounds or index error, an overflow of
   T_INT64 (a trapping operation, ArithModel).  The counters POS, NUM_DIGITS and USED are
   naturals and do not overflow. *)
From Coq Require Import List ZArith Arith Bool.
From Verif Require Import Base JitModel.
Import ListNotations.
Local Open Scope Z_scope.

Notation "'let?' x := e 'in' f" :=
  (match e with Some x => f | None => None end)
  (at level 200, x pattern, right associativity).

(* toupper: lib/nvc/text_util-body.vhd:152-160 *)
Definition toupper (c : Z) : Z := if (97 <=? c) && (c <=? 122) then c - 32 else c.

(* isspace: lib/nvc/text_util-body.vhd:162-166; the last character is 0xa0 *)
Definition isspace (c : Z) : bool :=
  (c =? 32) || (c =? 9) || (c =? 10) || (c =? 11) || (c =? 12) || (c =? 13) || (c =? 160).

(* isdigit: lib/nvc/text_util-body.vhd:168-172 *)
Definition isdigit (c : Z) : bool := (48 <=? c) && (c <=? 57).

(* canon_value: lib/nvc/text_util-body.vhd:174-197 *)
Fixpoint canon_loop (s : list Z) (upcase : bool) : list Z :=
  match s with
  | [] => []
  | c :: s =>
      if isspace c then canon_loop s upcase
      else
        let upcase := if c =? 39 then negb upcase else upcase in
        (if upcase then toupper c else c) :: canon_loop s upcase
  end.
Definition canon_value (s : list Z) : list Z := canon_loop s true.

(* The loop over white space, lib/nvc/text_util-body.vhd:213-215 and 288-290 *)
Fixpoint skip_space (s : list Z) : list Z :=
  match s with
  | c :: t => if isspace c then skip_space t else s
  | [] => []
  end.

(* Trapping arithmetic of T_INT64 *)
Definition t64 (x : Z) : option Z :=
  if (- 2 ^ 63 <=? x) && (x <? 2 ^ 63) then Some x else None.

(* The loop over the digits, lib/nvc/text_util-body.vhd:222-239: the result, the number of
   digits, the rest of the string. *)
Fixpoint digit_loop (s : list Z) (is_negative : bool) (result : Z) (num_digits : nat)
  : option (Z * nat * list Z) :=
  match s with
  | [] => Some (result, num_digits, [])
  | c :: t =>
      if isdigit c || (c =? 95) then
        if negb (c =? 95) then
          let d := c - 48 in
          let? ten := t64 (result * 10) in
          let? r := (if 0 <=? result then t64 (ten + d) else t64 (ten - d)) in
          if is_negative && (0 <? r) then
            let? r := t64 (- r) in digit_loop t false r (S num_digits)
          else digit_loop t is_negative r (S num_digits)
        else digit_loop t is_negative result num_digits
      else Some (result, num_digits, s)
  end.

(* string_to_int, the procedure: lib/nvc/text_util-body.vhd:199-246; the rest of the string
   stands for USED. *)
Definition scan_int (s : list Z) : option (Z * list Z) :=
  let s := skip_space s in
  let '(is_negative, s) :=
    match s with c :: t => if c =? 45 then (true, t) else (false, s) | [] => (false, s) end in
  let? (result, num_digits, rest) := digit_loop s is_negative 0 0 in
  match num_digits with O => None | S _ => Some (result, rest) end.

(* string_to_int, the function: lib/nvc/text_util-body.vhd:248-263 *)
Definition string_to_int (s : list Z) : option Z :=
  let? (value, rest) := scan_int s in
  if forallb isspace rest then Some value else None.

(* The loop of int_to_string, lib/nvc/text_util-body.vhd:429-434: [pos] places of the
   buffer are left; POS is a positive, so that filling the first place is an error. *)
Fixpoint image_loop (pos : nat) (tmp : Z) (buf : list Z) : option (nat * list Z) :=
  match pos with
  | O | S O => None
  | S pos =>
      let buf := (48 + Z.abs (Z.rem tmp 10)) :: buf in
      let tmp := Z.quot tmp 10 in
      if tmp =? 0 then Some (pos, buf) else image_loop pos tmp buf
  end.

(* int_to_string: lib/nvc/text_util-body.vhd:423-440 *)
Definition int_to_string (x : Z) : option (list Z) :=
  let? (pos, buf) := image_loop 32 x [] in
  if x <? 0 then
    match pos with O | S O => None | S _ => Some (45 :: buf) end
  else Some buf.

(* lower_check_scalar_bounds for a type with bounds [low] to [high] *)
Definition check_bounds (low high x : Z) : option Z :=
  if (low <=? x) && (x <=? high) then Some x else None.

(* lower_numeric_image_helper and lower_numeric_value_helper for integers:
   src/lower.c:8480-8504, 9136-9169 *)
Definition integer_image_fn (x : Z) : option (list Z) := int_to_string x.
Definition integer_value (low high : Z) (s : list Z) : option Z :=
  let? v := string_to_int s in check_bounds low high v.

(* tolower_iso88591 and ident_downcase: src/util.c:1151-1163, src/ident.c:647-665 *)
Definition tolower (c : Z) : Z :=
  if ((65 <=? c) && (c <=? 90)) || ((192 <=? c) && (c <=? 222) && negb (c =? 215))
  then c + 32 else c.
Definition downcase (n : list Z) : list Z := map tolower n.

(* The tables of names: src/lower.c:8832-8859, 9008-9045 *)
Definition stride (names : list (list Z)) : nat :=
  fold_left (fun m n => Nat.max m (length n)) names 0%nat.
Definition len_array (names : list (list Z)) : list nat := map (@length Z) names.
Definition char_array (names : list (list Z)) : list Z :=
  flat_map (fun n => n ++ repeat 0 (stride names - length n)) names.

Fixpoint same_string (s t : list Z) : bool :=
  match s, t with
  | [], [] => true
  | c :: s, d :: t => (c =? d) && same_string s t
  | _, _ => false
  end.

(* The search of the name: src/lower.c:8870-8911, 9056-9097.  [n] names are left. *)
Fixpoint search (names : list (list Z)) (canon : list Z) (n i : nat) : option nat :=
  match n with
  | O => None
  | S n =>
      match nth_error (len_array names) i with
      | None => None
      | Some len =>
          if Nat.eqb len (length canon) &&
             same_string (firstn len (skipn (i * stride names) (char_array names))) canon
          then Some i
          else search names canon n (i + 1)
      end
  end.

(* lower_enum_image_helper: src/lower.c:8407-8435 *)
Definition enum_image (names : list (list Z)) (i : nat) : option (list Z) :=
  match nth_error names i with
  | None => nth_error names 0
  | Some n => match n with
              | c :: _ => if c =? 39 then Some n else Some (downcase n)
              | [] => Some (downcase n)
              end
  end.

(* lower_enum_value_helper: src/lower.c:8812-8945; the bounds of the base type are those of
   its literals *)
Definition enum_value (names : list (list Z)) (s : list Z) : option nat :=
  let? i := search names (canon_value s) (length names) 0 in
  if Nat.ltb i (length names) then Some i else None.

(* lower_physical_image_helper: src/lower.c:8437-8478 *)
Definition physical_image (units : list (list Z * Z)) (x : Z) : option (list Z) :=
  let? num := int_to_string x in
  match units with
  | (unit0, _) :: _ => Some (num ++ 32 :: downcase unit0)
  | [] => None
  end.

(* lower_physical_value_helper: src/lower.c:8947-9134; the multiplication does not trap *)
Definition physical_value (units : list (list Z * Z)) (low high : Z) (s : list Z)
  : option Z :=
  let? (int, tail) := scan_int s in
  let? i := search (map fst units) (canon_value tail) (length units) 0 in
  let? mul := nth_error (map snd units) i in
  check_bounds low high (wrap (int * mul)).

(* string_to_real: lib/nvc/text_util-body.vhd:267-415.  Only the integers that control the
   floating-point operations are modelled: the sign, the mantissa (1.0e9 * FRAC1 + FRAC2),
   whether it is divided or multiplied, and by which power.  FRAC1, FRAC2 and EXP do not
   overflow unless the string has more than 2^31 - 512 characters or the exponent, which
   is an error below, is larger. *)

(* 299-311: the characters of the mantissa *)
Fixpoint mant_loop (s : list Z) (mant_size dec_pt : Z) : Z * Z * list Z :=
  match s with
  | [] => (mant_size, dec_pt, [])
  | c :: t =>
      if isdigit c then mant_loop t (mant_size + 1) dec_pt
      else if negb (c =? 46) || (0 <=? dec_pt) then (mant_size, dec_pt, s)
      else mant_loop t (mant_size + 1) mant_size
  end.

(* 331-341 and 342-352: the loops that collect [n] digits *)
Fixpoint collect (n : nat) (s : list Z) (acc : Z) : option (Z * list Z) :=
  match n with
  | O => Some (acc, s)
  | S n =>
      match s with
      | [] => None
      | c :: t =>
          if c =? 46 then
            match t with
            | [] => None
            | c :: t => collect n t (10 * acc + (c - 48))
            end
          else collect n t (10 * acc + (c - 48))
      end
  end.

(* 366-369: CHAR is not read again in the loop *)
Fixpoint exp_loop (s : list Z) (char : Z) (exp : Z) : Z * list Z :=
  match s with
  | [] => (exp, [])
  | _ :: t => if isdigit char then exp_loop t char (exp * 10 + (char - 48)) else (exp, s)
  end.

(* 355-370 *)
Definition scan_exp (s : list Z) : option (bool * Z * list Z) :=
  match s with
  | c :: t =>
      if (c =? 69) || (c =? 101) then
        match t with
        | [] => None
        | c :: t' =>
            let '(exp_sign, t) :=
              if c =? 45 then (true, t') else if c =? 43 then (false, t') else (false, t) in
            match t with
            | [] => None
            | char :: _ => let '(exp, rest) := exp_loop t char 0 in Some (exp_sign, exp, rest)
            end
        end
      else Some (false, 0, s)
  | [] => Some (false, 0, [])
  end.

(* 389-396: the product of the powers of ten, exactly *)
Definition powers_of_10 : list Z :=
  [10; 10 ^ 2; 10 ^ 4; 10 ^ 8; 10 ^ 16; 10 ^ 32; 10 ^ 64; 10 ^ 128; 10 ^ 256].
Fixpoint scale_loop (ps : list Z) (exp : Z) (dbl_exp : Z) : Z :=
  match ps with
  | [] => dbl_exp
  | p :: ps =>
      if exp =? 0 then dbl_exp
      else scale_loop ps (exp / 2) (if exp mod 2 =? 1 then dbl_exp * p else dbl_exp)
  end.

Record real_parts := RP { rp_neg : bool; rp_mant : Z; rp_divide : bool; rp_scale : Z }.

Definition string_to_real (s : list Z) : option real_parts :=
  match skip_space s with
  | [] => None
  | c :: t =>
      let '(sign, s) :=
        if c =? 45 then (true, t) else if c =? 43 then (false, t) else (false, c :: t) in
      let '(mant_size, dec_pt, rest) := mant_loop s 0 (-1) in
      let '(dec_pt, mant_size) :=
        if dec_pt <? 0 then (mant_size, mant_size) else (dec_pt, mant_size - 1) in
      let '(frac_exp, mant_size) :=
        if 18 <? mant_size then (dec_pt - 18, 18) else (dec_pt - mant_size, mant_size) in
      if negb (0 <? mant_size) then None
      else
        let? (frac1, s1) := collect (Z.to_nat (mant_size - 9)) s 0 in
        let? (frac2, _) := collect (Z.to_nat (Z.min mant_size 9)) s1 0 in
        let? (exp_sign, exp, rest) := scan_exp rest in
        let exp := if exp_sign then frac_exp - exp else frac_exp + exp in
        let '(exp_sign, exp) := if exp <? 0 then (true, - exp) else (false, exp) in
        if negb (exp <=? 511) then None
        else if forallb isspace rest then
          Some (RP sign (10 ^ 9 * frac1 + frac2) exp_sign
                   (scale_loop powers_of_10 exp 1))
        else None
  end.
