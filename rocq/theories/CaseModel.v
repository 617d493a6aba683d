(* Case statements: the check that the choices cover every value (src/bounds.c
   420-559, 999-1238), the code generated for them (lower_case_scalar and
   lower_case_array, src/lower.c 6732-7107, and macro_case through irgen_op_case,
   src/jit/jit-irgen.c 2253-2269) and their removal when the expression is constant
   (src/simp.c 890-962). *)

From Coq Require Import ZArith List Bool.
From Verif Require Import Base.
Import ListNotations.
Local Open Scope Z_scope.

Definition INT64_MIN : Z := - 2 ^ 63.
Definition INT64_MAX : Z := 2 ^ 63 - 1.

(* Signed arithmetic in C: an overflow is undefined, and a fault here. *)
Definition int64 (z : Z) : res Z := if (INT64_MIN <=? z) && (z <=? INT64_MAX) then Ok z else Fault.

(* The conversion to int in `missing += ...`. *)
Definition to_int (z : Z) : Z := (z + 2 ^ 31) mod 2 ^ 32 - 2 ^ 31.

(* ---- scalar expressions ---- *)

(* A_OTHERS, A_NAMED and A_RANGE with folded bounds; `up` is RANGE_TO. *)
Inductive choice := Others | Named (v : Z) | Range (up : bool) (lf rt : Z).

(* The alternatives with their choices. *)
Definition stmt : Type := list (list choice).

Inductive report :=
  | Outside (v : Z)                      (* "case choice index %s outside of %s range" *)
  | Covered (low high : Z)               (* "range %s to %s is already covered" *)
  | Missing (gaps : list (Z * Z)).       (* "missing choices for elements ..." *)

(* bounds_cover_choice, 420-474; the list is that of interval_t, 32-38. *)
Fixpoint cover_choice (l : list (Z * Z)) (low high : Z) : res (list (Z * Z) * list report) :=
  match l with
  | [] => Ok ([(low, high)], [])
  | (ilow, ihigh) :: rest =>
      if ilow <=? high then
        if (low <=? ihigh) && (ilow <=? high)
        then Ok ((Z.min low ilow, Z.max high ihigh) :: rest,
                 [Covered (Z.max low ilow) (Z.min high ihigh)])
        else
          do! before <- int64 (ilow - 1);
          if high =? before then Ok ((low, ihigh) :: rest, [])
          else
            do! after <- int64 (ihigh + 1);
            if low =? after then Ok ((ilow, high) :: rest, [])
            else do! (rest, e) <- cover_choice rest low high; Ok ((ilow, ihigh) :: rest, e)
      else Ok ((low, high) :: l, [])
  end.

(* 500-504 and 524-532: the count and the intervals that are printed. *)
Fixpoint walk_covered (l : list (Z * Z)) (walk missing : Z) : res (Z * Z * list (Z * Z)) :=
  match l with
  | [] => Ok (walk, missing, [])
  | (ilow, ihigh) :: rest =>
      do! (missing, gap) <-
        (if ilow =? walk then Ok (missing, [])
         else do! d <- int64 (ilow - walk);
              do! s <- int64 (missing + d);
              do! e <- int64 (ilow - 1);
              Ok (to_int s, [(walk, e)]));
      do! walk <- int64 (ihigh + 1);
      do! (walk, missing, gaps) <- walk_covered rest walk missing;
      Ok (walk, missing, gap ++ gaps)
  end.

(* bounds_check_missing_choices, 491-559.  pedantic_diag gives an error unless
   relaxed rules were asked for. *)
Definition missing_choices (tlow thigh : Z) (covered : list (Z * Z)) : res (list report) :=
  do! (walk, missing, gaps) <- walk_covered covered tlow 0;
  do! end_ <- int64 (thigh + 1);
  do! (missing, gap) <-
    (if walk =? end_ then Ok (missing, [])
     else do! d <- int64 (end_ - walk);
          do! s <- int64 (missing + d);
          Ok (to_int s, [(walk, thigh)]));
  if missing =? 0 then Ok [] else Ok [Missing (gaps ++ gap)].

(* bounds_check_index, 277-293, for a folded index: the reports, none of them when it
   returns true. *)
Definition check_index (tlow thigh v : Z) : list report :=
  if negb ((tlow <=? v) && (v <=? thigh)) && (tlow <=? thigh) then [Outside v] else [].

Definition low_of (up : bool) (lf rt : Z) : Z := if up then lf else rt.
Definition high_of (up : bool) (lf rt : Z) : Z := if up then rt else lf.

(* The body of the loop over the choices, 1028-1073.  After an index outside of the
   range, which sets have_others, nothing is covered any more. *)
Definition check_choice (tlow thigh : Z) (c : choice) (have_others : bool) (covered : list (Z * Z))
    : res (bool * list (Z * Z) * list report) :=
  match c with
  | Others => Ok (true, covered, [])
  | Named v =>
      match check_index tlow thigh v with
      | [] => if have_others then Ok (true, covered, [])
              else do! (covered, e) <- cover_choice covered v v; Ok (false, covered, e)
      | e => Ok (true, covered, e)
      end
  | Range up lf rt =>
      let e := check_index tlow thigh lf ++ check_index tlow thigh rt in
      let have_others := have_others || match e with [] => false | _ => true end in
      if have_others then Ok (true, covered, e)
      else do! (covered, e') <- cover_choice covered (low_of up lf rt) (high_of up lf rt);
           Ok (false, covered, e ++ e')
  end.

Fixpoint check_choices (tlow thigh : Z) (l : list choice) (have_others : bool) (covered : list (Z * Z))
    : res (bool * list (Z * Z) * list report) :=
  match l with
  | [] => Ok (have_others, covered, [])
  | c :: rest =>
      do! (have_others, covered, e1) <- check_choice tlow thigh c have_others covered;
      do! (have_others, covered, e2) <- check_choices tlow thigh rest have_others covered;
      Ok (have_others, covered, e1 ++ e2)
  end.

(* bounds_check_scalar_case, 999-1082, not matching, for a type whose bounds tlow and
   thigh are folded. *)
Definition check_scalar_case (tlow thigh : Z) (s : stmt) : res (list report) :=
  do! (have_others, covered, e1) <- check_choices tlow thigh (concat s) false [];
  if have_others then Ok e1
  else do! e2 <- missing_choices tlow thigh covered; Ok (e1 ++ e2).

(* lower_case_scalar, 6732-6866: first the tests for the ranges (6744-6787), then the
   case operation with the names (6794-6864).  The number is that of the alternative
   whose statements run. *)
Record scalar_code := ScalarCode {
  sc_ranges : list (Z * Z * nat); sc_cases : list (Z * nat); sc_def : option nat }.

Fixpoint alt_ranges (k : nat) (l : list choice) : list (Z * Z * nat) :=
  match l with
  | [] => []
  | Range up lf rt :: rest => (low_of up lf rt, high_of up lf rt, k) :: alt_ranges k rest
  | _ :: rest => alt_ranges k rest
  end.

Fixpoint ranges_from (k : nat) (s : stmt) : list (Z * Z * nat) :=
  match s with [] => [] | l :: rest => alt_ranges k l ++ ranges_from (S k) rest end.

(* 6800-6844; the assertion of 6818. *)
Fixpoint alt_cases (k : nat) (l : list choice) (def : option nat) : res (list (Z * nat) * option nat) :=
  match l with
  | [] => Ok ([], def)
  | Range _ _ _ :: rest => alt_cases k rest def
  | Others :: rest => match def with Some _ => Fault | None => alt_cases k rest (Some k) end
  | Named v :: rest => do! (c, def) <- alt_cases k rest def; Ok ((v, k) :: c, def)
  end.

Fixpoint cases_from (k : nat) (s : stmt) (def : option nat) : res (list (Z * nat) * option nat) :=
  match s with
  | [] => Ok ([], def)
  | l :: rest =>
      do! (c1, def) <- alt_cases k l def;
      do! (c2, def) <- cases_from (S k) rest def;
      Ok (c1 ++ c2, def)
  end.

Definition lower_case_scalar (s : stmt) : res scalar_code :=
  do! (cases, def) <- cases_from 0 s None; Ok (ScalarCode (ranges_from 0 s) cases def).

(* Execution: each range test in turn, then the comparisons of the case operation in
   turn (emit_case, src/vcode.c 5350-5388, and mir_build_case, src/mir/mir-node.c
   1851-1890, replace it by a jump to the same block when the value is constant), then
   the default; None is the block behind the statement. *)
Definition run_scalar (c : scalar_code) (v : Z) : option nat :=
  match find (fun r => (fst (fst r) <=? v) && (v <=? snd (fst r))) (sc_ranges c) with
  | Some r => Some (snd r)
  | None =>
      match find (fun p => fst p =? v) (sc_cases c) with
      | Some p => Some (snd p)
      | None => sc_def c
      end
  end.

(* simp_match_case_choice, 890-919: there is no break at the end of A_RANGE. *)
Fixpoint match_choices (l : list choice) (ival : Z) : bool :=
  match l with
  | [] => false
  | Named v :: rest => if ival =? v then true else match_choices rest ival
  | Range up lf rt :: _ =>
      if (low_of up lf rt <=? ival) && (ival <=? high_of up lf rt) then true else true
  | Others :: _ => true
  end.

(* simp_case, 921-962, and simp_case_generate, 964-1008, for a constant expression:
   the alternative that replaces the statement, None when there is none.  The
   collection of drivers is left out. *)
Fixpoint simp_from (k : nat) (s : stmt) (ival : Z) : option nat :=
  match s with
  | [] => None
  | l :: rest => if match_choices l ival then Some k else simp_from (S k) rest ival
  end.

Definition simp_case (s : stmt) (ival : Z) : option nat := simp_from 0 s ival.

(* ---- array expressions ---- *)

(* A choice is given by the positions of its characters (get_case_choice_char,
   src/common.c 1561-1655, is not modelled here). *)
Inductive achoice := AOthers | AName (chars : list Z).

Definition astmt : Type := list (list achoice).

Inductive areport :=
  | WrongLength (expected have : Z)
  | Duplicate (chars : list Z)
  | CoverOnly (have expect : Z).

(* The conversion of a uint64_t to int64_t. *)
Definition wrap64 (z : Z) : Z := (z + 2 ^ 63) mod 2 ^ 64 - 2 ^ 63.

(* encode_case_choice, src/common.c 1657-1672. *)
Definition encode_step (bits enc c : Z) : Z :=
  if 0 <? bits then Z.lor (enc * 2 ^ bits mod 2 ^ 64) c
  else (enc * 668265261 + c) mod 2 ^ 64.

Definition encode_choice (bits : Z) (chars : list Z) : Z :=
  wrap64 (fold_left (encode_step bits) chars 0).

(* ipow_safe, src/util.c 1226-1239: the exponent loses a bit in every turn.  The
   result is None for an overflow.  After an overflow of x the product is not
   computed. *)
Fixpoint ipow_loop (fuel : nat) (x y r : Z) (overflow xo : bool) : option Z :=
  if y =? 0 then if overflow then None else Some r
  else
    match fuel with
    | O => None
    | S f =>
        let '(r, overflow) :=
          if Z.odd y then
            if xo then (r, true)
            else (wrap64 (r * x), overflow || negb (wrap64 (r * x) =? r * x))
          else (r, overflow) in
        ipow_loop f (wrap64 (x * x)) (y / 2) r overflow (xo || negb (wrap64 (x * x) =? x * x))
    end.

Definition ipow_safe (x y : Z) : option Z := ipow_loop 64 x y 1 false false.

Definition expected (elemsz length : Z) : Z :=
  match ipow_safe elemsz length with Some e => e | None => INT64_MAX end.

Fixpoint same_chars (a b : list Z) : bool :=
  match a, b with
  | [], [] => true
  | x :: a, y :: b => (x =? y) && same_chars a b
  | _, _ => false
  end.

(* 1182-1189 with bounds_check_duplicate_choice, 1084-1099. *)
Definition duplicates (seen : list (Z * list Z)) (hash : Z) (chars : list Z) : list areport :=
  flat_map (fun p => if fst p =? INT64_MAX then []
                     else if hash =? fst p
                     then if same_chars (snd p) chars then [Duplicate chars] else []
                     else []) seen.

(* The loop of 1130-1192, without matching.  The types of all choices have folded
   lengths.  Length and expect are -1 as long as they are not known; a choice of the
   wrong length ends the function. *)
Fixpoint acheck (elemsz : Z) (l : list achoice) (length expect have : Z) (seen : list (Z * list Z))
    : list areport :=
  match l with
  | [] => if (have <? expect) && negb (expect =? -1) then [CoverOnly have expect] else []
  | AOthers :: rest => acheck elemsz rest length expect expect seen
  | AName chars :: rest =>
      let n := Z.of_nat (List.length chars) in
      if length =? -1 then
        let hash := encode_choice 0 chars in
        duplicates seen hash chars ++
        acheck elemsz rest n (expected elemsz n) (have + 1) (seen ++ [(hash, chars)])
      else if negb (n =? length) then [WrongLength length n]
      else
        let hash := encode_choice 0 chars in
        duplicates seen hash chars ++
        acheck elemsz rest length expect (have + 1) (seen ++ [(hash, chars)])
  end.

(* bounds_check_array_case, 1101-1216; `known` is the length of the type of the
   expression when it is known. *)
Definition check_array_case (elemsz : Z) (known : option Z) (s : astmt) : list areport :=
  match known with
  | Some n => acheck elemsz (concat s) n (expected elemsz n) 0 []
  | None => acheck elemsz (concat s) (-1) (-1) 0 []
  end.

(* ilog2, src/util.c 1211-1224. *)
Fixpoint ilog2_loop (fuel : nat) (n r c : Z) : Z :=
  match fuel with
  | O => r
  | S f => if c <? n then ilog2_loop f n (r + 1) (c * 2) else r
  end.

Definition ilog2 (n : Z) : Z := if n <=? 1 then 0 else ilog2_loop 64 n 0 1.

(* A block of the code for an array: the statements of an alternative, a call of the
   predefined "=", or the jump to the default. *)
Inductive block := BAlt (k : nat) | BTest (name : list Z) (hit chain : block) | BFall.

Definition max_cases : Z := 256.

(* 7037-7044: the first entry with the encoding gets the new block in front. *)
Fixpoint chain_in (entries : list (Z * block)) (enc : Z) (f : block -> block) : option (list (Z * block)) :=
  match entries with
  | [] => None
  | (e, b) :: rest =>
      if e =? enc then Some ((e, f b) :: rest)
      else match chain_in rest enc f with Some r => Some ((e, b) :: r) | None => None end
  end.

(* 7005-7080; `exact` is exact_map. *)
Definition lower_achoice (exact : bool) (nbits : Z) (k : nat) (c : achoice)
    (st : list (Z * block) * option nat) : res (list (Z * block) * option nat) :=
  let '(entries, def) := st in
  match c with
  | AOthers => match def with Some _ => Fault | None => Ok (entries, Some k) end
  | AName chars =>
      if exact then Ok (entries ++ [(encode_choice nbits chars, BAlt k)], def)
      else
        let enc := Z.rem (encode_choice 0 chars) max_cases in
        match chain_in entries enc (BTest chars (BAlt k)) with
        | Some entries => Ok (entries, def)
        | None => Ok (entries ++ [(enc, BTest chars (BAlt k) BFall)], def)
        end
  end.

Fixpoint lower_alt (exact : bool) (nbits : Z) (k : nat) (l : list achoice)
    (st : list (Z * block) * option nat) : res (list (Z * block) * option nat) :=
  match l with
  | [] => Ok st
  | c :: rest => do! st <- lower_achoice exact nbits k c st; lower_alt exact nbits k rest st
  end.

Fixpoint lower_alts (exact : bool) (nbits : Z) (k : nat) (s : astmt)
    (st : list (Z * block) * option nat) : res (list (Z * block) * option nat) :=
  match s with
  | [] => Ok st
  | l :: rest => do! st <- lower_alt exact nbits k l st; lower_alts exact nbits (S k) rest st
  end.

Record array_code := ArrayCode {
  ac_exact : bool; ac_nbits : Z; ac_length : Z; ac_cases : list (Z * block); ac_def : option nat }.

(* lower_case_array, 6868-7097, for choices of `length` characters out of `literals`. *)
Definition lower_case_array (literals length : Z) (s : astmt) : res array_code :=
  let nbits := ilog2 literals in
  let exact := length * nbits <=? 64 in
  do! (entries, def) <- lower_alts exact nbits 0 s ([], None);
  Ok (ArrayCode exact nbits length entries def).

(* 6930-6985: the encoding of the value of the expression, with the arithmetic of the
   machine; both ways to compute it, unrolled and with a loop, do the same. *)
Definition encode_value (exact : bool) (nbits : Z) (v : list Z) : Z :=
  let enc := fold_left (fun enc c => wrap64 (wrap64 (enc * (if exact then 2 ^ nbits else 668265261)) + c)) v 0 in
  if exact then enc else Z.rem enc max_cases.

Fixpoint run_block (def : option nat) (b : block) (v : list Z) : option nat :=
  match b with
  | BAlt k => Some k
  | BTest name hit chain => if same_chars name v then run_block def hit v else run_block def chain v
  | BFall => def
  end.

(* The length check of 6908 comes first. *)
Definition run_array (c : array_code) (v : list Z) : res (option nat) :=
  if negb (Z.of_nat (length v) =? ac_length c) then Fault
  else
    match find (fun p => fst p =? encode_value (ac_exact c) (ac_nbits c) v) (ac_cases c) with
    | Some p => Ok (run_block (ac_def c) (snd p) v)
    | None => Ok (ac_def c)
    end.
