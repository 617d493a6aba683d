(* Model of T'IMAGE and T'VALUE for records and arrays: src/lower.c:8506-8810, 9171-9470 and
   lib/nvc/text_util-body.vhd *)
From Coq Require Import List NArith ZArith Bool.
From Verif Require Import Base PvalSpec PvalModel CompSpec.
Import ListNotations.
Local Open Scope N_scope.

(* A store into memory from emit_alloc; beyond its end is a fault *)
Definition put (mem : text) (i : nat) (s : text) : res text :=
  if (i + length s <=? length mem)%nat then Ok (firstn i mem ++ s ++ skipn (i + length s) mem) else Fault.
Definition alloc (n : nat) : text := repeat 0 n.
Definition total (l : list text) : nat := fold_right (fun s n => (length s + n)%nat) 0%nat l.

(* lower_record_image_helper: src/lower.c:8506-8565 *)
Fixpoint record_fields (l : list text) (first : bool) (index : nat) (mem : text) : res (nat * text) :=
  match l with
  | [] => Ok (index, mem)
  | s :: l =>
    do! (index, mem) <- (if first then Ok (index, mem) else do! mem <- put mem index [44]; Ok (index + 1, mem)%nat);
    do! mem <- put mem index s;
    record_fields l false (index + length s) mem
  end.
Definition record_image (l : list text) : res text :=
  let mem := alloc (length l + 1 + total l) in
  do! mem <- put mem 0 [40];
  do! (index, mem) <- record_fields l true 1 mem;
  put mem index [41].

(* lower_array_image_helper: src/lower.c:8567-8684 *)
Fixpoint array_elems (l : list text) (index : nat) (mem : text) : res text :=
  match l with
  | [] => Ok mem
  | s :: l =>
    do! mem <- put mem index s;
    do! mem <- put mem (index + length s) [44];
    array_elems l (index + length s + 1) mem
  end.
Definition array_image (l : list text) : res text :=
  let sum := (length l + 1 + total l)%nat in
  do! mem <- put (alloc sum) 0 [40];
  do! mem <- array_elems l 1 mem;
  put mem (sum - 1) [41].

(* all_character_literals: src/common.c:2579-2591 *)
Definition is_char_lit (l : text) : bool := match l with c :: _ => c =? 39 | [] => false end.
(* lower_character_array_image_helper with quotes: src/lower.c:8686-8762; [map] has the second
   character of each literal *)
Fixpoint chars_elems (lits : list text) (ps : list nat) (i : nat) (mem : text) : res text :=
  match ps with
  | [] => Ok mem
  | p :: ps =>
    match nth_error lits p with
    | Some (_ :: c :: _) => do! mem <- put mem (i + 1) [c]; chars_elems lits ps (i + 1) mem
    | _ => Fault
    end
  end.
Definition chars_image (lits : list text) (ps : list nat) : res text :=
  do! mem <- put (alloc (length ps + 2)) 0 [34];
  do! mem <- chars_elems lits ps 0 mem;
  put mem (length ps + 1) [34].

(* lower_image_helper: src/lower.c:8764-8810 *)
Fixpoint image {A} (t : ty A) (v : value A) {struct t} : res text :=
  match t, v with
  | TScalar img _, Scalar a => Ok (img a)
  | TChars _ lits, Chars ps =>
    if forallb is_char_lit lits then chars_image lits ps
    else array_image (map (fun p => nth p lits []) ps)
  | TArray _ e, Comp vs =>
    do! l <- (fix all (vs : list (value A)) : res (list text) :=
                match vs with
                | [] => Ok []
                | v :: vs => do! s <- image e v; do! l <- all vs; Ok (s :: l)
                end) vs;
    array_image l
  | TRecord fs, Comp vs =>
    do! l <- (fix all (fs : list (ty A)) (vs : list (value A)) : res (list text) :=
                match fs, vs with
                | [], [] => Ok []
                | f :: fs, v :: vs => do! s <- image f v; do! l <- all fs vs; Ok (s :: l)
                | _, _ => Fault
                end) fs vs;
    record_image l
  | _, _ => Fault
  end.

(* next_delimiter: lib/nvc/text_util-body.vhd:39-54 *)
Fixpoint next_loop (s : text) (nest : nat) : text :=
  match s with
  | [] => []
  | c :: s =>
    if (nest =? 0)%nat && ((c =? 44) || (c =? 41)) then []
    else c :: next_loop s (if c =? 41 then (nest - 1)%nat else if c =? 40 then S nest else nest)
  end.
Definition next_delimiter (s : text) (pos : nat) : text := next_loop (skipn pos s) 0.
(* count_delimiters: lib/nvc/text_util-body.vhd:56-70 *)
Fixpoint count_loop (s : text) (nest result : nat) : nat :=
  match s with
  | [] => result
  | c :: s =>
    if (nest =? 1)%nat && (c =? 44) then count_loop s nest (S result)
    else if c =? 40 then count_loop s (S nest) result
    else if (c =? 41) && (0 <? nest)%nat then count_loop s (nest - 1) result
    else count_loop s nest result
  end.
Definition count_delimiters (s : text) : nat := count_loop s 0 1.
(* find_open, find_close: lib/nvc/text_util-body.vhd:72-86, 131-145 *)
Fixpoint open_loop (s : text) (i : nat) : option nat :=
  match s with
  | [] => None
  | c :: s => if c =? 40 then Some (S i) else if negb (c =? 32) then None else open_loop s (S i)
  end.
Definition find_open (s : text) : option nat := open_loop s 0.
Fixpoint close_loop (s : text) : bool :=
  match s with
  | [] => false
  | c :: s => if c =? 41 then true else if negb (c =? 32) then false else close_loop s
  end.
Definition find_close (s : text) (pos : nat) : bool := close_loop (skipn (pos - 1) s).
(* trim_ws: lib/nvc/text_util-body.vhd:87-103 *)
Fixpoint first_loop (s : text) (i : nat) : nat :=
  match s with
  | [] => i
  | c :: r => if negb (c =? 32) then i else match r with [] => i | _ => first_loop r (S i) end
  end.
Fixpoint last_loop (s : text) (i : nat) : nat :=
  match s with
  | [] => i
  | c :: r => if negb (c =? 32) then i else match r with [] => i | _ => last_loop r (i - 1) end
  end.

(* lower_array_value_helper for character arrays: src/lower.c:9238-9340.  trim_ws leaves 0 and 0
   for an empty string, and a character behind it is read. *)
Fixpoint map_chars (lits : list text) (s : text) : option (list nat) :=
  match s with
  | [] => Some []
  | c :: s => match char_map lits 0 c with
              | None => None
              | Some i => match map_chars lits s with Some l => Some (i :: l) | None => None end
              end
  end.
Definition chars_value (lits : list text) (s : text) : res (option (list nat)) :=
  match s with
  | [] => Fault
  | _ =>
    let first := first_loop s 0 in
    let last := last_loop (rev s) (length s - 1) in
    if (last + 1 <? first)%nat then Fault
    else Ok (map_chars lits (firstn (last + 1 - first) (skipn first s)))
  end.

(* emit_copy of an array into the field of a record has the length of the value and not that of
   the field: src/lower.c:9216-9220.  A longer one is stored beyond the field, a shorter one leaves
   the rest of the field unset; both are faults here. *)
Definition copy_ok {A} (t : ty A) (v : value A) : bool :=
  match t, v with
  | TArray (Some n) _, Comp vs => (length vs =? n)%nat
  | TChars (Some n) _, Chars ps => (length ps =? n)%nat
  | _, _ => true
  end.
(* lower_value_helper: src/lower.c:9171-9470.  [None] is a report with severity FAILURE.  How an
   element that is an array itself is stored is not modelled. *)
Fixpoint value_of {A} (t : ty A) (s : text) {struct t} : res (option (value A)) :=
  match t with
  | TScalar _ parse => Ok (option_map Scalar (parse s))
  | TChars _ lits => do! r <- chars_value lits s; Ok (option_map Chars r)
  | TRecord fs =>
    match find_open s with
    | None => Ok None
    | Some off =>
      (fix fields (fs : list (ty A)) (off : nat) (acc : list (value A)) : res (option (value A)) :=
         match fs with
         | [] => if find_close s off then Ok (Some (Comp (rev acc))) else Ok None
         | f :: fs =>
           let nd := next_delimiter s off in
           do! r <- value_of f nd;
           match r with
           | None => Ok None
           | Some v => if copy_ok f v then fields fs (off + length nd + 1)%nat (v :: acc) else Fault
           end
         end) fs off []
    end
  | TArray _ e =>
    let count := count_delimiters s in
    match find_open s with
    | None => Ok None
    | Some pos =>
      (fix elems (n : nat) (pos : nat) (acc : list (value A)) : res (option (value A)) :=
         match n with
         | O => if find_close s pos then Ok (Some (Comp (rev acc))) else Ok None
         | S n =>
           let nd := next_delimiter s pos in
           do! r <- value_of e nd;
           match r with
           | None => Ok None
           | Some v => elems n (pos + (length nd + 1))%nat (v :: acc)
           end
         end) count pos []
    end
  end.
