(* The file of a coverage database, written and read: src/cov/cov-data.c,
   with the identifiers of src/ident.c and the locations of src/diag.c in it. *)

From Coq Require Import ZArith NArith List Bool Arith.
From Verif Require Import Base FbufModel CoverModel.
Import ListNotations.

Section CoverFile.

(* The bytes of an identifier, and ident_new. *)
Variable names : ident -> list N.
Variable intern : list N -> ident.

(* The table loc_files (src/diag.c) of the process that writes: a name for
   each file; the reference of a file is its index (123-152). *)
Variable wfiles : list (list N).

Definition FILE_INVALID : Z := 65535.

(* ---- writing ---- *)

(* loc_wr_ctx, src/diag.c 50-57, and the part of the state of identifiers
   that belongs to this file: w_seen lists the ones written so far, so
   write_index of each is its position and one more (src/ident.c 346-352;
   that generations of files repeat after 65535 is left out). *)
Record wctx := Wctx {
  w_index : bool; w_line : Z; w_column : Z; w_ldelta : Z; w_cdelta : Z;
  w_seen : list ident }.

Definition wctx0 : wctx := Wctx false 0 0 0 0 [].

Fixpoint position (l : list ident) (i : ident) : option nat :=
  match l with
  | [] => None
  | x :: r => if x =? i then Some 0
              else match position r i with Some p => Some (S p) | None => None end
  end.

(* ident_write, src/ident.c 339-356. *)
Definition write_ident (id : option ident) (w : wctx) : list field * wctx :=
  match id with
  | None => ([FInt 1], w)
  | Some i =>
      match position (w_seen w) i with
      | Some p => ([FInt (Z.of_nat p + 1 + 1)], w)
      | None =>
          ([FInt (- Z.of_nat (length (names i))); FRaw (names i)],
           Wctx (w_index w) (w_line w) (w_column w) (w_ldelta w) (w_cdelta w) (w_seen w ++ [i]))
      end
  end.

(* A difference of unsigned numbers. *)
Definition sub32 (a b : Z) : Z := ((a - b) mod 2 ^ 32)%Z.

Definition LOC_MAGIC : N := 61455.    (* 0xf00f, src/diag.c 34 *)

(* loc_write, src/diag.c 284-310. *)
Definition write_index : list field :=
  FU16 LOC_MAGIC :: FUint (N.of_nat (length wfiles)) ::
  flat_map (fun n => [FUint (N.of_nat (length n + 1)); FRaw (n ++ [0%N])]) wfiles.

Definition write_loc (l : loc) (w : wctx) : list field * wctx :=
  ((if w_index w then [] else write_index) ++
   [FUint (Z.to_N (l_file l)); FInt (sub32 (l_line l) (w_line w));
    FInt (sub32 (l_line_delta l) (w_ldelta w));
    FInt (sub32 (l_column l) (w_column w));
    FInt (sub32 (l_column_delta l) (w_cdelta w))],
   Wctx true (l_line l) (l_column l) (l_line_delta l) (l_column_delta l) (w_seen w)).

(* cover_item_kind_t, src/cov/cov-api.h 24-71. *)
Definition kind_code (k : item_kind) : N :=
  match k with
  | KStmt => 0 | KBranch => 1 | KToggle => 2 | KExpression => 3 | KState => 4 | KFunctional => 5
  end.

(* item->flags & COVER_FLAGS_LHS_RHS_BINS, src/cov/cov-api.h 184. *)
Definition has_operands (flags : Z) : bool := negb (Z.land flags 120 =? 0)%Z.

Definition has_func (k : item_kind) : bool :=
  match k with KExpression | KState | KFunctional => true | _ => false end.

(* A signed number handed to fbuf_put_uint. *)
Definition put_int64 (v : Z) : field := FUint (to_u64 v).

Definition seq {A B} (f : A -> wctx -> list field * wctx) (g : B -> wctx -> list field * wctx)
    (a : A) (b : B) (w : wctx) : list field * wctx :=
  let '(x, w) := f a w in let '(y, w) := g b w in (x ++ y, w).

(* The body of the loop over the items in cover_write_scope, src/cov/cov-data.c
   779-807. *)
Definition write_item (it : item) (w : wctx) : list field * wctx :=
  let head :=
    [FUint (kind_code (i_kind it)); put_int64 (i_tag it); put_int64 (i_data it);
     put_int64 (i_flags it); put_int64 (i_source it); put_int64 (i_consecutive it);
     put_int64 (i_atleast it); FUint (N.of_nat (length (i_ranges it)));
     put_int64 (i_metadata it)] ++
    flat_map (fun r => [put_int64 (fst r); put_int64 (snd r)]) (i_ranges it) in
  let '(f1, w) := write_loc (i_loc it) w in
  let '(f2, w) := if has_operands (i_flags it)
                  then seq write_loc write_loc (i_loc_lhs it) (i_loc_rhs it) w else ([], w) in
  let '(f3, w) := write_ident (Some (i_hier it)) w in
  let '(f4, w) := if has_func (i_kind it) then write_ident (i_func it) w else ([], w) in
  (head ++ f1 ++ f2 ++ f3 ++ f4, w).

Fixpoint write_items (its : list item) (w : wctx) : list field * wctx :=
  match its with
  | [] => ([], w)
  | it :: rest => seq write_item write_items it rest w
  end.

Definition CTRL_PUSH_SCOPE : N := 0.   (* src/cov/cov-data.c 42-46 *)
Definition CTRL_POP_SCOPE : N := 1.
Definition CTRL_END_OF_FILE : N := 2.

(* cover_write_scope, 765-814. *)
Fixpoint write_scope (s : scope) (w : wctx) : list field * wctx :=
  let 'Scope t n h l b its kids := s in
  let '(f1, w) := write_ident (Some n) w in
  let '(f2, w) := write_ident (Some h) w in
  let '(f3, w) := write_loc l w in
  let '(f4, w) := if t then write_ident b w else ([], w) in
  let '(f5, w) := write_items its w in
  let '(f6, w) := (fix go (ks : list scope) (w : wctx) : list field * wctx :=
                     match ks with
                     | [] => ([], w)
                     | k :: ks' => let '(x, w) := write_scope k w in
                                   let '(y, w) := go ks' w in (x ++ y, w)
                     end) kids w in
  (FU8 CTRL_PUSH_SCOPE :: FUint (if t then 1 else 0)%N ::
     f1 ++ f2 ++ f3 ++ f4 ++ FUint (N.of_nat (length its)) :: f5 ++ f6 ++ [FU8 CTRL_POP_SCOPE],
   w).

Definition COVER_FILE_MAGIC : N := 1852007522.   (* 0x6e636462, 63 *)
Definition COVER_FILE_VERSION : N := 2.

(* cover_dump_items, 840-865; what it adds to the counts before is in
   CoverModel. *)
Definition write_db (d : cover_db) : list field :=
  [FU32 COVER_FILE_MAGIC; FUint COVER_FILE_VERSION; put_int64 (d_mask d);
   put_int64 (d_array_limit d); put_int64 (d_next_tag d)] ++
  fst (write_scope (d_root d) wctx0) ++ [FU8 CTRL_END_OF_FILE].

(* ---- reading ---- *)

(* What is left of the file; loc_rd_ctx, src/diag.c 59-69; the cache of
   ident_rd_ctx, src/ident.c 44-52; and the table loc_files of the process
   that reads. *)
Record rctx := Rctx {
  r_buf : list N;
  r_index : bool; r_map : list (list N); r_refs : list Z;
  r_line : Z; r_column : Z; r_ldelta : Z; r_cdelta : Z;
  r_cache : list (option ident);
  r_files : list (list N) }.

Definition with_buf (r : rctx) (b : list N) : rctx :=
  Rctx b (r_index r) (r_map r) (r_refs r) (r_line r) (r_column r) (r_ldelta r) (r_cdelta r)
       (r_cache r) (r_files r).

Definition get_u8 (r : rctx) : res (N * rctx) :=
  do! (u, b) <- get_le 1 (r_buf r) 0%N; Ok (u, with_buf r b).
Definition get_u16 (r : rctx) : res (N * rctx) :=
  do! (u, b) <- get_le 2 (r_buf r) 0%N; Ok (u, with_buf r b).
Definition get_u32 (r : rctx) : res (N * rctx) :=
  do! (u, b) <- get_le 4 (r_buf r) 0%N; Ok (u, with_buf r b).
Definition get_un (r : rctx) : res (N * rctx) :=
  do! (u, b) <- get_uint (r_buf r); Ok (u, with_buf r b).
Definition get_int (r : rctx) : res (Z * rctx) :=
  do! (u, b) <- get_uint (r_buf r); Ok (unzigzag u, with_buf r b).
Definition get_raw (n : nat) (r : rctx) : res (list N * rctx) :=
  if length (r_buf r) <? n then Fault
  else Ok (firstn n (r_buf r), with_buf r (skipn n (r_buf r))).

(* A uint64_t stored in an int32_t, a uint32_t and an int64_t. *)
Definition int32_of (u : N) : Z :=
  let m := (Z.of_N u mod 2 ^ 32)%Z in if (m <? 2 ^ 31)%Z then m else (m - 2 ^ 32)%Z.
Definition uint32_of (u : N) : Z := (Z.of_N u mod 2 ^ 32)%Z.

Definition get_i32 (r : rctx) : res (Z * rctx) :=
  do! (u, r) <- get_un r; Ok (int32_of u, r).
Definition get_i64 (r : rctx) : res (Z * rctx) :=
  do! (u, r) <- get_un r; Ok (of_u64 u, r).

(* ident_read, src/ident.c 382-428.  Left out: the format of versions before
   1.13, which begins with a zero. *)
Definition read_ident (r : rctx) : res (option ident * rctx) :=
  do! (index, r) <- get_int r;
  if (index <? 0)%Z then
    do! (bs, r) <- get_raw (Z.to_nat (- index)) r;
    let id := Some (intern bs) in
    Ok (id, Rctx (r_buf r) (r_index r) (r_map r) (r_refs r) (r_line r) (r_column r)
                 (r_ldelta r) (r_cdelta r) (r_cache r ++ [id]) (r_files r))
  else if (index =? 0)%Z then Fault
  else match nth_error (r_cache r) (Z.to_nat (index - 1)) with
       | Some id => Ok (id, r)
       | None => Fault
       end.

(* An identifier that is used without a check for NULL. *)
Definition read_ident1 (r : rctx) : res (ident * rctx) :=
  do! (id, r) <- read_ident r;
  match id with Some i => Ok (i, r) | None => Fault end.

(* What strcmp sees of a buffer. *)
Fixpoint cstr (bs : list N) : list N :=
  match bs with
  | [] => []
  | b :: r => if (b =? 0)%N then [] else b :: cstr r
  end.

Definition bytes_eqb (a b : list N) : bool := if list_eq_dec N.eq_dec a b then true else false.

(* loc_read, src/diag.c 331-353: the names of the files. *)
Fixpoint read_names (n : nat) (r : rctx) : res (list (list N) * rctx) :=
  match n with
  | 0 => Ok ([], r)
  | S n' =>
      do! (len, r) <- get_un r;
      do! (bs, r) <- get_raw (N.to_nat len) r;
      do! (rest, r) <- read_names n' r;
      Ok (cstr bs :: rest, r)
  end.

Definition read_index (r : rctx) : res rctx :=
  do! (magic, r) <- get_u16 r;
  if negb (magic =? LOC_MAGIC)%N then Fault
  else
    do! (n, r) <- get_un r;
    do! (map, r) <- read_names (N.to_nat n) r;
    Ok (Rctx (r_buf r) true map (repeat FILE_INVALID (length map)) (r_line r) (r_column r)
             (r_ldelta r) (r_cdelta r) (r_cache r) (r_files r)).

(* 361-366: the last file of that name, counted from index i. *)
Fixpoint find_file (files : list (list N)) (name : list N) (i : Z) (found : Z) : Z :=
  match files with
  | [] => found
  | f :: rest => find_file rest name (i + 1) (if bytes_eqb f name then i else found)
  end.

(* 355-382: the reference in this process for the one in the file. *)
Definition map_ref (old : Z) (r : rctx) : res (Z * rctx) :=
  if (old =? FILE_INVALID)%Z then Ok (FILE_INVALID, r)
  else
    match nth_error (r_refs r) (Z.to_nat old), nth_error (r_map r) (Z.to_nat old) with
    | Some ref, Some name =>
        let ref1 := if (ref =? FILE_INVALID)%Z
                    then find_file (r_files r) name 0 FILE_INVALID else ref in
        let '(ref2, files) :=
          if (ref1 =? FILE_INVALID)%Z
          then (Z.of_nat (length (r_files r)), r_files r ++ [name]) else (ref1, r_files r) in
        Ok (ref2, Rctx (r_buf r) (r_index r) (r_map r) (replace (r_refs r) (Z.to_nat old) ref2)
                       (r_line r) (r_column r) (r_ldelta r) (r_cdelta r) (r_cache r) files)
    | _, _ => Fault
    end.

Definition add32 (a b : Z) : Z := ((a + b) mod 2 ^ 32)%Z.

(* loc_read, 328-394. *)
Definition read_loc (r : rctx) : res (loc * rctx) :=
  do! r <- (if r_index r then Ok r else read_index r);
  do! (u, r) <- get_un r;
  do! (ref, r) <- map_ref (Z.of_N u mod 65536)%Z r;
  do! (a, r) <- get_int r;
  do! (b, r) <- get_int r;
  do! (c, r) <- get_int r;
  do! (d, r) <- get_int r;
  let line := add32 (r_line r) a in
  let ldelta := add32 (r_ldelta r) b in
  let column := add32 (r_column r) c in
  let cdelta := add32 (r_cdelta r) d in
  Ok (Loc (Z.min line 1048575) (Z.min column 4095) (Z.min ldelta 255) (Z.min cdelta 255) ref,
      Rctx (r_buf r) (r_index r) (r_map r) (r_refs r) line column ldelta cdelta (r_cache r)
           (r_files r)).

(* The switch statements of the program know these kinds. *)
Definition kind_of_code (u : N) : res item_kind :=
  match u with
  | 0 => Ok KStmt | 1 => Ok KBranch | 2 => Ok KToggle | 3 => Ok KExpression | 4 => Ok KState
  | 5 => Ok KFunctional
  | _ => Fault
  end%N.

Fixpoint read_ranges (n : nat) (r : rctx) : res (list (Z * Z) * rctx) :=
  match n with
  | 0 => Ok ([], r)
  | S n' =>
      do! (lo, r) <- get_i64 r;
      do! (hi, r) <- get_i64 r;
      do! (rest, r) <- read_ranges n' r;
      Ok ((lo, hi) :: rest, r)
  end.

(* cover_read_one_item, src/cov/cov-data.c 1047-1079.  `stale` is what the
   variable `new` of cover_read_scope holds before: it is not initialised. *)
Definition read_item (stale : item) (r : rctx) : res (item * rctx) :=
  do! (u, r) <- get_un r;
  do! kind <- kind_of_code u;
  do! (tag, r) <- get_i32 r;
  do! (data, r) <- get_i32 r;
  do! (flags, r) <- get_i32 r;
  do! (source, r) <- get_i32 r;
  do! (consecutive, r) <- get_i32 r;
  do! (atleast, r) <- get_i32 r;
  do! (n, r) <- get_i32 r;
  do! (metadata, r) <- get_i64 r;
  do! (ranges, r) <- read_ranges (Z.to_nat n) r;
  do! (l, r) <- read_loc r;
  do! (lhs, r) <- (if has_operands flags then read_loc r else Ok (i_loc_lhs stale, r));
  do! (rhs, r) <- (if has_operands flags then read_loc r else Ok (i_loc_rhs stale, r));
  do! (hier, r) <- read_ident1 r;
  do! (func, r) <- (if has_func kind then read_ident r else Ok (i_func stale, r));
  Ok (Item kind tag data flags source consecutive atleast metadata ranges l lhs rhs hier func, r).

Fixpoint read_item_list (stale : item) (n : nat) (r : rctx) : res (list item * rctx) :=
  match n with
  | 0 => Ok ([], r)
  | S n' =>
      do! (it, r) <- read_item stale r;
      do! (rest, r) <- read_item_list stale n' r;
      Ok (it :: rest, r)
  end.

(* cover_read_scope, 1081-1117.  block_name is NULL when it is not read.  Each
   call and each turn of the loop reads at least a byte, so the length of the
   file is fuel enough. *)
Fixpoint read_scope (stale : item) (fuel : nat) (r : rctx) : res (scope * rctx) :=
  match fuel with
  | 0 => Fault
  | S f =>
      do! (t, r) <- get_un r;
      do! (n, r) <- read_ident1 r;
      do! (h, r) <- read_ident1 r;
      do! (l, r) <- read_loc r;
      do! (b, r) <- (if (t =? 1)%N then read_ident r else Ok (None, r));
      do! (count, r) <- get_i32 r;
      do! (its, r) <- read_item_list stale (Z.to_nat count) r;
      do! (kids, r) <- read_children stale f r;
      Ok (Scope (t =? 1)%N n h l b its kids, r)
  end
with read_children (stale : item) (fuel : nat) (r : rctx) : res (list scope * rctx) :=
  match fuel with
  | 0 => Fault
  | S f =>
      do! (ctrl, r) <- get_u8 r;
      if (ctrl =? CTRL_PUSH_SCOPE)%N then
        do! (k, r) <- read_scope stale f r;
        do! (ks, r) <- read_children stale f r;
        Ok (k :: ks, r)
      else if (ctrl =? CTRL_POP_SCOPE)%N then Ok ([], r)
      else Fault
  end.

(* The loop of cover_read_items, 1128-1141; a file without a scope has no root. *)
Fixpoint read_roots (stale : item) (fuel : nat) (root : option scope) (r : rctx)
    : res (option scope * rctx) :=
  match fuel with
  | 0 => Fault
  | S f =>
      do! (ctrl, r) <- get_u8 r;
      if (ctrl =? CTRL_PUSH_SCOPE)%N then
        do! (s, r) <- read_scope stale f r;
        read_roots stale f (Some s) r
      else if (ctrl =? CTRL_END_OF_FILE)%N then Ok (root, r)
      else Fault
  end.

(* cover_read_header, 1030-1045, and cover_read_items, 1119-1147, in a process
   that knows the files rfiles already.  The result is the database and the
   table of files. *)
Definition read_db (stale : item) (rfiles : list (list N)) (pre_mask : Z) (bytes : list N)
    : res (cover_db * list (list N)) :=
  let r := Rctx bytes false [] [] 0 0 0 0 [None] rfiles in
  do! (magic, r) <- get_u32 r;
  if negb (magic =? COVER_FILE_MAGIC)%N then Fault
  else
    do! (version, r) <- get_un r;
    if negb (uint32_of version =? 2)%Z then Fault
    else
      do! (mask, r) <- get_un r;
      do! (limit, r) <- get_i32 r;
      do! (tag, r) <- get_i32 r;
      do! (root, r) <- read_roots stale (S (length bytes)) None r;
      match root with
      | None => Fault
      | Some s => Ok (Db (Z.lor (uint32_of mask) pre_mask) limit tag s, r_files r)
      end.

End CoverFile.
