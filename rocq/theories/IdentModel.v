(* Model of the operations on identifiers in src/ident.c, and of how identifiers
   are written to and read from library files.

   An identifier is its list of characters (bytes); that equal characters give
   the same handle, and different ones different handles, is C19 (InternProps).
   The null identifier is [None]. *)
From Coq Require Import List NArith ZArith Arith Bool.
From Verif Require Import Base AdlerModel FbufModel InternModel.
Import ListNotations.
Local Open Scope N_scope.

Definition bytes := list N.

Definition bytes_eqb (a b : bytes) : bool := if list_eq_dec N.eq_dec a b then true else false.

(* ---- matching ---- *)

(* Modelled: src/ident.c:625-638 (ident_glob_walk); the strings end in NUL, and
   the lists here do not contain the NUL. *)
Fixpoint ident_glob_walk (str g : bytes) : bool :=
  match str with
  | [] => match g with [] => true | _ => false end
  | s :: str' =>
    match g with
    | [] => false
    | c :: g' =>
      if c =? 42 then ident_glob_walk str' g || ident_glob_walk str' g'
      else if s =? c then ident_glob_walk str' g'
      else false
    end
  end.

(* Modelled: src/ident.c:523-526 (ident_starts_with) with strncmp. *)
Fixpoint strncmp_eq (a b : bytes) : bool :=
  match b with
  | [] => true
  | y :: b' => match a with [] => false | x :: a' => (x =? y) && strncmp_eq a' b' end
  end.
Definition ident_starts_with (a : bytes) (b : option bytes) : bool :=
  match b with None => false | Some b => bytes_eqb a b || strncmp_eq a b end.

(* ---- taking apart ---- *)

(* The scan of ident_until and ident_from, src/ident.c:556-557: characters before
   the first [c], and from it on. *)
Fixpoint scan (c : N) (l : bytes) : bytes * bytes :=
  match l with
  | [] => ([], [])
  | x :: l' => if x =? c then ([], l) else let (a, b) := scan c l' in (x :: a, b)
  end.

(* Modelled: src/ident.c:552-565. *)
Definition ident_until (i : bytes) (c : N) : bytes := fst (scan c i).
(* Modelled: src/ident.c:582-595. *)
Definition ident_from (i : bytes) (c : N) : option bytes :=
  match snd (scan c i) with [] => None | _ :: r => Some r end.

(* The backward scan of src/ident.c:571-572 starts on the terminating NUL. *)
Fixpoint rscan (c : N) (r : bytes) (after : bytes) : option (bytes * bytes) :=
  match r with
  | [] => None
  | x :: r' => if x =? c then Some (rev r', after) else rscan c r' (x :: after)
  end.

(* Modelled: src/ident.c:567-580, for a character that is not NUL. *)
Definition ident_runtil (i : bytes) (c : N) : bytes :=
  match rscan c (rev i) [] with None => i | Some (a, _) => a end.
(* Modelled: src/ident.c:597-610, for a character that is not NUL. *)
Definition ident_rfrom (i : bytes) (c : N) : bytes :=
  match rscan c (rev i) [] with None => i | Some (_, b) => b end.

(* Modelled: src/ident.c:496-521 (ident_prefix); 0 is no separator. *)
Definition ident_prefix (a b : option bytes) (sep : N) : option bytes :=
  match a, b with
  | None, _ => b
  | _, None => a
  | Some a, Some b => Some (if sep =? 0 then a ++ b else a ++ [sep] ++ b)
  end.

(* The loop of src/ident.c:673-682: what comes before the first '.' outside
   escapes and from it on; [escape] is 0, '\'' (39) or '\\' (92). *)
Fixpoint selected_scan (escape : N) (l : bytes) : bytes * bytes :=
  match l with
  | [] => ([], [])
  | x :: l' =>
    if (x =? 46) && (escape =? 0) then ([], l)
    else
      let escape' :=
        if (x =? 39) && negb (escape =? 92) then (if escape =? 39 then 0 else 39)
        else if (x =? 92) && negb (escape =? 39) then (if escape =? 92 then 0 else 92)
        else escape in
      let (a, b) := selected_scan escape' l' in (x :: a, b)
  end.

(* Modelled: src/ident.c:667-698 (ident_walk_selected): the identifier returned and
   the new value of the iterator. *)
Definition ident_walk_selected (it : option bytes) : option bytes * option bytes :=
  match it with
  | None => (None, None)
  | Some i =>
    match selected_scan 0 i with
    | (_, []) => (Some i, None)
    | (a, _ :: r) => (Some a, Some r)
    end
  end.

(* How the function is used: until the iterator is null, src/names.c:1700-1705. *)
Fixpoint walk_all (fuel : nat) (it : option bytes) : res (list bytes) :=
  match it with
  | None => Ok []
  | Some _ =>
    match fuel with
    | O => Fault
    | S fuel' =>
      match ident_walk_selected it with
      | (Some part, it') => do! l <- walk_all fuel' it'; Ok (part :: l)
      | (None, _) => Fault
      end
    end
  end.

(* ---- edit distance ---- *)

(* The inner loop of src/ident.c:715-721: [v0] from element j on, [last] is
   v1[j]; returns v1 from element j + 1 on. *)
Fixpoint dist_row (c : N) (t : bytes) (v0 : list nat) (last : nat) : list nat :=
  match t, v0 with
  | x :: t', d :: ((u :: _) as v0') =>
    let dc := (u + 1)%nat in
    let ic := (last + 1)%nat in
    let sc := if c =? x then d else (d + 1)%nat in
    let v := Nat.min dc (Nat.min ic sc) in
    v :: dist_row c t' v0' v
  | _, _ => []
  end.

Fixpoint dist_loop (i : nat) (s t : bytes) (v0 : list nat) : list nat :=
  match s with
  | [] => v0
  | c :: s' => dist_loop (S i) s' t ((i + 1)%nat :: dist_row c t v0 (i + 1)%nat)
  end.

(* Modelled: src/ident.c:700-729 (ident_distance). *)
Definition ident_distance (a b : bytes) : nat :=
  nth (length b) (dist_loop 0 a b (seq 0 (length b + 1))) 0%nat.

(* ---- case ---- *)

(* Modelled: src/util.c:1141-1149. *)
Definition toupper_iso88591 (ch : N) : N :=
  if (97 <=? ch) && (ch <=? 122) then ch - 97 + 65
  else if ((224 <=? ch) && (ch <=? 246)) || ((248 <=? ch) && (ch <=? 254)) then ch - 32
  else ch.
(* Modelled: src/util.c:1151-1159. *)
Definition tolower_iso88591 (ch : N) : N :=
  if (65 <=? ch) && (ch <=? 90) then ch + 97 - 65
  else if ((192 <=? ch) && (ch <=? 214)) || ((216 <=? ch) && (ch <=? 222)) then ch + 32
  else ch.

(* Modelled: src/ident.c:647-665. *)
Definition ident_downcase (i : bytes) : bytes := map tolower_iso88591 i.

(* Modelled: src/ident.c:736-746 (ident_casehash) without the cached copy; a char
   above 127 is negative and is added as such (sign extended to 32 bits). *)
Definition sext32 (ch : N) : N := if ch <? 128 then ch else ch + (P32 - 256).
Definition ident_casehash (i : bytes) : N :=
  mix_bits_32 (fold_left (fun h ch =>
    (((N.shiftl h 5 mod P32) + h) + sext32 (toupper_iso88591 ch)) mod P32) i 5381).

(* One lane of the SSE2 code of src/ident.c:756-770: signed comparisons. *)
Definition as_i8 (ch : N) : Z := if ch <? 128 then Z.of_N ch else (Z.of_N ch - 256)%Z.
Definition lane_upper (ch : N) : N :=
  let mask := ((96 <? as_i8 ch) && (as_i8 ch <? 123))%Z in
  (ch + 256 - (if mask then 32 else 0)) mod 256.
(* The characters of an identifier in blocks of 16: past the end is zero
   (ident_alloc clears and rounds up the size). *)
Fixpoint lanes (k : nat) (a b : bytes) : bool :=
  match k with
  | O => true
  | S k' => (lane_upper (nth 0 a 0) =? lane_upper (nth 0 b 0)) && lanes k' (tl a) (tl b)
  end.
Fixpoint sse_loop (fuel : nat) (a b : bytes) : bool :=
  match fuel, a with
  | S fuel', _ :: _ => lanes 16 a b && sse_loop fuel' (skipn 16 a) (skipn 16 b)
  | _, _ => true
  end.

(* The two builds of ident_casecmp, src/ident.c:748-784. *)
Inductive arch := X86_64 | OtherArch.
Fixpoint scalar_loop (a b : bytes) : bool :=
  match a, b with
  | x :: a', y :: b' => (toupper_iso88591 x =? toupper_iso88591 y) && scalar_loop a' b'
  | _, _ => true
  end.
Definition ident_casecmp (ar : arch) (a b : bytes) : bool :=
  if bytes_eqb a b then true
  else if negb (Nat.eqb (length a) (length b)) then false
  else match ar with
       | X86_64 => sse_loop (length a) a b
       | OtherArch => scalar_loop a b
       end.

(* ---- writing ---- *)

(* The marks the writer leaves on identifiers: write_gen and write_index,
   src/ident.c:62-63, zero at first. *)
Definition marks := bytes -> N * N.
(* A write context, with the fields it has written so far: src/ident.c:54-58. *)
Record wctx := WCtx { generation : N; next_index : N; out : list field }.
Record wstate := WState { wr_gen : N; wmarks : marks; ctxs : list wctx }.
Definition wstart : wstate := WState 1 (fun _ => (0, 0)) [].

Definition set_mark (m : marks) (i : bytes) (x : N * N) : marks :=
  fun j => if bytes_eqb j i then x else m j.
Definition set_nth {A} (l : list A) (k : nat) (x : A) : list A := firstn k l ++ x :: skipn (S k) l.

(* Modelled: src/ident.c:321-332 (ident_write_begin); the generation has 16 bits.
   The contexts are numbered in the order they are made. *)
Definition ident_write_begin (w : wstate) : res wstate :=
  if wr_gen w =? 0 then Fault
  else Ok (WState ((wr_gen w + 1) mod 65536) (wmarks w) (ctxs w ++ [WCtx (wr_gen w) 1 []])).

(* Modelled: src/ident.c:339-356 (ident_write). *)
Definition ident_write (w : wstate) (k : nat) (ident : option bytes) : res wstate :=
  match nth_error (ctxs w) k with
  | None => Fault
  | Some c =>
    let put m nx fs := Ok (WState (wr_gen w) m (set_nth (ctxs w) k (WCtx (generation c) nx (out c ++ fs)))) in
    match ident with
    | None => put (wmarks w) (next_index c) [FInt 1]
    | Some i =>
      let (g, ix) := wmarks w i in
      if g =? generation c then put (wmarks w) (next_index c) [FInt (Z.of_N (ix + 1))]
      else if next_index c + 1 =? P32 - 1 then Fault
      else put (set_mark (wmarks w) i (generation c, next_index c)) (next_index c + 1)
               [FInt (- Z.of_nat (length i)); FRaw i]
    end
  end.

(* The users of a context write other fields to the same file in between. *)
Inductive datum := DIdent (i : option bytes) | DField (x : field).
Definition write_datum (w : wstate) (k : nat) (d : datum) : res wstate :=
  match d with
  | DIdent i => ident_write w k i
  | DField x =>
    match nth_error (ctxs w) k with
    | None => Fault
    | Some c =>
      Ok (WState (wr_gen w) (wmarks w)
            (set_nth (ctxs w) k (WCtx (generation c) (next_index c) (out c ++ [x]))))
    end
  end.

(* Contexts come and go in any order, and several may be open at once. *)
Inductive wop := WBegin | WPut (k : nat) (d : datum).
Definition wstep (w : wstate) (o : wop) : res wstate :=
  match o with WBegin => ident_write_begin w | WPut k d => write_datum w k d end.
Fixpoint wrun (w : wstate) (os : list wop) : res wstate :=
  match os with [] => Ok w | o :: os' => do! w <- wstep w o; wrun w os' end.

(* ---- reading ---- *)

(* A read context: src/ident.c:44-52; the cache starts with the null identifier. *)
Record rctx := RCtx { new_format : bool; cache : list (option bytes) }.
Definition rstart : rctx := RCtx true [None].

(* const int32_t index = ..., src/ident.c:384. *)
Definition to_i32 (v : Z) : Z :=
  let u := (v mod 4294967296)%Z in if (u <? 2147483648)%Z then u else (u - 4294967296)%Z.

(* ident_new on a NUL-terminated string, src/ident.c:294-303: the characters up to the
   first NUL, of which there must be one. *)
Definition ident_new (s : bytes) : res bytes :=
  match fst (scan 0 s) with [] => Fault | i => Ok i end.

(* The loop of src/ident.c:408-415. *)
Fixpoint read_cstr (rbuf : bytes) : res (bytes * bytes) :=
  match rbuf with
  | [] => Fault
  | b :: r => if b =? 0 then Ok ([], r) else do! (s, r) <- read_cstr r; Ok (b :: s, r)
  end.

(* Modelled: src/ident.c:382-429 (ident_read). *)
Definition ident_read (c : rctx) (rbuf : bytes) : res (option bytes * rctx * bytes) :=
  do! (index, rbuf) <-
    (if new_format c then
       do! (x, r) <- read_field KInt rbuf;
       match x with FInt v => Ok (to_i32 v, r) | _ => Fault end
     else
       do! (x, r) <- read_field KUint rbuf;
       match x with FUint u => Ok (to_i32 (Z.of_N u), r) | _ => Fault end);
  if (index <? 0)%Z then
    do! (x, r) <- read_field (KRaw (Z.to_nat (- index))) rbuf;
    match x with
    | FRaw bs => do! i <- ident_new bs; Ok (Some i, RCtx (new_format c) (cache c ++ [Some i]), r)
    | _ => Fault
    end
  else if (index =? 0)%Z then
    do! (s, r) <- read_cstr rbuf;
    do! i <- ident_new s;
    Ok (Some i, RCtx false (cache c ++ [Some i]), r)
  else
    match nth_error (cache c) (Z.to_nat (index - 1)) with
    | Some i => Ok (i, c, rbuf)
    | None => Fault
    end.

(* What is read next: an identifier, or a field of a known kind. *)
Inductive request := RIdent | RField (k : kind).
Definition read_datum (q : request) (c : rctx) (rbuf : bytes) : res (datum * rctx * bytes) :=
  match q with
  | RIdent => do! (i, c, rbuf) <- ident_read c rbuf; Ok (DIdent i, c, rbuf)
  | RField k => do! (x, rbuf) <- read_field k rbuf; Ok (DField x, c, rbuf)
  end.
Fixpoint read_data (qs : list request) (c : rctx) (rbuf : bytes) : res (list datum * rctx * bytes) :=
  match qs with
  | [] => Ok ([], c, rbuf)
  | q :: qs' =>
    do! (d, c, rbuf) <- read_datum q c rbuf;
    do! (l, c, rbuf) <- read_data qs' c rbuf;
    Ok (d :: l, c, rbuf)
  end.
