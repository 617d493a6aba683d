(* A design unit in a file: object_write and object_read, src/object.c 779-1062. *)

From Coq Require Import ZArith NArith List Bool Arith.
From Verif Require Import Base FbufModel NumberModel CoverModel CoverFileModel ObjModel ObjGraphModel.
Import ListNotations.
Local Open Scope nat_scope.

(* object_arena_t, 41-63. *)
Record arena := Arena {
  a_objs : list object;
  a_fwd : option (list (nat * option nat));   (* forward: NULL when read from a file *)
  a_live : nat;                               (* live_bytes, in units of OBJECT_ALIGN *)
  a_std : N; a_checksum : N; a_flags : N;
  a_deps : list nat }.                        (* keys *)

Definition arena0 : arena := Arena [] None 0 0 0 0 [].

Section ObjFile.

Variable names : ident -> list N.
Variable intern : list N -> ident.
Variable unnamed : ident.           (* ident_new("???") *)
Variable rg : registry.

(* alloc - base. *)
Definition extent (a : arena) : nat := list_sum (map (units rg) (a_objs a)).

(* arena_root, 193-196; arena->root is the first object of a root kind (object_new,
   488-489). *)
Definition root_of (objs : list object) : option object :=
  match find (is_root rg) objs with
  | Some o => Some o
  | None => match objs with o :: _ => Some o | [] => None end
  end.

(* object_arena_name, 120-136.  I_IDENT is bit 0, so its item is the first. *)
Definition name_of (objs : list object) : res (option ident) :=
  match root_of objs with
  | None => Ok (Some unnamed)
  | Some o =>
      if N.testbit (obj_has rg o) 0 then
        match o_items o with
        | VIdent i :: _ => Ok i
        | _ => Fault
        end
      else Ok (Some unnamed)
  end.

(* ---- writing ---- *)

Section Write.
Variable wfiles : list (list N).
Variable ws : list arena.           (* all_arenas *)

(* The position of an object in the file of its unit: forward[index] >> 4, which is
   0x0fffffff for an object that was removed (object_write_ref, 787-791). *)
Definition saved (a : arena) (i : nat) : N :=
  match a_fwd a with
  | Some f => match forwarded f i with Some w => N.of_nat w | None => 268435455 end
  | None => N.of_nat i
  end.

(* object_write_ref, 779-793. *)
Definition write_ref (r : option oref) : res (list field) :=
  match r with
  | None => Ok [FUint 0]
  | Some (k, i) =>
      match nth_error ws k with
      | Some a => if k =? 0 then Fault else Ok [FUint (N.of_nat k); FUint (saved a i)]
      | None => Fault
      end
  end.

Fixpoint write_refs (l : list (option oref)) : res (list field) :=
  match l with
  | [] => Ok []
  | r :: rest => do! a <- write_ref r; do! b <- write_refs rest; Ok (a ++ b)
  end.

(* The body of the loop over the items, 853-887.  strlen of NULL and number_write of
   an item without a number are faults. *)
Definition write_oitem (t : option ityp) (it : item) (w : wctx) : res (list field * wctx) :=
  match t, it with
  | Some TIdent, VIdent i => Ok (write_ident names i w)
  | Some TObject, VObject r => do! f <- write_ref r; Ok (f, w)
  | Some TArray, VArray None => Ok ([FUint 0], w)
  | Some TArray, VArray (Some l) =>
      do! f <- write_refs l; Ok (FUint (N.of_nat (length l)) :: f, w)
  | Some TInt, VInt z => Ok ([FInt z], w)
  | Some TDouble, VDouble d => Ok ([FU64 d], w)
  | Some TText, VText (Some t) => Ok ([FUint (N.of_nat (length t)); FRaw t], w)
  | Some TNumber, VNumber (Some n) => Ok (number_write n, w)
  | _, _ => Fault
  end.

Fixpoint write_oitems (bits : list nat) (has : N) (items : list item) (w : wctx) : res (list field * wctx) :=
  match bits with
  | [] => Ok ([], w)
  | b :: rest =>
      if N.testbit has (N.of_nat b) then
        match items with
        | [] => Fault
        | it :: items =>
            do! (f1, w) <- write_oitem (type_of_bit b) it w;
            do! (f2, w) <- write_oitems rest has items w;
            Ok (f1 ++ f2, w)
        end
      else write_oitems rest has items w
  end.

(* 842-889 *)
Definition write_object (o : object) (w : wctx) : res (list field * wctx) :=
  let '(f1, w) := if c_loc (class_of rg (o_tag o)) then write_loc wfiles (o_loc o) w else ([], w) in
  do! (f2, w) <- write_oitems (List.seq 0 64) (obj_has rg o) (o_items o) w;
  Ok (FUint (N.lor (N.of_nat (o_tag o)) (N.shiftl (N.of_nat (o_kind o)) 2)) :: f1 ++ f2, w).

(* 830-890, without the objects that were removed. *)
Fixpoint write_objects (fwd : list (nat * option nat)) (l : list (nat * object)) (w : wctx)
    : res (list field * wctx) :=
  match l with
  | [] => Ok ([], w)
  | (i, o) :: rest =>
      match forwarded fwd i with
      | None => write_objects fwd rest w
      | Some _ =>
          do! (f1, w) <- write_object o w;
          do! (f2, w) <- write_objects fwd rest w;
          Ok (f1 ++ f2, w)
      end
  end.

(* 822-828 *)
Fixpoint write_deps (deps : list nat) (w : wctx) : res (list field * wctx) :=
  match deps with
  | [] => Ok ([], w)
  | k :: rest =>
      match nth_error ws k with
      | None => Fault
      | Some d =>
          do! n <- name_of (a_objs d);
          let '(f1, w) := write_ident names n w in
          do! (f2, w) <- write_deps rest w;
          Ok (FUint (N.of_nat k) :: FUint (a_std d) :: FUint (a_checksum d) :: f1 ++ f2, w)
      end
  end.

(* ALIGN_UP(live_bytes, OBJECT_PAGE_SZ); pages of 65536 bytes. *)
Definition pages (u : nat) : N := ((N.of_nat u * 16 + 65535) / 65536 * 65536)%N.

Definition END_OF_OBJECTS : N := 65535.

(* object_write, 795-893, for the root of the arena.  The standard is that of the
   process. *)
Definition write_unit (digest std : N) (key : nat) : res (list field) :=
  match nth_error ws key with
  | None => Fault
  | Some a =>
      match a_fwd a with
      | None => Fault
      | Some fwd =>
          do! n <- name_of (a_objs a);
          let '(f1, w) := write_ident names n wctx0 in
          let max_key := fold_left Nat.max (a_deps a) key in
          do! (f2, w) <- write_deps (a_deps a) w;
          do! (f3, w) <- write_objects fwd (place rg 0 (a_objs a)) w;
          Ok (FU32 digest :: FUint std :: FUint (pages (a_live a)) :: FUint (a_flags a) ::
              FUint (N.of_nat key) :: f1 ++
              FUint (N.of_nat max_key) :: FUint (N.of_nat (length (a_deps a))) :: f2 ++ f3 ++
              [FUint END_OF_OBJECTS])
      end
  end.

End Write.

(* ---- reading ---- *)

Section Read.

(* lib_load_handler: may load further units, and gives the key of the one asked for. *)
Variable loader : list arena -> ident -> option (list arena * nat).

Definition get_u64 (r : rctx) : res (N * rctx) :=
  do! (u, b) <- get_le 8 (r_buf r) 0%N; Ok (u, with_buf r b).

(* object_read_ref, 895-914, in a unit with key `own`; arena_key_t is a uint16_t. *)
Definition read_ref (ws : list arena) (own : nat) (kmap : list nat) (r : rctx) : res (option oref * rctx) :=
  do! (u, r) <- get_un r;
  let key := N.to_nat (u mod 65536) in
  if key =? 0 then Ok (None, r)
  else
    do! (off, r) <- get_un r;
    match nth_error kmap key with
    | None => Fault
    | Some mapped =>
        if mapped =? 0 then Fault
        else if mapped =? own then Ok (Some (mapped, N.to_nat off), r)
        else
          match nth_error ws mapped with
          | None => Fault
          | Some a => if N.to_nat off <? extent a then Ok (Some (mapped, N.to_nat off), r) else Fault
          end
    end.

Fixpoint read_refs (ws : list arena) (own : nat) (kmap : list nat) (n : nat) (r : rctx)
    : res (list (option oref) * rctx) :=
  match n with
  | 0 => Ok ([], r)
  | S n' =>
      do! (x, r) <- read_ref ws own kmap r;
      do! (l, r) <- read_refs ws own kmap n' r;
      Ok (x :: l, r)
  end.

(* The body of the loop over the items, 1017-1054. *)
Definition read_oitem (ws : list arena) (own : nat) (kmap : list nat) (t : option ityp) (r : rctx)
    : res (item * rctx) :=
  match t with
  | Some TIdent => do! (i, r) <- read_ident intern r; Ok (VIdent i, r)
  | Some TObject => do! (x, r) <- read_ref ws own kmap r; Ok (VObject x, r)
  | Some TArray =>
      do! (u, r) <- get_un r;
      let count := N.to_nat (u mod 2 ^ 32) in
      if count =? 0 then Ok (VArray None, r)
      else do! (l, r) <- read_refs ws own kmap count r; Ok (VArray (Some l), r)
  | Some TInt => do! (z, r) <- get_int r; Ok (VInt z, r)
  | Some TDouble => do! (d, r) <- get_u64 r; Ok (VDouble d, r)
  | Some TText =>
      do! (len, r) <- get_un r;
      do! (bs, r) <- get_raw (N.to_nat len) r;
      Ok (VText (Some bs), r)
  | Some TNumber =>
      do! (n, b) <- number_read (r_buf r); Ok (VNumber (Some n), with_buf r b)
  | None => Fault
  end.

Fixpoint read_oitems (ws : list arena) (own : nat) (kmap : list nat) (bits : list nat) (has : N) (r : rctx)
    : res (list item * rctx) :=
  match bits with
  | [] => Ok ([], r)
  | b :: rest =>
      if N.testbit has (N.of_nat b) then
        do! (it, r) <- read_oitem ws own kmap (type_of_bit b) r;
        do! (its, r) <- read_oitems ws own kmap rest has r;
        Ok (it :: its, r)
      else read_oitems ws own kmap rest has r
  end.

(* LOC_INVALID, src/diag.h 45-54. *)
Definition no_loc : loc := Loc 1048575 4095 255 255 65535.

(* 1000-1055; object_new stops for a kind that does not exist, and clears the
   memory of the object. *)
Definition read_object (ws : list arena) (own : nat) (kmap : list nat) (hdr : N) (r : rctx)
    : res (object * rctx) :=
  let tag := N.to_nat (N.land hdr 3) in
  let kind := N.to_nat (N.shiftr hdr 2 mod 2 ^ 32) in
  let c := class_of rg tag in
  if length (c_has c) <=? kind then Fault
  else
    do! (l, r) <- (if c_loc c then read_loc r else Ok (no_loc, r));
    do! (its, r) <- read_oitems ws own kmap (List.seq 0 64) (has_map c kind) r;
    let size := size_of (nth tag (reg_sizes rg) []) kind in
    Ok (Obj kind tag l (its ++ repeat (zero_item None) (room size - length its)), r).

(* 997-1056: `left` units of the arena are free.  Each turn reads a byte. *)
Fixpoint read_objects (fuel : nat) (ws : list arena) (own : nat) (kmap : list nat) (left : nat) (r : rctx)
    : res (list object * rctx) :=
  match fuel with
  | 0 => Fault
  | S f =>
      do! (hdr, r) <- get_un r;
      if (hdr =? END_OF_OBJECTS)%N then Ok ([], r)
      else
        do! (o, r) <- read_object ws own kmap hdr r;
        if left <? units rg o then Fault
        else
          do! (l, r) <- read_objects f ws own kmap (left - units rg o) r;
          Ok (o :: l, r)
  end.

Definition same_ident (a b : option ident) : bool :=
  match a, b with
  | Some x, Some y => x =? y
  | None, None => true
  | _, _ => false
  end.

(* 960-963: the first arena of the name, counted from index i. *)
Fixpoint search (l : list arena) (i : nat) (dep : option ident) : res (option nat) :=
  match l with
  | [] => Ok None
  | a :: rest =>
      do! n <- name_of (a_objs a);
      if same_ident dep n then Ok (Some i) else search rest (S i) dep
  end.

(* 951-995.  Result: the arenas, the keys of the dependencies and the map. *)
Fixpoint read_deps (n : nat) (ws : list arena) (kmap : list nat) (r : rctx)
    : res (list arena * list nat * list nat * rctx) :=
  match n with
  | 0 => Ok (ws, [], kmap, r)
  | S n' =>
      do! (u, r) <- get_un r;
      do! (dstd, r) <- get_un r;
      do! (sum, r) <- get_un r;
      do! (dep, r) <- read_ident intern r;
      do! found <- search (tl ws) 1 dep;
      do! (ws, k) <- match found with
                     | Some k => Ok (ws, k)
                     | None =>
                         match dep with
                         | None => Fault
                         | Some d => match loader ws d with Some x => Ok x | None => Fault end
                         end
                     end;
      match nth_error ws k with
      | None => Fault
      | Some a =>
          if negb (a_std a =? dstd mod 2 ^ 32)%N then Fault
          else if negb (a_checksum a =? sum mod 2 ^ 32)%N then Fault
          else
            let dkey := N.to_nat (u mod 65536) in
            if length kmap <=? dkey then Fault
            else
              do! (ws, deps, kmap, r) <- read_deps n' ws (replace kmap dkey k) r;
              Ok (ws, k :: deps, kmap, r)
      end
  end.

Definition set_arena (ws : list arena) (k : nat) (a : arena) : list arena := replace ws k a.

(* object_read, 916-1062.  The result is the arenas, the key of the new one and what
   is left to read; the object returned is the first of the arena. *)
Definition read_unit (digest std_now : N) (ws : list arena) (r : rctx) : res (list arena * nat * rctx) :=
  do! (ver, r) <- get_u32 r;
  if negb (ver =? digest)%N then Fault
  else
    do! (std, r) <- get_un r;
    let now := match ws with [] => std | _ => std_now end in
    if (now <? std)%N then Fault
    else
      do! (usize, r) <- get_un r;
      let size := (usize mod 2 ^ 32)%N in
      if negb (size mod 65536 =? 0)%N then Fault
      else
        let ws := match ws with [] => [arena0] | _ => ws end in      (* object_arena_new, 1241-1242 *)
        let own := length ws in
        if (65533 <=? N.of_nat own)%N then Fault
        else
          do! (flags, r) <- get_un r;
          do! (ukey, r) <- get_un r;
          let key := N.to_nat (ukey mod 65536) in
          do! (_, r) <- read_ident intern r;
          do! (umax, r) <- get_un r;
          let max_key := N.to_nat (umax mod 65536) in
          if max_key <? key then Fault
          else
            let empty := Arena [] None 0 std 0 flags [] in
            do! (ndeps, r) <- get_un r;
            do! (ws, deps, kmap, r) <-
              read_deps (N.to_nat ndeps) (ws ++ [empty]) (replace (repeat 0 (max_key + 1)) key own) r;
            do! (objs, r) <- read_objects (length (r_buf r)) ws own kmap (N.to_nat (size / 16)) r;
            let a := Arena objs None 0 std 0 flags deps in
            if negb (pages (extent a) =? size)%N then Fault
            else Ok (set_arena ws own a, own, r).

End Read.
End ObjFile.
