(* Signals as chains of pieces ("nexuses") that are split on demand, and the
   index that accelerates finding the piece for an offset (src/rt/model.c). *)
From Coq Require Import List Arith Bool.
From Verif Require Import Base SenseModel.
Import ListNotations.

(* ---- values ---- *)

(* rt_value_t: up to eight bytes stored in place, or a pointer to external
   memory.  Reading one as the other is a [Fault].  [mem] is the contents of
   memory at the time of the split, which only reads it.
   Modelled: src/rt/structs.h:96-102. *)
Inductive value := Word (b : list nat) | Ptr (a : nat).

(* value_ptr: where the bytes of a value of n bytes are.
   Modelled: src/rt/model.c:1129-1136. *)
Definition value_bytes (mem : nat -> nat) (n : nat) (v : value) : res (list nat) :=
  if n <=? 8
  then match v with Word b => Ok (firstn n b) | Ptr _ => Fault end
  else match v with Ptr a => Ok (map mem (seq a n)) | Word _ => Fault end.

(* split_value: the value of the new piece and of the old piece.  [junk] is what
   was in the new value before (eight bytes).  The right shift of a
   little-endian 64-bit word drops its first bytes.
   Modelled: src/rt/model.c:1445-1478. *)
Definition split_value (mem : nat -> nat) (junk : list nat) (wnew size off : nat) (v : value)
  : res (value * value) :=
  let split := off * size in
  let oldsz := (off + wnew) * size in
  let newsz := wnew * size in
  let load a n := map mem (seq a n) in
  if (8 <? split) && (8 <? newsz) then
    match v with Ptr a => Ok (Ptr (a + split), v) | Word _ => Fault end
  else if 8 <? newsz then
    match v with Ptr a => Ok (Ptr (a + split), Word (load a 8)) | Word _ => Fault end
  else if 8 <? split then
    match v with Ptr a => Ok (Word (load (a + split) newsz ++ skipn newsz junk), v) | Word _ => Fault end
  else if 8 <? oldsz then
    match v with
    | Ptr a => Ok (Word (load (a + split) newsz ++ skipn newsz junk), Word (load a 8))
    | Word _ => Fault
    end
  else
    match v with Word b => Ok (Word (skipn split b ++ repeat 0 split), v) | Ptr _ => Fault end.

(* ---- sources and pieces ---- *)

(* Modelled: src/rt/structs.h:104-174 (waveform_t, rt_driver_t, rt_pseudo_t,
   rt_source_t).  For a forcing or deposit source only the value of [s_cur] is
   used.  Port and implicit sources are not modelled, so neither is the
   recursive splitting of connected signals. *)
Inductive skind := KDriver | KForcing | KDeposit.
Record src := Src {
  s_kind : skind; s_proc : nat; s_disc : bool; s_queued : bool;
  s_cur : nat * value; s_pend : list (nat * value) }.

(* A piece: identity, width in elements, element size and offset in bytes, the
   fields that are copied verbatim (flags, active_delta, event_delta,
   last_event, rank), its sensitivity set and its sources.
   Modelled: src/rt/structs.h:183-203 (rt_nexus_t). *)
Record piece (A : Type) := Piece {
  p_id : nat; p_width : nat; p_size : nat; p_off : nat;
  p_attr : A; p_sens : pending; p_srcs : list src }.
Arguments Piece {A}. Arguments p_id {A}. Arguments p_width {A}. Arguments p_size {A}.
Arguments p_off {A}. Arguments p_attr {A}. Arguments p_sens {A}. Arguments p_srcs {A}.

(* Splitting the pending transactions of a driver; each transaction of the new
   driver is scheduled again, [events] are the delays passed to
   deltaq_insert_driver (64-bit subtraction).  The assertion compares unsigned.
   Modelled: src/rt/model.c:1534-1545. *)
Fixpoint split_pend (mem : nat -> nat) (junk : list nat) (now wnew size off : nat)
  (l : list (nat * value)) : res (list (nat * value) * list (nat * value) * list nat) :=
  match l with
  | [] => Ok ([], [], [])
  | (t, v) :: l' =>
    do! (vn, vo) <- split_value mem junk wnew size off v;
    if now <=? t then
      do! (ln, lo, ev) <- split_pend mem junk now wnew size off l';
      Ok ((t, vn) :: ln, (t, vo) :: lo, (t - now) :: ev)
    else Fault
  end.

(* clone_source: the new source, the updated old source, the delays scheduled.
   A new source is connected and not queued, whatever the old one is.
   Modelled: src/rt/model.c:1480-1551 with add_source 1225-1281. *)
Definition clone_source (mem : nat -> nat) (junk : list nat) (now wnew size off : nat) (o : src)
  : res (src * src * list nat) :=
  match s_kind o with
  | KDriver =>
    do! (vn, vo) <- split_value mem junk wnew size off (snd (s_cur o));
    do! (ln, lo, ev) <- split_pend mem junk now wnew size off (s_pend o);
    Ok (Src KDriver (s_proc o) false false (fst (s_cur o), vn) ln,
        Src KDriver (s_proc o) (s_disc o) (s_queued o) (fst (s_cur o), vo) lo, ev)
  | KForcing | KDeposit =>
    do! (vn, vo) <- split_value mem junk wnew size off (snd (s_cur o));
    if s_queued o then Fault
    else Ok (Src (s_kind o) (s_proc o) false false (fst (s_cur o), vn) [],
             Src (s_kind o) (s_proc o) (s_disc o) (s_queued o) (fst (s_cur o), vo) (s_pend o), [])
  end.

Fixpoint clone_sources (mem : nat -> nat) (junk : list nat) (now wnew size off : nat) (l : list src)
  : res (list src * list src * list nat) :=
  match l with
  | [] => Ok ([], [], [])
  | o :: l' =>
    do! (sn, so, e1) <- clone_source mem junk now wnew size off o;
    do! (ln, lo, e2) <- clone_sources mem junk now wnew size off l';
    Ok (sn :: ln, so :: lo, e1 ++ e2)
  end.

(* ---- the index ---- *)

(* index->how: a shift, or minus a divisor.  Modelled: src/rt/structs.h
   rt_index_t. *)
Inductive how := HShift (k : nat) | HDiv (g : nat).
Record index := Index { i_how : how; i_count : nat; i_arr : nat -> option nat }.

Definition unit_of (h : how) : nat := match h with HShift k => 2 ^ k | HDiv g => g end.
(* Modelled: src/rt/model.c:1283-1305 (map_index, unmap_index, index_valid);
   shifting by k is division and multiplication by 2^k. *)
Definition map_index (h : how) (off : nat) : nat := off / unit_of h.
Definition unmap_index (h : how) (key : nat) : nat := key * unit_of h.
Definition index_valid (h : how) (off : nat) : bool :=
  match h with
  | HShift k => (off / 2 ^ k) * 2 ^ k =? off
  | HDiv g => off mod g =? 0
  end.

(* __builtin_ctz of a positive number. *)
Fixpoint ctz (fuel n : nat) : nat :=
  match fuel with
  | 0 => 0
  | S fuel' => if n mod 2 =? 0 then S (ctz fuel' (n / 2)) else 0
  end.

(* for (b = offset; b > 0;) { temp = b; b = gcd % b; gcd = temp; }
   Modelled: src/rt/model.c:1321-1325. *)
Fixpoint euclid (fuel g b : nat) : nat :=
  match fuel with
  | 0 => g
  | S fuel' => if b =? 0 then g else euclid fuel' b (g mod b)
  end.

(* The first loop of build_index: minimum number of trailing zeros ([None] for
   INT_MAX) and greatest common divisor of the starts of the pieces. *)
Fixpoint scan_starts (off : nat) (widths : list nat) (shift : option nat) (g : nat) : option nat * nat :=
  match widths with
  | [] => (shift, g)
  | w :: ws =>
    let shift := if 0 <? off
                 then Some (match shift with None => ctz off off | Some s => Nat.min s (ctz off off) end)
                 else shift in
    scan_starts (off + w) ws shift (euclid (S off) g off)
  end.

Fixpoint fill_index {A} (h : how) (count off : nat) (ps : list (piece A)) (arr : nat -> option nat)
  : res (nat -> option nat) :=
  match ps with
  | [] => Ok arr
  | p :: ps' =>
    let k := map_index h off in
    if k <? count
    then fill_index h count (off + p_width p) ps' (fun j => if j =? k then Some (p_id p) else arr j)
    else Fault
  end.

Definition total {A} (ps : list (piece A)) : nat := list_sum (map p_width ps).

(* Modelled: src/rt/model.c:1307-1349 (build_index); [w] is the width of the
   whole signal (shared.size / size).  A store outside the array is a [Fault],
   and so is shifting by INT_MAX when there is no second piece. *)
Definition build_index {A} (w : nat) (ps : list (piece A)) : res index :=
  let '(shift, g) := scan_starts 0 (map p_width ps) None 0 in
  match shift with
  | None => Fault
  | Some k =>
    let h := if (1 <? g) && (2 ^ k <? g) then HDiv g else HShift k in
    let count := match h with HDiv g => (w + g - 1) / g | HShift k => w / 2 ^ k + 1 end in
    do! arr <- fill_index h count 0 ps (fun _ => None);
    Ok (Index h count arr)
  end.

(* ---- the signal ---- *)

Record signal (A : Type) := Signal {
  g_size : nat; g_width : nat; g_pieces : list (piece A); g_index : option index; g_next : nat }.
Arguments Signal {A}. Arguments g_size {A}. Arguments g_width {A}. Arguments g_pieces {A}.
Arguments g_index {A}. Arguments g_next {A}.

(* Modelled: src/rt/model.c:1351-1366 (update_index) and the end of clone_nexus,
   1635-1638: [n] is the id of the new piece and [start] its offset in elements.
   Both assertions are checked. *)
Definition opt_eqb (a b : option nat) : bool :=
  match a, b with
  | Some x, Some y => x =? y
  | None, None => true
  | _, _ => false
  end.

Definition reindex {A} (w : nat) (ps : list (piece A)) (ix : option index) (n start : nat)
  : res (option index) :=
  match ix with
  | None => if 8 <=? length ps then (do! i <- build_index w ps; Ok (Some i)) else Ok None
  | Some i =>
    if index_valid (i_how i) start then
      let k := map_index (i_how i) start in
      if (k <? i_count i) && opt_eqb (i_arr i k) None
      then Ok (Some (Index (i_how i) (i_count i) (fun j => if j =? k then Some n else i_arr i j)))
      else Fault
    else
      do! i' <- build_index w ps;
      if opt_eqb (i_arr i' (map_index (i_how i') start)) (Some n) then Ok (Some i') else Fault
  end.

(* clone_nexus applied to the piece at position [pos] of the chain: the piece is
   cut after [off] elements.  Also returns the delays scheduled.
   Modelled: src/rt/model.c:1553-1641, without outputs and conversions; the
   signal-wide fast-driver flag belongs to KernelModel.v. *)
Definition clone_nexus {A} (mem : nat -> nat) (junk : list nat) (now : nat)
  (s : signal A) (pos off : nat) : res (signal A * list nat) :=
  match nth_error (g_pieces s) pos with
  | None => Fault
  | Some p =>
    if off <? p_width p then
      let wnew := p_width p - off in
      do! (sn, so, ev) <- clone_sources mem junk now wnew (p_size p) off (p_srcs p);
      let new := Piece (g_next s) wnew (p_size p) (p_off p + off * p_size p)
                       (p_attr p) (p_sens p) sn in
      let old := Piece (p_id p) off (p_size p) (p_off p) (p_attr p) (p_sens p) so in
      let ps := firstn pos (g_pieces s) ++ old :: new :: skipn (S pos) (g_pieces s) in
      do! ix <- reindex (g_width s) ps (g_index s) (p_id new) (p_off new / p_size new);
      Ok (Signal (g_size s) (g_width s) ps ix (S (g_next s)), ev)
    else Fault
  end.

(* The position of the piece with a given id. *)
Fixpoint position {A} (id : nat) (ps : list (piece A)) : option nat :=
  match ps with
  | [] => None
  | p :: ps' => if p_id p =? id then Some 0
                else match position id ps' with Some k => Some (S k) | None => None end
  end.

(* lookup_index: the piece to start from (as a position), the remaining offset
   and the possibly discarded index.  The first test of the C function compares
   the address of the offset with NULL and is never true.
   Modelled: src/rt/model.c:1368-1388. *)
Fixpoint find_down (arr : nat -> option nat) (k : nat) : option (nat * nat) :=
  match arr k with
  | Some id => Some (k, id)
  | None => match k with 0 => None | S k' => find_down arr k' end
  end.

Definition lookup_index {A} (s : signal A) (off : nat) : res (nat * nat * option index) :=
  match g_index s with
  | None => Ok (0, off, None)
  | Some i =>
    if index_valid (i_how i) off then
      let key := map_index (i_how i) off in
      if key <? i_count i then
        match find_down (i_arr i) key with
        | Some (k, id) =>
          match position id (g_pieces s) with
          | Some pos => Ok (pos, unmap_index (i_how i) (key - k), Some i)
          | None => Fault
          end
        | None => Ok (0, off, Some i)
        end
      else Fault
    else Ok (0, off, None)
  end.

(* The loop of split_nexus_slow.  [result] is the position of the first piece of
   the range.  Running off the end of the chain is a [Fault].
   Modelled: src/rt/model.c:1643-1669. *)
Fixpoint split_loop {A} (fuel : nat) (mem : nat -> nat) (junk : list nat) (now : nat)
  (s : signal A) (pos off count : nat) (result : option nat) (evs : list nat)
  : res (signal A * option nat * list nat) :=
  if count =? 0 then Ok (s, result, evs) else
  match fuel with
  | 0 => Fault
  | S fuel' =>
    match nth_error (g_pieces s) pos with
    | None => Fault
    | Some it =>
      if p_width it <=? off then
        split_loop fuel' mem junk now s (S pos) (off - p_width it) count result evs
      else if 0 <? off then
        do! (s', ev) <- clone_nexus mem junk now s pos off;
        split_loop fuel' mem junk now s' (S pos) 0 count result (evs ++ ev)
      else
        do! (s', ev) <- (if count <? p_width it then clone_nexus mem junk now s pos count else Ok (s, []));
        let w := Nat.min count (p_width it) in
        split_loop fuel' mem junk now s' (S pos) off (count - w)
                   (match result with None => Some pos | Some r => Some r end) (evs ++ ev)
    end
  end.

(* Modelled: src/rt/model.c:1671-1683 (split_nexus). *)
Definition split_nexus {A} (mem : nat -> nat) (junk : list nat) (now : nat)
  (s : signal A) (off count : nat) : res (signal A * option nat * list nat) :=
  match g_pieces s with
  | [] => Fault
  | n0 :: _ =>
    if (off =? 0) && (p_width n0 =? count) then Ok (s, Some 0, [])
    else if (off =? 0) && (count =? g_width s) then Ok (s, Some 0, [])
    else
      do! (pos, off', ix) <- lookup_index s off;
      let s := Signal (g_size s) (g_width s) (g_pieces s) ix (g_next s) in
      split_loop (S (S (length (g_pieces s)))) mem junk now s pos off' count None []
  end.
