(* Data layouts: src/jit/jit-layout.c, used by the waveform writer, VHPI and reflection,
   and the sizes and offsets the code generator uses, src/jit/jit-irgen.c:757-871 and
   2051-2078 on the types made by src/lower.c:268-278, 582-760. *)
From Coq Require Import List ZArith Bool.
From Verif Require Import Base.
Import ListNotations.
Open Scope Z_scope.

(* The types a layout can be asked for.  [TInt] is an integer, physical or enumeration
   type with the bounds of its base type; an array has for each dimension its length if
   the range folds to a constant ([None] for an open or unknown one).  Every other kind
   of type is a fatal error. *)
Inductive ty :=
| TInt (low high : Z)
| TReal
| TArray (dims : list (option Z)) (elem : ty)
| TRecord (fields : list ty).

(* layout_part_t and jit_layout_t, src/jit/jit-layout.h:31-46. *)
Inductive pclass := LcData | LcBounds | LcOffset | LcExternal.
Record part := Part { poffset : Z; psize : Z; prepeat : Z; palign : Z; pkind : pclass }.
Record layout := Layout { lsize : Z; lalign : Z; lparts : list part }.

(* A value of C type int: going outside its range is undefined. *)
Definition int32 (x : Z) : res Z := if (- 2 ^ 31 <=? x) && (x <? 2 ^ 31) then Ok x else Fault.
(* Conversion to int. *)
Definition wrap32 (x : Z) : Z := (x + 2 ^ 31) mod 2 ^ 32 - 2 ^ 31.

(* Modelled: src/util.h:89-92 (ALIGN_UP), without its assertion. *)
Definition align_up (p a : Z) : Z := Z.land (p + a - 1) (Z.lnot (a - 1)).

(* Modelled: src/common.c:882-910 (bits_for_range). *)
Definition bits_for_range (low high : Z) : Z :=
  if high <? low then 0
  else if low <? 0 then
    if (- 2 ^ 7 <=? low) && (high <=? 2 ^ 7 - 1) then 8
    else if (- 2 ^ 15 <=? low) && (high <=? 2 ^ 15 - 1) then 16
    else if (- 2 ^ 31 <=? low) && (high <=? 2 ^ 31 - 1) then 32
    else 64
  else
    if high <=? 1 then 1
    else if high <=? 2 ^ 8 - 1 then 8
    else if high <=? 2 ^ 16 - 1 then 16
    else if high <=? 2 ^ 32 - 1 then 32
    else 64.

Definition is_open (d : option Z) : bool := match d with None => true | Some _ => false end.
(* folded_length never gives a negative length. *)
Definition dim_length (d : option Z) : Z := match d with Some n => Z.max n 0 | None => 0 end.

(* Modelled: src/jit/jit-layout.c:28-51 (count_sub_elements). *)
Fixpoint count_sub_elements (t : ty) : Z :=
  match t with
  | TArray dims e =>
    if existsb is_open dims then -1
    else fold_left (fun n d => wrap32 (n * dim_length d)) dims (count_sub_elements e)
  | _ => 1
  end.

(* Modelled: src/type.c:946-951 (type_elem_recur). *)
Fixpoint elem_recur (t : ty) : ty := match t with TArray _ e => elem_recur e | _ => t end.

Definition scalar_layout (size : Z) : layout := Layout size size [Part 0 size 1 size LcData].

(* Modelled: src/jit/jit-layout.c:133-145, the open array. *)
Definition open_layout (ndims : Z) : layout :=
  Layout (8 + ndims * 2 * 8) 8 [Part 0 8 1 8 LcExternal; Part 8 8 (ndims * 2) 8 LcBounds].

(* Modelled: src/jit/jit-layout.c:153-169, the loop over the fields; [lay] is layout_of. *)
Fixpoint place_fields (ls : list layout) (offset : Z) : res (list part * Z) :=
  match ls with
  | [] => Ok ([], offset)
  | fl :: ls' =>
    let offset1 := align_up offset (lalign fl) in
    do! offset2 <- int32 (offset1 + lsize fl);
    do! (ps, total) <- place_fields ls' offset2;
    Ok (Part offset1 (lsize fl) 1 (lalign fl) LcData :: ps, total)
  end.

Definition record_layout (ls : list layout) : res layout :=
  do! (ps, total) <- place_fields ls 0;
  Ok (Layout total 8 ps).

Definition array_layout (nelems : Z) (el : layout) : res layout :=
  do! size <- int32 (nelems * lsize el);
  Ok (Layout size (lalign el) [Part 0 (lsize el) nelems (lalign el) LcData]).

(* The layout of a type and that of its element type (type_elem_recur). *)
Fixpoint layouts (t : ty) : res layout * res layout :=
  match t with
  | TInt low high =>
    let l := Ok (scalar_layout (align_up (bits_for_range low high) 8 / 8)) in (l, l)
  | TReal => let l := Ok (scalar_layout 8) in (l, l)
  | TArray dims e =>
    let el := snd (layouts e) in
    let nelems := count_sub_elements t in
    (if 0 <=? nelems then do! l <- el; array_layout nelems l
     else Ok (open_layout (Z.of_nat (length dims))), el)
  | TRecord fs =>
    let l := do! ls <- (fix go (fs : list ty) : res (list layout) :=
                          match fs with
                          | [] => Ok []
                          | f :: fs' => do! l <- fst (layouts f); do! ls <- go fs'; Ok (l :: ls)
                          end) fs;
             record_layout ls in
    (l, l)
  end.

(* Modelled: src/jit/jit-layout.c:68-181 (layout_of), without the cache.  An array type
   whose number of elements is not known gets the layout of its base type, which is that
   of an open array with as many dimensions. *)
Definition layout_of (t : ty) : res layout := fst (layouts t).

(* ---- signals ---- *)

(* Modelled: src/type.c:906-936 (type_const_bounds). *)
Fixpoint const_bounds (t : ty) : bool :=
  match t with
  | TInt _ _ | TReal => true
  | TArray dims e => negb (existsb is_open dims) && const_bounds e
  | TRecord fs => forallb const_bounds fs
  end.

(* Modelled: src/type.c:984-992 (type_is_homogeneous). *)
Fixpoint homogeneous (t : ty) : bool :=
  match t with TInt _ _ | TReal => true | TArray _ e => homogeneous e | TRecord _ => false end.

(* Modelled: src/jit/jit-layout.c:244-271, 275-314. *)
Definition signal_array_layout (bounds homog : bool) (ndims : Z) : layout :=
  let size1 := 8 in
  let p1 := Part 0 8 1 8 LcExternal in
  let size2 := if homog then size1 + 8 else size1 in
  let p2 := if homog then [Part (align_up size1 8) 8 1 8 LcOffset] else [] in
  let size3 := if bounds then size2 + 8 * (ndims * 2) else size2 in
  let p3 := if bounds then [Part (align_up size2 8) 8 (ndims * 2) 8 LcBounds] else [] in
  Layout size3 8 (p1 :: p2 ++ p3).

(* Modelled: src/jit/jit-layout.c:183-321 (signal_layout_of), without the cache. *)
Fixpoint signal_layout_of (t : ty) : res layout :=
  match t with
  | TInt _ _ | TReal => Ok (Layout 16 8 [Part 0 8 1 8 LcExternal; Part 8 8 1 8 LcOffset])
  | TRecord fs =>
    do! ls <- (fix go (fs : list ty) : res (list layout) :=
                 match fs with
                 | [] => Ok []
                 | f :: fs' => do! l <- signal_layout_of f; do! ls <- go fs'; Ok (l :: ls)
                 end) fs;
    record_layout ls
  | TArray dims _ =>
    Ok (signal_array_layout (negb (const_bounds t)) (homogeneous t) (Z.of_nat (length dims)))
  end.

(* ---- the code generator ---- *)

(* Modelled: src/mir/mir-type.c:451-475 (mir_int_type) and irgen_repr_bits: the size in
   bits of an integer in memory; a null range is stored in 64 bits. *)
Definition repr_bits (low high : Z) : Z :=
  let b := bits_for_range low high in if b =? 0 then 64 else b.

(* Modelled: src/lower.c:268-278 (dims_for_type). *)
Fixpoint dims_for_type (t : ty) : Z :=
  match t with
  | TArray dims e =>
    Z.of_nat (length dims) +
    match e with TArray _ _ => if const_bounds e then 0 else dims_for_type e | _ => 0 end
  | _ => 0
  end.

(* Modelled: src/lower.c:582-596 (lower_array_const_size), exact. *)
Fixpoint const_size (t : ty) : Z :=
  match t with
  | TArray dims e => fold_left (fun n d => n * dim_length d) dims 1 * const_size e
  | _ => 1
  end.

(* One turn of the loops in src/jit/jit-irgen.c:832-838 and 2065-2071. *)
Fixpoint code_end (sas : list (Z * Z)) (offset : Z) : Z :=
  match sas with
  | [] => offset
  | (size, align) :: sas' => code_end sas' (align_up offset align + size)
  end.

(* Modelled: src/jit/jit-irgen.c:757-785 (irgen_align_of) and 808-871 (irgen_size_bytes)
   on the type made by lower_type (src/lower.c:598-688): size and alignment of a type and
   of its element type.  Arithmetic is exact. *)
Fixpoint code_layouts (t : ty) : (Z * Z) * (Z * Z) :=
  match t with
  | TInt low high => let s := align_up (repr_bits low high) 8 / 8 in ((s, s), (s, s))
  | TReal => ((8, 8), (8, 8))
  | TArray dims e =>
    let el := snd (code_layouts e) in
    (if const_bounds t then (const_size t * fst el, snd el) else (8 + 2 * 8 * dims_for_type t, 8), el)
  | TRecord fs =>
    let l := (align_up (code_end (map (fun f => fst (code_layouts f)) fs) 0) 8, 8) in (l, l)
  end.
Definition code_size (t : ty) : Z := fst (fst (code_layouts t)).
Definition code_align (t : ty) : Z := snd (fst (code_layouts t)).

(* Modelled: src/jit/jit-irgen.c:2051-2078 (irgen_op_record_ref), the offset of field [k]. *)
Definition code_offset (fs : list ty) (k : nat) : Z :=
  match nth_error fs k with
  | Some f => align_up (code_end (map (fun f => (code_size f, code_align f)) (firstn k fs)) 0) (code_align f)
  | None => 0
  end.

(* Modelled: src/lower.c:713-754 (lower_signal_type), scalars, homogeneous arrays and
   records, with irgen_align_of and irgen_size_bytes (a signal is 8 + 4 bytes). *)
Fixpoint code_signal (t : ty) : Z * Z :=
  match t with
  | TInt _ _ | TReal => (12, 8)
  | TArray dims e => if const_bounds t then (12, 8) else (2 * 8 + 2 * 8 * dims_for_type t, 8)
  | TRecord fs => (align_up (code_end (map code_signal fs) 0) 8, 8)
  end.
Definition code_signal_offset (fs : list ty) (k : nat) : Z :=
  match nth_error fs k with
  | Some f => align_up (code_end (map code_signal (firstn k fs)) 0) (snd (code_signal f))
  | None => 0
  end.
