(* Model of the names of files and of the index of a library: src/lib.c *)
From Coq Require Import List Arith NArith Bool.
From Verif Require Import LibSpec.
Import ListNotations.
Local Open Scope N_scope.

(* toupper_iso88591: src/util.c:1141-1149 *)
Definition toupper (c : N) : N :=
  if (97 <=? c) && (c <=? 122) then c - 32
  else if ((224 <=? c) && (c <=? 246)) || ((248 <=? c) && (c <=? 254)) then c - 32
  else c.
Fixpoint text_eqb (a b : text) : bool :=
  match a, b with
  | [], [] => true
  | c :: a, d :: b => (c =? d) && text_eqb a b
  | _, _ => false
  end.
(* The format %02x of a char, which is signed and widened to int: src/lib.c:837 *)
Definition digit (d : N) : N := if d <? 10 then 48 + d else 87 + d.
Definition hex (c : N) : text := (if 128 <=? c then [102; 102; 102; 102; 102; 102] else []) ++ [digit (c / 16); digit (c mod 16)].
(* lib_encode_file_name: src/lib.c:824-847 *)
Fixpoint encode (esc : bool) (s : text) : text :=
  match s with
  | [] => []
  | c :: r =>
    if c =? 92 then 43 :: encode (negb esc) r
    else if esc then hex c ++ encode esc r
    else if ((c =? 46) && text_eqb s dot_elab) || ((c =? 45) && text_eqb s dash_body) then s
    else toupper c :: encode esc r
  end.
Definition file_name (s : text) : text := encode false s.

(* ident_casecmp: src/ident.c:745-783; with SSE2 only ASCII letters are folded *)
Definition toupper_ascii (c : N) : N := if (97 <=? c) && (c <=? 122) then c - 32 else c.
Definition casecmp (sse : bool) (a b : text) : bool :=
  let up := if sse then toupper_ascii else toupper in
  (length a =? length b)%nat && text_eqb (map up a) (map up b).
(* lib_name_cmp: src/lib.c:202-228 *)
Fixpoint name_loop (inext : bool) (a b : text) : bool :=
  match a, b with
  | c :: a, d :: b =>
    if (c =? 92) && (d =? 92) then name_loop (negb inext) a b
    else if inext && negb (c =? d) then false
    else if negb inext && negb (toupper c =? toupper d) then false
    else name_loop inext a b
  | _, _ => true
  end.
Definition name_cmp (sse : bool) (a b : text) : bool := if casecmp sse a b then name_loop false a b else false.

(* strcmp on the bytes of identifiers: ident_compare, src/ident.c:620-623 *)
Fixpoint compare (a b : text) : comparison :=
  match a, b with
  | [], [] => Eq
  | [], _ => Lt
  | _, [] => Gt
  | c :: a, d :: b => match c ?= d with Eq => compare a b | x => x end
  end.
(* lib_add_to_index: src/lib.c:123-146 *)
Fixpoint add {K} (n : text) (k : K) (i : index K) : index K :=
  match i with
  | [] => [(n, k)]
  | (m, x) :: r =>
    match compare m n with
    | Lt => (m, x) :: add n k r
    | Eq => (n, k) :: r
    | Gt => (n, k) :: i
    end
  end.
(* lib_read_index: src/lib.c:148-195; the pointer into the list is not moved back between entries *)
Fixpoint merge {K} (es : index K) : index K -> index K :=
  match es with
  | [] => fun i => i
  | (n, k) :: es =>
    fix walk (i : index K) : index K :=
      match i with
      | [] => (n, k) :: merge es []
      | (m, x) :: r =>
        match compare m n with
        | Lt => (m, x) :: walk r
        | Eq => (n, k) :: merge es r
        | Gt => (n, k) :: merge es i
        end
      end
  end.
(* The index file has a time and a size; [mtime] and [seen] are zero before there is one.  A
   process has the list and what it saw last: struct _lib, src/lib.c:68-85 *)
Record process (K : Type) := { list_of : index K; seen : N * nat }.
Arguments list_of {K}. Arguments seen {K}. Arguments Build_process {K}.
Record world (K : Type) := { disk : option (index K * (N * nat)); procs : nat -> process K }.
Arguments disk {K}. Arguments procs {K}. Arguments Build_world {K}.
Definition upd {K} (f : nat -> process K) (p : nat) (x : process K) : nat -> process K := fun q => if (q =? p)%nat then x else f q.
Definition stamp_eqb (a b : N * nat) : bool := (fst a =? fst b) && (snd a =? snd b)%nat.
(* lib_init, lib_put_aux and lib_save: src/lib.c:230-280, 334-388, 1103-1162.  The lock makes each
   one step.  The files of the units are left out, and [size] is the size of the file of an index. *)
Definition step {K} (size : index K -> nat) (w : world K) (o : op K) : world K :=
  match o with
  | Open p =>
    match disk w with
    | None => Build_world (disk w) (upd (procs w) p (Build_process [] (0, 0%nat)))
    | Some (i, st) => Build_world (disk w) (upd (procs w) p (Build_process (merge i []) st))
    end
  | Put p n k => Build_world (disk w) (upd (procs w) p (Build_process (add n k (list_of (procs w p))) (seen (procs w p))))
  | Save p t =>
    let l := match disk w with
             | None => list_of (procs w p)
             | Some (i, st) => if stamp_eqb st (seen (procs w p)) then list_of (procs w p) else merge i (list_of (procs w p))
             end in
    let st := (t, size l) in
    Build_world (Some (l, st)) (upd (procs w) p (Build_process l st))
  end.
Definition initial {K} : world K := Build_world None (fun _ => Build_process [] (0, 0%nat)).
Definition run {K} (size : index K -> nat) (h : list (op K)) : world K := fold_left (step size) h initial.
Definition on_disk {K} (w : world K) : index K := match disk w with None => [] | Some (i, _) => i end.
