(* Model of the table of open files, src/rt/fileio.c.

   A FILE pointer is an identifier of the host's file (FileHandleSpec.host_file); the
   contents of files are left out, as are the operations on positions and sizes, which
   decode the handle in the same way.  [jit_msg] with DIAG_FATAL is the outcome [Failed]. *)
From Coq Require Import List ZArith Arith Bool.
From Verif Require Import Base FileHandleSpec.
Import ListNotations.
Local Open Scope Z_scope.

(* file_slot_t: src/rt/fileio.c:73-79 *)
Record slot := Slot {
  sl_file : option host_file; sl_name : list Z; sl_user : bool; sl_mode : Z; sl_gen : Z }.

(* HANDLE_BITS, HANDLE_MAX_INDEX: src/rt/fileio.c:81-82 with file_handle_t of 32 bits
   (src/rt/fileio.h:30) *)
Definition HANDLE_MAX_INDEX : Z := 2 ^ 16 - 1.

(* handles (with num_handles) and free_hint: src/rt/fileio.c:84-86 *)
Record table := Table { handles : list slot; free_hint : nat }.

(* decode_handle: src/rt/fileio.c:88-104 *)
Definition decode_handle (t : table) (h : Z) : option (nat * slot) :=
  let index := Z.land h HANDLE_MAX_INDEX in
  let generation := Z.shiftr h 16 in
  if (h =? 0) || (Z.of_nat (length (handles t)) <=? index) then None
  else
    match nth_error (handles t) (Z.to_nat index) with
    | None => None
    | Some s =>
        match sl_file s with
        | None => None
        | Some _ => if negb (sl_gen s =? generation) then None
                    else Some (Z.to_nat index, s)
        end
    end.

(* The search of handle_for: src/rt/fileio.c:113-118 *)
Fixpoint free_slot (hs : list slot) (index : nat) : nat :=
  match hs with
  | [] => index
  | s :: hs =>
      match sl_file s with
      | None => if sl_gen s <? HANDLE_MAX_INDEX then index else free_slot hs (S index)
      | Some _ => free_slot hs (S index)
      end
  end.

Definition store (hs : list slot) (i : nat) (s : slot) : list slot :=
  firstn i hs ++ s :: skipn (S i) hs.

(* A slot that was never used: src/rt/fileio.c:127-130 *)
Definition fresh_slot : slot := Slot None [] false 0 1.

(* handle_for: src/rt/fileio.c:106-142; [None] is the fatal error at line 121 *)
Definition handle_for (t : table) (f : host_file) (name : list Z) (user : bool) (mode : Z)
  : option (table * Z) :=
  let hs := handles t in
  let index :=
    match nth_error hs (free_hint t) with
    | None => free_slot hs 0
    | Some s => match sl_file s with Some _ => free_slot hs 0 | None => free_hint t end
    end in
  if HANDLE_MAX_INDEX <? Z.of_nat index then None
  else
    let hs :=
      if Nat.eqb index (length hs)
      then hs ++ repeat fresh_slot (Nat.max (length hs * 2) 16 - length hs)
      else hs in
    match nth_error hs index with
    | None => None
    | Some s =>
        let hs := store hs index (Slot (Some f) name user mode (sl_gen s)) in
        Some (Table hs (index + 1), Z.lor (Z.shiftl (sl_gen s) 16) (Z.of_nat index))
    end.

(* drop_handle: src/rt/fileio.c:144-159; the file given to fclose *)
Definition drop_handle (t : table) (h : Z) : table * option host_file :=
  match decode_handle t h with
  | None => (t, None)
  | Some (i, s) =>
      let closed := if sl_user s then sl_file s else None in
      let s' := Slot None (sl_name s) (sl_user s) (sl_mode s) ((sl_gen s + 1) mod 2 ^ 16) in
      (Table (store (handles t) i s') i, closed)
  end.

(* The table and the handles in the file objects of the design; an object holds 0 before it
   is opened (src/lower.c:8311-8318) *)
Record files := Files { tab : table; obj : nat -> Z }.

(* x_file_open: src/rt/fileio.c:395-450 *)
Definition x_file_open (w : files) v name mode host (status : bool) : files * outcome :=
  let result s := if status then Status s else if s =? 0 then Status 0 else Failed in
  let fname := host_name name in
  let opened f user :=
    match handle_for (tab w) f fname user mode with
    | None => (w, Failed)
    | Some (t, h) => (Files t (upd (obj w) v h), result 0)
    end in
  if negb (obj w v =? 0) then (w, result 1)
  else if Nat.eqb (length name) 0 then (w, result 2)
  else if list_eq_dec Z.eq_dec fname std_input then opened 0 false
  else if list_eq_dec Z.eq_dec fname std_output then opened 1 false
  else match host with
       | Gives f => opened f true
       | Missing => (w, result 2)
       | NoAccess => (w, result 3)
       | OtherError => (w, result 2)
       end.

(* __nvc_file_close: src/rt/fileio.c:188-194 *)
Definition file_close (w : files) v : files * outcome :=
  let '(t, f) := drop_handle (tab w) (obj w v) in
  (Files t (upd (obj w) v 0), Closes f).

(* x_file_read, x_file_write, __nvc_endfile, __nvc_flush, __nvc_rewind, __nvc_seek:
   src/rt/fileio.c:196-254, 452-476, as far as the file they reach *)
Definition file_use (w : files) v : outcome :=
  match decode_handle (tab w) (obj w v) with
  | None => Failed
  | Some (_, s) => match sl_file s with Some f => Reaches f | None => Failed end
  end.

(* __nvc_file_mode: src/rt/fileio.c:321-331 *)
Definition file_mode (w : files) v : outcome :=
  match decode_handle (tab w) (obj w v) with
  | None => Failed
  | Some (_, s) => IsMode (sl_mode s)
  end.

(* file_logical_name: src/rt/fileio.c:171-179 *)
Definition file_logical_name (w : files) v : outcome :=
  match decode_handle (tab w) (obj w v) with
  | None => IsName None
  | Some (_, s) => IsName (Some (sl_name s))
  end.

(* __nvc_file_state: src/rt/fileio.c:312-319 *)
Definition file_state (w : files) v : outcome :=
  match decode_handle (tab w) (obj w v) with
  | None => IsOpen false
  | Some _ => IsOpen true
  end.

Definition step (w : files) (x : op) : files * outcome :=
  match x with
  | Open v name mode host status => x_file_open w v name mode host status
  | Close v => file_close w v
  | Use v => (w, file_use w v)
  | Mode v => (w, file_mode w v)
  | Name v => (w, file_logical_name w v)
  | State v => (w, file_state w v)
  end.

Fixpoint run (w : files) (xs : list op) : list outcome :=
  match xs with
  | [] => []
  | x :: xs => let '(w, r) := step w x in r :: run w xs
  end.

Definition start : files := Files (Table [] 0) (fun _ => 0).

(* Copies of handles: the table alone, with the handles that were given out. *)
Inductive top := TOpen (f : host_file) | TClose (h : Z).
Definition tstep (t : table) (x : top) : table :=
  match x with
  | TOpen f => match handle_for t f [] true 0 with Some (t, _) => t | None => t end
  | TClose h => fst (drop_handle t h)
  end.
Definition trun (t : table) (xs : list top) : table := fold_left tstep xs t.
Definition is_topen (x : top) : bool := match x with TOpen _ => true | TClose _ => false end.
Definition topens (xs : list top) : nat := length (filter is_topen xs).
