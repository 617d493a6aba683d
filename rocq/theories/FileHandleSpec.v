(* What a VHDL file object is: closed, or associated with the external file that was opened
   through it.  Nothing here refers to the model. *)
From Coq Require Import List ZArith Bool.
Import ListNotations.
Local Open Scope Z_scope.

(* An external file as the host sees it; 0 and 1 are the standard input and output. *)
Definition host_file := Z.

(* Operations on file objects.  [Open v name mode host status] opens the file object [v]:
   [host] is what the host answers for that name and mode, a file or an error; [status] says
   whether the form of FILE_OPEN with a status parameter is used.  [Use v] is any operation
   that reaches the external file: READ, WRITE, ENDFILE, FLUSH, FILE_REWIND, FILE_SEEK. *)
Inductive host_answer := Gives (f : host_file) | NoAccess | Missing | OtherError.
Inductive op :=
| Open (v : nat) (name : list Z) (mode : Z) (host : host_answer) (status : bool)
| Close (v : nat)
| Use (v : nat)
| Mode (v : nat)
| Name (v : nat)
| State (v : nat).

(* What is observed. *)
Inductive outcome :=
| Status (s : Z)              (* 0 OPEN_OK, 1 STATUS_ERROR, 2 NAME_ERROR, 3 MODE_ERROR *)
| Failed                      (* an error that ends the simulation *)
| Closes (f : option host_file)  (* the external file given back to the host *)
| Reaches (f : host_file)
| IsMode (m : Z)
| IsName (n : option (list Z))
| IsOpen (b : bool).

(* A file object *)
Record assoc := Assoc { a_file : host_file; a_own : bool; a_name : list Z; a_mode : Z }.
Definition objects := nat -> option assoc.
Definition set (o : objects) (v : nat) (a : option assoc) : objects :=
  fun w => if Nat.eqb w v then a else o w.

(* The name up to the first NUL, as the host sees it. *)
Fixpoint host_name (n : list Z) : list Z :=
  match n with [] => [] | c :: n => if c =? 0 then [] else c :: host_name n end.
Definition std_input : list Z := [83; 84; 68; 95; 73; 78; 80; 85; 84].
Definition std_output : list Z := [83; 84; 68; 95; 79; 85; 84; 80; 85; 84].

Definition open_status (status : bool) (s : Z) : outcome :=
  if status then Status s else if s =? 0 then Status 0 else Failed.

Definition spec_open (o : objects) v name mode host status : objects * outcome :=
  match o v with
  | Some _ => (o, open_status status 1)
  | None =>
      if Nat.eqb (length name) 0 then (o, open_status status 2)
      else if list_eq_dec Z.eq_dec (host_name name) std_input
      then (set o v (Some (Assoc 0 false std_input mode)), open_status status 0)
      else if list_eq_dec Z.eq_dec (host_name name) std_output
      then (set o v (Some (Assoc 1 false std_output mode)), open_status status 0)
      else match host with
           | Gives f => (set o v (Some (Assoc f true (host_name name) mode)),
                         open_status status 0)
           | NoAccess => (o, open_status status 3)
           | Missing | OtherError => (o, open_status status 2)
           end
  end.

Definition spec_step (o : objects) (x : op) : objects * outcome :=
  match x with
  | Open v name mode host status => spec_open o v name mode host status
  | Close v =>
      (set o v None,
       Closes (match o v with
               | Some a => if a_own a then Some (a_file a) else None
               | None => None
               end))
  | Use v => (o, match o v with Some a => Reaches (a_file a) | None => Failed end)
  | Mode v => (o, match o v with Some a => IsMode (a_mode a) | None => Failed end)
  | Name v => (o, IsName (match o v with Some a => Some (a_name a) | None => None end))
  | State v => (o, IsOpen (match o v with Some _ => true | None => false end))
  end.

Fixpoint spec_run (o : objects) (xs : list op) : list outcome :=
  match xs with
  | [] => []
  | x :: xs => let '(o, r) := spec_step o x in r :: spec_run o xs
  end.

Definition all_closed : objects := fun _ => None.

Definition is_open (x : op) : bool := match x with Open _ _ _ _ _ => true | _ => false end.
Definition opens (xs : list op) : nat := length (filter is_open xs).
