(* Verilog user-defined primitives, src/vlog/vlog-udp.c:114-373 (vlog_lower_udp): the
   process that is built for a table, and how it runs. *)
From Coq Require Import List NArith Bool Arith.
From Verif Require Import Base NumberModel.
Import ListNotations.
Open Scope N_scope.

(* ---- the code that is built ---- *)

(* Conditions of the tests: [Eq j v] compares the logic value of input [j], [Last j v] its
   value before its last change, [Cur v] the output, as it is stored; [Event j] says that
   input [j] had an event in this cycle. *)
Inductive cond :=
| Eq (j : nat) (v : N) | Last (j : nat) (v : N) | Cur (v : N) | Event (j : nat)
| And (a b : cond).

(* [Store v] sets the variable "result".  [Drive after reject] is the load of that
   variable and the waveform assignment. *)
Inductive stmt := Store (v : N) | Drive (after reject : N).
Inductive term := Branch (c : cond) (hit miss : nat) | Jump (b : nat) | Wait.

(* A block; [None]: not finished yet. *)
Record block := Block { stmts : list stmt; fin : option term }.
Definition empty : block := Block [] None.
Record code := Code { blocks : nat -> block; nblocks : nat }.

(* mir_add_block *)
Definition add_block (c : code) : nat * code := (nblocks c, Code (blocks c) (S (nblocks c))).
(* Appending at the cursor; a finished block cannot be added to. *)
Definition emit (b : nat) (s : list stmt) (t : term) (c : code) : res code :=
  match fin (blocks c b) with
  | None => Ok (Code (upd (blocks c) b (Block (stmts (blocks c b) ++ s) (Some t))) (nblocks c))
  | Some _ => Fault
  end.

Inductive udp_kind := Comb | Seq.

(* Modelled: src/vlog/vlog-udp.c:196-199, level_map; reading an entry that was not set is
   a fault. *)
Definition level_map (ch : N) : res N :=
  if ch =? 48 then Ok LOGIC_0
  else if ch =? 49 then Ok LOGIC_1
  else if (ch =? 120) || (ch =? 88) then Ok LOGIC_X
  else Fault.

Definition and_cond (a c : option cond) : option cond :=
  match a, c with
  | None, _ => c
  | Some x, Some y => Some (And x y)
  | Some _, None => a
  end.

(* Modelled: src/vlog/vlog-udp.c:225-275, the test for input [j]: the condition, if there
   is one, and the rest of the text after it.  CANNOT_HANDLE ends the program: a fault. *)
Definition input_cond (j : nat) (sp : list N) : res (option cond * list N) :=
  match sp with
  | [] => Fault
  | ch :: sp1 =>
    if (ch =? 48) || (ch =? 49) || (ch =? 120) || (ch =? 88) then
      do! v <- level_map ch; Ok (Some (Eq j v), sp1)
    else if ch =? 42 then Ok (Some (Event j), sp1)
    else if ch =? 98 then Ok (Some (And (Eq j LOGIC_0) (Eq j LOGIC_1)), sp1)
    else if ch =? 63 then Ok (None, sp1)
    else if ch =? 40 then
      match sp1 with
      | a :: b :: _ :: sp2 =>
        do! c1 <- (if a =? 63 then Ok (Event j) else do! v <- level_map a; Ok (And (Event j) (Last j v)));
        do! c2 <- (if b =? 63 then Ok c1 else do! v <- level_map b; Ok (And c1 (Eq j v)));
        Ok (Some c2, sp2)
      | _ => Fault
      end
    else Fault
  end.

(* Modelled: src/vlog/vlog-udp.c:224-281, the loop over the inputs [j .. j + n - 1]. *)
Fixpoint inputs_cond (n j : nat) (sp : list N) (a : option cond) : res (option cond * list N) :=
  match n with
  | O => Ok (a, sp)
  | S n' =>
    do! (c, sp1) <- input_cond j sp;
    inputs_cond n' (S j) sp1 (and_cond a c)
  end.

(* Modelled: src/vlog/vlog-udp.c:283-314: the colon, and the current state of a sequential
   table. *)
Definition state_cond (kind : udp_kind) (sp : list N) (a : option cond) : res (option cond * list N) :=
  match sp with
  | 58 :: sp1 =>
    match kind with
    | Comb => Ok (a, sp1)
    | Seq =>
      match sp1 with
      | ch :: 58 :: sp2 =>
        if (ch =? 48) || (ch =? 49) || (ch =? 120) || (ch =? 88) then
          do! v <- level_map ch; Ok (and_cond a (Some (Cur v)), sp2)
        else if ch =? 63 then Ok (a, sp2)
        else Fault
      | _ => Fault
      end
    end
  | _ => Fault
  end.

(* Modelled: src/vlog/vlog-udp.c:213-350, the loop over the entries; [n] is the number of
   inputs and [test] the block of the next test.  Gives the last test block. *)
Fixpoint lower_entries (kind : udp_kind) (n wait : nat) (es : list (list N)) (test : nat) (c : code)
  : res (nat * code) :=
  match es with
  | [] => Ok (test, c)
  | spec :: es' =>
    let (hit, c1) := add_block c in
    do! (a, sp) <- inputs_cond n 0 spec None;
    do! (a1, sp1) <- state_cond kind sp a;
    match a1 with
    | None => do! c2 <- emit test [] (Jump hit) c1; Ok (test, c2)
    | Some x =>
      let (test1, c2) := add_block c1 in
      do! c3 <- emit test [] (Branch x hit test1) c2;
      match sp1 with
      | [] => Fault
      | ch :: _ =>
        if ch =? 45 then
          do! c4 <- emit hit [] Wait c3; lower_entries kind n wait es' test1 c4
        else
          do! v <- level_map ch;
          do! c4 <- emit hit [Store v] (Jump wait) c3; lower_entries kind n wait es' test1 c4
      end
    end
  end.

(* Modelled: src/vlog/vlog-udp.c:131-132, 181-372; block 0 only sets up the driver and the
   events and is left out.  The constants "zero" of line 188 are 1. *)
Definition start_bb : nat := 1.
Definition vlog_lower_udp (kind : udp_kind) (n : nat) (es : list (list N)) : res code :=
  let (wait, c0) := add_block (Code (fun _ => empty) 2) in
  do! (test, c1) <- lower_entries kind n wait es start_bb c0;
  do! c2 <- (match fin (blocks c1 test) with
             | Some _ => Ok c1
             | None =>
               match kind with
               | Seq => emit test [] Wait c1
               | Comb => emit test [Store LOGIC_X] (Jump wait) c1
               end
             end);
  emit wait [Drive 1 1] Wait c2.

(* ---- running it ---- *)

(* What the process sees: the logic values of the inputs and those before their last
   change (both through TO_LOGIC), which inputs have an event, and the output. *)
Record env := Env { now : nat -> N; last : nat -> N; event : nat -> bool; cur : N }.

Fixpoint holds_in (e : env) (c : cond) : bool :=
  match c with
  | Eq j v => now e j =? v
  | Last j v => last e j =? v
  | Cur v => cur e =? v
  | Event j => event e j
  | And a b => holds_in e a && holds_in e b
  end.

(* The output of a run: nothing, or a value with its delay. *)
Inductive outcome := Quiet | Driven (value after : N).

Fixpoint run_stmts (ss : list stmt) (result : option N) (out : outcome) : res (option N * outcome) :=
  match ss with
  | [] => Ok (result, out)
  | Store v :: ss' => run_stmts ss' (Some v) out
  | Drive after _ :: ss' =>
    match result with Some v => run_stmts ss' result (Driven v after) | None => Fault end
  end.

Fixpoint run (fuel : nat) (c : code) (e : env) (b : nat) (result : option N) (out : outcome) : res outcome :=
  match fuel with
  | O => Fault
  | S fuel' =>
    do! (result1, out1) <- run_stmts (stmts (blocks c b)) result out;
    match fin (blocks c b) with
    | None => Fault
    | Some Wait => Ok out1
    | Some (Jump b1) => run fuel' c e b1 result1 out1
    | Some (Branch x hit miss) => run fuel' c e (if holds_in e x then hit else miss) result1 out1
    end
  end.

(* One activation of the process. *)
Definition activate (c : code) (e : env) : res outcome := run (nblocks c) c e start_bb None Quiet.
