(* What a PSL sequence means, independently of how it is checked.

   A trace gives, for every clock cycle, the value of every Boolean HDL
   expression occurring in the property; expressions are named by numbers.
   [matches w r i j] says that the cycles i, i+1, ..., j-1 of the trace [w]
   match the sequence [r] tightly (IEEE 1850, section on sequential extended
   regular expressions). *)
From Coq Require Import List Arith.
Import ListNotations.

Definition trace := nat -> nat -> bool.

Inductive seqkind := Concat | Fusion.
Inductive repkind := Times | Goto | Equal.

Inductive sere :=
| Hdl (p : nat)                                  (* a Boolean expression     *)
| Seq (k : seqkind) (ops : list sere)            (* {a; b; c} or {a : b : c} *)
| Rep (k : repkind) (lo : nat) (hi : option nat) (r : sere)
                                                 (* r[*lo to hi], b[->..], b[=..];
                                                    None is "inf"            *)
| And (a b : sere).                              (* {a} && {b}               *)

(* [lo <= n <= hi]. *)
Definition within (lo : nat) (hi : option nat) (n : nat) : Prop :=
  lo <= n /\ match hi with Some h => n <= h | None => True end.

(* [r] matched [n] times in a row. *)
Fixpoint times (m : nat -> nat -> Prop) (n : nat) (i j : nat) : Prop :=
  match n with
  | O => i = j
  | S n' => exists k, m i k /\ times m n' k j
  end.

(* Cycles with [p] false, as many as there are. *)
Definition idle (w : trace) (p : nat) (i j : nat) : Prop :=
  i <= j /\ forall x, i <= x < j -> w x p = false.

(* Cycles with [p] false and then one with [p] true. *)
Definition goto1 (w : trace) (p : nat) (i j : nat) : Prop :=
  exists k, idle w p i k /\ w k p = true /\ j = S k.

Fixpoint matches (w : trace) (r : sere) (i j : nat) {struct r} : Prop :=
  match r with
  | Hdl p => w i p = true /\ j = S i
  | Seq Concat ops =>
    (fix cat (ops : list sere) (i : nat) : Prop :=
       match ops with
       | [] => i = j
       | o :: rest => exists k, matches w o i k /\ cat rest k
       end) ops i
  | Seq Fusion ops =>
    (fix fuse (ops : list sere) (i : nat) : Prop :=
       match ops with
       | [] => False
       | o :: rest =>
         match rest with
         | [] => matches w o i j
         | _ => exists k, i <= k /\ matches w o i (S k) /\ fuse rest k
         end
       end) ops i
  | Rep Times lo hi r' => exists n, within lo hi n /\ times (matches w r') n i j
  | Rep Goto lo hi r' =>
    match r' with
    | Hdl p => exists n, within lo hi n /\ times (goto1 w p) n i j
    | _ => False
    end
  | Rep Equal lo hi r' =>
    match r' with
    | Hdl p => exists n k, within lo hi n /\ times (goto1 w p) n i k /\ idle w p k j
    | _ => False
    end
  | And a b => matches w a i j /\ matches w b i j
  end.

(* The sequences the theorems are about: no "&&", no goto or non-consecutive
   repetition, and no repetition that may be empty. *)
Fixpoint plain (r : sere) : Prop :=
  match r with
  | Hdl _ => True
  | Seq _ ops =>
    ops <> [] /\
    (fix all (ops : list sere) : Prop :=
       match ops with [] => True | o :: rest => plain o /\ all rest end) ops
  | Rep Times lo hi r' =>
    1 <= lo /\ (match hi with Some h => lo <= h | None => True end) /\ plain r'
  | _ => False
  end.
