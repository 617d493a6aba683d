(* The attributes S'STABLE(T), S'QUIET(T), S'DELAYED(T) and S'TRANSACTION (IEEE 1076, 16.2) in terms
   of the history of a signal.  Nothing here refers to the model. *)
From Coq Require Import List NArith.
Import ListNotations.
Local Open Scope N_scope.

(* What happened to the signal in a simulation cycle *)
Record cyc (V : Type) := Cyc {
  c_now : N;            (* the time of the cycle *)
  c_is_delta : bool;    (* a delta cycle: at the time of the cycle before it *)
  c_active : bool;
  c_event : bool;
  c_value : V           (* the value of the signal *)
}.
Arguments Cyc {V}.
Arguments c_now {V}. Arguments c_is_delta {V}. Arguments c_active {V}. Arguments c_event {V}. Arguments c_value {V}.

(* Histories have the present cycle first.  Nothing has happened for T units of time: *)
Definition calm {V} (happened : cyc V -> bool) (T : N) (h : list (cyc V)) : Prop :=
  match h with
  | [] => True
  | c :: past => happened c = false /\ forall p, In p past -> happened p = true -> c_now p + T <= c_now c
  end.

(* The value of the signal T units of time ago, before the present cycle *)
Definition ago {V} (init : V) (T : N) (h : list (cyc V)) : V :=
  match h with
  | [] => init
  | c :: past =>
    match find (fun p => c_now p + T <=? c_now c) past with Some p => c_value p | None => init end
  end.
