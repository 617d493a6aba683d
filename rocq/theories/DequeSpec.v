(* What users of a work-stealing queue rely on (C39), in terms of the outcomes of
   the calls. *)
From Coq Require Import List Arith NArith Permutation.
From Verif Require Import Base DequeModel.
Import ListNotations.

(* All tasks that were pushed, and all that were handed out, in a history. *)
Fixpoint pushed (h : list outcome) : list task :=
  match h with
  | [] => []
  | Pushed xs :: h' => xs ++ pushed h'
  | _ :: h' => pushed h'
  end.
Fixpoint taken (h : list outcome) : list task :=
  match h with
  | [] => []
  | Popped x :: h' => x :: taken h'
  | Stole _ x :: h' => x :: taken h'
  | _ :: h' => taken h'
  end.

(* Callers push whole tasks. *)
Definition whole_tasks (es : list event) : Prop :=
  forall xs, In (CallPush xs) es -> Forall (fun x => length x = WORDS) xs.

(* The 32-bit tag does not wrap around while a steal is under way: between the
   thief's load of the age and any later moment of the same call the owner resets
   the queue fewer than 2^32 times. *)
Definition no_wrap (st : sys) (t : nat) : Prop :=
  match thief st t with
  | TIdle | TAge => True
  | _ => (resets st < started st t + TAGS)%N
  end.
Definition short_steals (es : list event) : Prop :=
  forall es1 es2 st, es = es1 ++ es2 -> run init es1 = Ok st -> forall t, no_wrap st t.
