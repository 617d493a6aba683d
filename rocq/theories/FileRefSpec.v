(* What a path is, up to repeated slashes. *)

From Coq Require Import NArith List Bool.
Import ListNotations.

(* Two consecutive slashes somewhere. *)
Definition doubled (p : list N) : Prop := exists a b, p = a ++ [47; 47]%N ++ b.

(* The parts between slashes that are not empty. *)
Fixpoint parts (cur p : list N) : list (list N) :=
  let done := match cur with [] => [] | _ => [rev cur] end in
  match p with
  | [] => done
  | c :: r => if (c =? 47)%N then done ++ parts [] r else parts (c :: cur) r
  end.

(* The same path: the same parts, and slashes at the same ends. *)
Definition same_path (a b : list N) : Prop :=
  parts [] a = parts [] b /\ hd_error a = hd_error b /\ last a 0%N = last b 0%N.
