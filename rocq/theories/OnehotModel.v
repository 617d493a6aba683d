(* Model of lib/nvc/psl_support-body.vhd *)
From Coq Require Import List ZArith Bool.
From Verif Require Import Base OnehotSpec.
Import ListNotations.
Local Open Scope Z_scope.

(* val'low and val'high in the loops, e.g. lib/nvc/psl_support-body.vhd:44, with their meaning in the LRM *)
Definition low (v : vector) : Z := if ascending v then left v else right v.
Definition high (v : vector) : Z := if ascending v then right v else left v.
(* val(i), e.g. lib/nvc/psl_support-body.vhd:45; a fault outside of the range *)
Definition element (v : vector) (i : Z) : res ulogic :=
  let off := if ascending v then i - left v else left v - i in
  if off <? 0 then Fault
  else match nth_error (elems v) (Z.to_nat off) with Some b => Ok b | None => Fault end.
(* The tests val(i) = '1' or val(i) = 'H': lib/nvc/psl_support-body.vhd:80, 127, 182. A bit_vector
   has only L0 and L1, for which the test val(i) = '1' of lines 93, 144 and 199 is the same. *)
Definition one (b : ulogic) : bool := match b with L1 | LH => true | _ => false end.
(* The choices of the case: lib/nvc/psl_support-body.vhd:45-52 *)
Definition meta (b : ulogic) : bool := match b with LU | LX | LZ | LW | LD => true | _ => false end.
(* for i in val'low to val'high, e.g. lib/nvc/psl_support-body.vhd:44-53: the body gives the state or the result it returns *)
Fixpoint loop {S R} (v : vector) (body : S -> ulogic -> S + R) (n : nat) (i : Z) (s : S) : res (S + R) :=
  match n with
  | O => Ok (inl s)
  | S n => do! b <- element v i;
           match body s b with
           | inl s => loop v body n (i + 1) s
           | inr r => Ok (inr r)
           end
  end.
(* The loop and the return after it, e.g. lib/nvc/psl_support-body.vhd:43-55 *)
Definition each {S R} (v : vector) (body : S -> ulogic -> S + R) (s : S) (finish : S -> R) : res R :=
  do! x <- loop v body (Z.to_nat (high v - low v + 1)) (low v) s;
  Ok (match x with inl s => finish s | inr r => r end).
(* isunknown: lib/nvc/psl_support-body.vhd:40-55 *)
Definition isunknown (v : vector) : res bool :=
  each v (fun (_ : unit) b => if meta b then inr true else inl tt) tt (fun _ => false).
(* countones: lib/nvc/psl_support-body.vhd:74-98; the count has no bound here *)
Definition countones (v : vector) : res Z :=
  each v (fun n b => inl (if one b then n + 1 else n)) 0 (fun n => n).
(* The body of the loops of onehot and onehot0: lib/nvc/psl_support-body.vhd:127-133, 182-188 *)
Definition hot_body (flag : bool) (b : ulogic) : bool + bool :=
  if one b then if flag then inr false else inl true else inl flag.
(* onehot: lib/nvc/psl_support-body.vhd:121-153 *)
Definition onehot (v : vector) : res bool := each v hot_body false (fun flag => flag).
(* onehot0: lib/nvc/psl_support-body.vhd:176-208 *)
Definition onehot0 (v : vector) : res bool := each v hot_body false (fun _ => true).
