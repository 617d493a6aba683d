(* C58: the native operators of STD_LOGIC_1164 and the native equality of arrays. *)
From Coq Require Import List ZArith NArith Arith Bool Lia.
From Verif Require Import Base IntrinModel IntrinSpec IntrinProofs IntrinProps IntrinLogicModel IntrinLogicSpec IntrinLogicProofs.
Import ListNotations.

(* "and", "or", "xor": whichever instructions the processor has, operands of different
   lengths are an error and the result is otherwise given by the rule, element by
   element; nothing is written but the memory allocated. *)
Theorem C58_logic : forall v o s, valid s 1 -> valid s 4 ->
  if negb (length (operand s 1) =? length (operand s 4)) then logic_vector v o s = Failure
  else exists s', logic_vector v o s = Done s' /\ returns_to s s' (pairwise (logic_rule o) (operand s 1) (operand s 4)) /\
    (forall a, nx s' <= a -> mm s' a = mm s a) /\ warns s' = warns s.
Proof. exact logic_ok. Qed.

Theorem C58_to_x01 : forall v s, valid s 1 ->
  returns s (std_to_x01 v s) (map x01_rule (operand s 1)) /\
  (forall a, nx (std_to_x01 v s) <= a -> mm (std_to_x01 v s) a = mm s a) /\ warns (std_to_x01 v s) = warns s.
Proof. exact x01_ok. Qed.

(* "=" of STRING, BIT_VECTOR, STD_LOGIC_VECTOR: for any bytes, also beyond the ends. *)
Theorem C58_equal : forall v s, bytes_valid s 1 -> bytes_valid s 4 ->
  byte_vector_equal v s = set_ar s 0 (if list_eq_dec N.eq_dec (operand s 1) (operand s 4) then 1 else 0)%Z.
Proof. exact equal_ok. Qed.

(* ---- cases ---- *)
(* Eighteen elements, so more than one block; beyond each vector lies other data. *)
Definition e18 : list N := [0; 1; 2; 3; 4; 5; 6; 7; 8; 3; 3; 3; 3; 3; 3; 3; 2; 7]%N.
Definition f18 : list N := [3; 3; 3; 3; 3; 3; 3; 3; 3; 0; 1; 2; 3; 4; 5; 6; 7; 8]%N.
Definition pair18 (a b : list N) : st :=
  St (upd (upd (upd (upd (fun _ => 0%Z) 1 3%Z) 3 (Z.of_nat (length a))) 4 37%Z) 6 (Z.lnot (Z.of_nat (length b))))
     (fun x => if 37 <=? x then nth (x - 37) b 200%N else if 3 <=? x then nth (x - 3) a 99%N else 0%N) 56 0.
Example demo_valid58 : valid (pair18 e18 f18) 1 /\ valid (pair18 e18 f18) 4 /\ operand (pair18 e18 f18) 1 = e18 /\ operand (pair18 e18 f18) 4 = f18.
Proof.
  assert (F : forall l, forallb (fun b => b <? 9)%N l = true -> Forall std_ulogic l).
  { intros l H. apply Forall_forall. intros x Hx. rewrite forallb_forall in H. apply H in Hx. apply N.ltb_lt in Hx. exact Hx. }
  split; [|split; [|split; reflexivity]];
    (split; [vm_compute; lia|]; split; [vm_compute; split; congruence|]; apply F; vm_compute; reflexivity).
Qed.
Definition answer58 (r : outcome) : list N := match r with Done s => answer (Ok s) | Failure => [] end.
Example demo_logic :
  map (fun v => answer58 (logic_vector v And (pair18 e18 f18))) [Portable; SSE41; NEON] =
    repeat [0; 1; 2; 3; 1; 1; 2; 3; 1; 0; 1; 2; 3; 1; 1; 2; 2; 1]%N 3 /\
  map (fun v => answer58 (logic_vector v Xor (pair18 e18 f18))) [Portable; SSE41; NEON] =
    repeat [0; 1; 3; 2; 1; 1; 3; 2; 1; 0; 1; 3; 2; 1; 1; 3; 3; 1]%N 3 /\
  logic_vector SSE41 Or (pair18 e18 db) = Failure /\
  map (fun v => answer (Ok (std_to_x01 v (pair18 e18 f18)))) [Portable; SSE41; NEON] =
    repeat [1; 1; 2; 3; 1; 1; 2; 3; 1; 3; 3; 3; 3; 3; 3; 3; 2; 3]%N 3 /\
  map (fun v => (ar (byte_vector_equal v (pair18 e18 e18)) 0, ar (byte_vector_equal v (pair18 e18 f18)) 0)) [Portable; SSE41; NEON] =
    repeat (1, 0)%Z 3.
Proof. repeat split; vm_compute; reflexivity. Qed.

Print Assumptions C58_logic.
Print Assumptions C58_to_x01.
Print Assumptions C58_equal.
