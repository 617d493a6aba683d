(* Common vocabulary shared by the models.

   [res] is the outcome type of every modelled C function that can reach
   undefined behaviour or a failed assert(): [Fault] stands for "the C program
   did something the model does not give a meaning to" (failed assertion,
   out-of-bounds access, loop that does not terminate within the bound the
   model gives it).  Theorems state when [Fault] cannot happen. *)
From Coq Require Import List Arith Lia ZArith NArith Permutation.
Import ListNotations.

Inductive res (A : Type) : Type :=
| Ok (a : A)
| Fault.
Arguments Ok {A} a.
Arguments Fault {A}.

Definition bind {A B} (x : res A) (f : A -> res B) : res B :=
  match x with Ok a => f a | Fault => Fault end.
Notation "'do!' x <- e ; f" := (bind e (fun x => f))
  (at level 200, x pattern, e at level 100, f at level 200).

(* A C array as a total function; [upd] is an element store. *)
Definition upd {V : Type} (f : nat -> V) (i : nat) (v : V) : nat -> V :=
  fun k => if Nat.eqb k i then v else f k.

Lemma upd_same {V} (f : nat -> V) i v : upd f i v i = v.
Proof. unfold upd. now rewrite Nat.eqb_refl. Qed.

Lemma upd_other {V} (f : nat -> V) i j v : j <> i -> upd f i v j = f j.
Proof. intros H. unfold upd. destruct (Nat.eqb_spec j i); congruence. Qed.

Ltac upd_tac :=
  repeat (rewrite upd_same in * || rewrite upd_other in * by lia).

(* [lia] with nat division. *)
Ltac dm_pose a b :=
  lazymatch goal with
  | H : a = b * (a / b) + a mod b |- _ => fail
  | _ => pose proof (Nat.div_mod a b ltac:(lia));
         pose proof (Nat.mod_upper_bound a b ltac:(lia))
  end.
Ltac dlia :=
  repeat match goal with
  | |- context [?a / ?b] => dm_pose a b
  | |- context [?a mod ?b] => dm_pose a b
  | _ : context [?a / ?b] |- _ => dm_pose a b
  | _ : context [?a mod ?b] |- _ => dm_pose a b
  end; lia.

Lemma bind_ok {A B} (x : res A) (f : A -> res B) b :
  bind x f = Ok b <-> exists a, x = Ok a /\ f a = Ok b.
Proof.
  destruct x; simpl; split; intros H.
  - eauto.
  - destruct H as (a' & [= ->] & H). exact H.
  - discriminate.
  - destruct H as (a' & H & _). discriminate.
Qed.

#[global] Arguments Nat.div : simpl never.
#[global] Arguments Nat.modulo : simpl never.
#[global] Arguments N.add : simpl never.
#[global] Arguments N.mul : simpl never.
#[global] Arguments N.pow : simpl never.
#[global] Arguments N.div : simpl never.
#[global] Arguments N.modulo : simpl never.
#[global] Arguments N.shiftl : simpl never.
#[global] Arguments N.shiftr : simpl never.
#[global] Arguments Z.add : simpl never.
#[global] Arguments Z.mul : simpl never.
#[global] Arguments Z.pow : simpl never.
#[global] Arguments Z.div : simpl never.
#[global] Arguments Z.modulo : simpl never.
