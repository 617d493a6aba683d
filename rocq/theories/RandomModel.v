(* Model of the random number generator, src/rt/random.c.

   A word of 32 bits is an integer below 2^32; what is computed in unsigned long is cut to
   32 bits where it is stored.  The lock makes calls one after another, so a state follows
   another. *)
From Coq Require Import List ZArith Arith Bool.
From Verif Require Import Base.
Import ListNotations.
Local Open Scope Z_scope.

Definition u32 (x : Z) : Z := x mod 2 ^ 32.

(* src/rt/random.c:25-29 *)
Definition MT_N : nat := 624.
Definition MT_M : nat := 397.
Definition MATRIX_A : Z := 0x9908B0DF.
Definition UPPER_MASK : Z := 0x80000000.
Definition LOWER_MASK : Z := 0x7FFFFFFF.

(* mt, mti: src/rt/random.c:31-33 *)
Record state := State { mt : nat -> Z; mti : nat }.
Definition start : state := State (fun _ => 0) (MT_N + 1).

(* The loop of mt19937_init: src/rt/random.c:38-39 *)
Fixpoint init_loop (n i : nat) (m : nat -> Z) : nat -> Z :=
  match n with
  | O => m
  | S n =>
      let p := m (i - 1)%nat in
      init_loop n (S i)
        (upd m i (u32 (1812433253 * Z.lxor p (Z.shiftr p 30) + Z.of_nat i)))
  end.

(* mt19937_init: src/rt/random.c:35-42 *)
Definition mt19937_init (seed : Z) : state :=
  State (init_loop (MT_N - 1) 1 (upd (fun _ => 0) 0%nat (u32 seed))) MT_N.

Definition mag01 (y : Z) : Z := if Z.land y 1 =? 0 then 0 else MATRIX_A.
Definition mix (a b c : Z) : Z :=
  let y := Z.lor (Z.land a UPPER_MASK) (Z.land b LOWER_MASK) in
  Z.lxor (Z.lxor c (Z.shiftr y 1)) (mag01 y).

(* The first loop of the twist: src/rt/random.c:52-55 *)
Fixpoint twist1 (n kk : nat) (m : nat -> Z) : nat -> Z :=
  match n with
  | O => m
  | S n => twist1 n (S kk) (upd m kk (mix (m kk) (m (kk + 1)%nat) (m (kk + MT_M)%nat)))
  end.

(* The second loop: src/rt/random.c:56-59 *)
Fixpoint twist2 (n kk : nat) (m : nat -> Z) : nat -> Z :=
  match n with
  | O => m
  | S n => twist2 n (S kk) (upd m kk (mix (m kk) (m (kk + 1)%nat) (m (kk + MT_M - MT_N)%nat)))
  end.

(* src/rt/random.c:50-65 *)
Definition twist (m : nat -> Z) : nat -> Z :=
  let m := twist1 (MT_N - MT_M) 0 m in
  let m := twist2 (MT_N - 1 - (MT_N - MT_M)) (MT_N - MT_M) m in
  upd m (MT_N - 1)%nat (mix (m (MT_N - 1)%nat) (m 0%nat) (m (MT_M - 1)%nat)).

(* src/rt/random.c:71-77 *)
Definition temper (y : Z) : Z :=
  let y := Z.lxor y (Z.shiftr y 11) in
  let y := Z.lxor y (Z.land (u32 (Z.shiftl y 7)) 0x9D2C5680) in
  let y := Z.lxor y (Z.land (u32 (Z.shiftl y 15)) 0xEFC60000) in
  Z.lxor y (Z.shiftr y 18).

(* mt19937_next: src/rt/random.c:44-78; [Fault] is the assertion at line 67 *)
Definition mt19937_next (s : state) : res (state * Z) :=
  do! s <- (if Nat.eqb (mti s) MT_N then Ok (State (twist (mt s)) 0)
            else if Nat.ltb (mti s) MT_N then Ok s else Fault);
  Ok (State (mt s) (S (mti s)), temper (mt s (mti s))).

(* get_random: src/rt/random.c:80-88 *)
Definition get_random (seed : Z) (s : state) : res (state * Z) :=
  let s := if Nat.ltb MT_N (mti s) then mt19937_init seed else s in
  mt19937_next s.

(* [n] calls *)
Fixpoint draws (n : nat) (seed : Z) (s : state) : res (list Z) :=
  match n with
  | O => Ok []
  | S n =>
      do! (s, v) <- get_random seed s;
      do! vs <- draws n seed s;
      Ok (v :: vs)
  end.
