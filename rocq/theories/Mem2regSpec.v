(* What it means for a place in memory to be private to the accesses of a function
   through one register, and what a layout of a stack frame is. *)
From Coq Require Import List ZArith Arith Bool.
From Verif Require Import Base JitModel JitSpec.
Import ListNotations.
Local Open Scope Z_scope.

(* The value is what a load of that size gives back when it was stored. *)
Definition fits (s : size) (v : Z) : Prop := - 2 ^ (bits s - 1) <= v < 2 ^ (bits s - 1).

(* A load or a store whose address is in the register. *)
Definition loads_through (reg : nat) (i : ir) : Prop := op i = J_LOAD /\ In reg (value_regs (arg1 i)).
Definition stores_through (reg : nat) (i : ir) : Prop := op i = J_STORE /\ In reg (value_regs (arg2 i)).

Section Private.
Variable W : Type.
Variable cpool_base : Z.
Variable cover_addr : Z -> Z.
Variable prim : opcode -> size -> ccode -> Z -> Z -> Z -> bool -> (nat -> Z) -> W ->
                option (Z * bool * (nat -> Z) * W).
Notation run := (run W cpool_base cover_addr prim).
Notation step := (step W cpool_base cover_addr prim).

(* [slot w] is what the place at address [A] holds in the outside state [w], and
   [same w w'] says that two outside states differ at most there. *)
Variable A : Z.
Variable slot : W -> Z.
Variable same : W -> W -> Prop.

(* Loads and stores of the place do what they should. *)
Record place_ok (s : size) : Prop := {
  same_refl : forall w, same w w;
  store_place : forall c v ar w w', same w w' ->
    exists x fl ar1 w1, prim J_STORE s c v A 0 false ar w = Some (x, fl, ar1, w1) /\
      same w1 w' /\ slot w1 = strunc s v;
  load_place : forall c ar w, exists fl ar1 w1,
    prim J_LOAD s c A 0 0 false ar w = Some (slot w, fl, ar1, w1) }.

(* What the next instruction does neither depends on the place nor changes it. *)
Definition blind (f : prog) (s : state W) : Prop :=
  forall w', same (outside W s) w' ->
    match step f s with
    | Next _ t =>
      slot (outside W t) = slot (outside W s) /\
      exists x, step f (State W (pc W s) (regs W s) (flag W s) (args W s) w') =
                Next W (State W (pc W t) (regs W t) (flag W t) (args W t) x) /\
                same (outside W t) x
    | Done _ ar w =>
      exists x, step f (State W (pc W s) (regs W s) (flag W s) (args W s) w') = Done W ar x /\ same w x
    | Crash _ => True
    end.

(* [P] holds of the instruction at some point of the run before the [n]th. *)
Definition earlier (f : prog) (s0 : state W) (n : nat) (P : nat -> ir -> Prop) : Prop :=
  exists m t i, (m < n)%nat /\ run m f s0 = Next W t /\ nth_error f (pc W t) = Some i /\ P (pc W t) i.

(* Along the run of [f] from [s0] the place is private to the accesses through [reg],
   the register of the allocation at index [k]: the allocation comes before the first
   access, a store before the first load, stored values fit the place, and everything
   else is blind to it. *)
Definition private (f : prog) (k reg : nat) (s : size) (s0 : state W) : Prop :=
  forall n t i, run n f s0 = Next W t -> nth_error f (pc W t) = Some i ->
    (loads_through reg i \/ stores_through reg i -> earlier f s0 n (fun p _ => p = k)) /\
    (loads_through reg i -> earlier f s0 n (fun _ j => stores_through reg j)) /\
    (stores_through reg i -> forall v, fetch cpool_base cover_addr MScalar (regs W t) (arg1 i) = Some v -> fits s v) /\
    (pc W t = k -> exists u, step f t = Next W u /\ regs W u reg = A) /\
    (pc W t <> k -> ~ loads_through reg i -> ~ stores_through reg i -> blind f t).
End Private.

(* The address in the register is not itself stored to memory. *)
Definition kept (f : prog) (reg : nat) : Prop :=
  forall i, In i f -> op i = J_STORE -> ~ In reg (value_regs (arg1 i)).

(* ---- layout ---- *)

(* The allocation [i] takes the bytes from [off] up to [off + size] of the frame. *)
Definition takes (i : ir) (off size : Z) : Prop :=
  op i = MACRO_SALLOC /\ arg1 i = VInt off /\ arg2 i = VInt size.

(* All allocations are in the first block. *)
Definition allocs_first (f : prog) : Prop :=
  forall n m i, (n < m)%nat -> is_terminator f n = true -> nth_error f m = Some i -> op i <> MACRO_SALLOC.

(* Each allocation lies within the frame, at a multiple of eight, and no two overlap. *)
Definition laid_out (f : prog) (framesz : Z) : Prop :=
  (forall n i, nth_error f n = Some i -> op i = MACRO_SALLOC ->
     exists off size, takes i off size /\ 0 <= off /\ 0 <= size /\ off + size <= framesz /\ off mod 8 = 0) /\
  (forall n m i j oi si oj sj, (n < m)%nat -> nth_error f n = Some i -> nth_error f m = Some j ->
     takes i oi si -> takes j oj sj -> oi + si <= oj).
