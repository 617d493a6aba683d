(* Coverage counters at run time: src/rt/cover.c, src/jit/jit-core.c. *)

From Coq Require Import ZArith NArith List Bool Arith.
From Verif Require Import Base CoverModel.
Import ListNotations.

(* The counters: jit_get_cover_mem, src/jit/jit-core.c 1387-1397.  New ones
   are zero.  (Where the array is, is modelled below.) *)
Definition get_cover_mem (mintags : nat) (mem : list Z) : list Z :=
  if length mem <? mintags then mem ++ repeat 0%Z (mintags - length mem) else mem.

(* increment_counter, src/rt/cover.c 54-57, of the counter at index k: outside
   the array is a Fault. *)
Definition increment (mem : list Z) (k : nat) : res (list Z) :=
  match nth_error mem k with
  | Some c => Ok (replace mem k (saturate_add c 1))
  | None => Fault
  end.

(* STD_ULOGIC as in the enumeration at 36-46: U X 0 1 Z W L H -. *)
Definition sU : N := 0.  Definition sX : N := 1.  Definition s0 : N := 2.
Definition s1 : N := 3.  Definition sZ : N := 4.

Inductive direction := To1 | To0.

(* cover_toggle_check_0_1, 59-66; _u, 68-80; _z, 82-98; _u_z, 100-121. *)
Definition check_0_1 (old new : N) : option direction :=
  if ((old =? s0) && (new =? s1))%N then Some To1
  else if ((old =? s1) && (new =? s0))%N then Some To0
  else None.

Definition check_0_1_u (old new : N) : option direction :=
  if ((old =? s0) && (new =? s1))%N then Some To1
  else if ((old =? s1) && (new =? s0))%N then Some To0
  else if (((old =? sU) || (old =? sX)) && (new =? s1))%N then Some To1
  else if (((old =? sU) || (old =? sX)) && (new =? s0))%N then Some To0
  else None.

Definition check_0_1_z (old new : N) : option direction :=
  if ((old =? s0) && (new =? s1))%N then Some To1
  else if ((old =? s1) && (new =? s0))%N then Some To0
  else if ((old =? s0) && (new =? sZ))%N then Some To1
  else if ((old =? sZ) && (new =? s1))%N then Some To1
  else if ((old =? s1) && (new =? sZ))%N then Some To0
  else if ((old =? sZ) && (new =? s0))%N then Some To0
  else None.

Definition check_0_1_u_z (old new : N) : option direction :=
  if ((old =? s0) && (new =? s1))%N then Some To1
  else if ((old =? s1) && (new =? s0))%N then Some To0
  else if (((old =? sU) || (old =? sX)) && (new =? s1))%N then Some To1
  else if (((old =? sU) || (old =? sX)) && (new =? s0))%N then Some To0
  else if ((old =? s0) && (new =? sZ))%N then Some To1
  else if ((old =? sZ) && (new =? s1))%N then Some To1
  else if ((old =? s1) && (new =? sZ))%N then Some To0
  else if ((old =? sZ) && (new =? s0))%N then Some To0
  else None.

(* The choice of x_cover_setup_toggle_cb, 250-260, by the two options. *)
Definition choose_check (undefined z : bool) : N -> N -> option direction :=
  if undefined && z then check_0_1_u_z
  else if undefined then check_0_1_u
  else if z then check_0_1_z
  else check_0_1.

(* The inner loop of DEFINE_COVER_TOGGLE_CB, 178-184: n bits from bit j. *)
Fixpoint walk (check : N -> N -> option direction) (tag : nat) (old new : list N)
  (j n : nat) (mem : list Z) : res (list Z) :=
  match n with
  | 0 => Ok mem
  | S n' =>
      match nth_error old j, nth_error new j with
      | Some o, Some w =>
          do! mem' <- (if (w =? o)%N then Ok mem
                       else match check o w with
                            | Some To1 => increment mem (tag + j * 2)
                            | Some To0 => increment mem (tag + j * 2 + 1)
                            | None => Ok mem
                            end);
          walk check tag old new (S j) n' mem'
      | _, _ => Fault
      end
  end.

Definition list_eqb (a b : list N) : bool :=
  if list_eq_dec N.eq_dec a b then true else false.

(* The outer loop, 157-186: n more batches of eight bytes, the next is number
   i of so many.  The two words that are compared differ when one of their
   bytes does.  Only tag + 2 counters are asked for at 176. *)
Fixpoint batch_loop (check : N -> N -> option direction) (tag : nat) (old new : list N)
  (batches i n : nat) (mem : list Z) : res (list Z) :=
  match n with
  | 0 => Ok mem
  | S n' =>
      let '(go, batch_size) :=
        if i <? batches - 1 then
          (negb (list_eqb (firstn 8 (skipn (i * 8) new)) (firstn 8 (skipn (i * 8) old))), 8)
        else (true, (length new - 1) mod 8 + 1) in
      do! mem' <- (if go then walk check tag old new (i * 8) batch_size (get_cover_mem (tag + 2) mem)
                   else Ok mem);
      batch_loop check tag old new batches (S i) n' mem'
  end.

(* The callback on an event of the signal: its last value and its value, one
   byte for each element. *)
Definition toggle_cb (check : N -> N -> option direction) (tag : nat) (old new : list N)
  (mem : list Z) : res (list Z) :=
  let batches := (length new - 1) / 8 + 1 in
  batch_loop check tag old new batches 0 batches mem.

(* x_cover_setup_toggle_cb, 233-247: an input without any source. *)
Fixpoint mark_constant (tag n : nat) (mem : list Z) : list Z :=
  match n with
  | 0 => mem
  | S n' => mark_constant (tag + 2) n' (replace (replace mem tag INT_MIN) (tag + 1) INT_MIN)
  end.

(* x_cover_setup_toggle_cb, 222-264, and then the events of the run.  Whether
   the signal is a constant input (is_constant_input, 196-220) is given. *)
Fixpoint run_events (check : N -> N -> option direction) (tag : nat)
  (events : list (list N * list N)) (mem : list Z) : res (list Z) :=
  match events with
  | [] => Ok mem
  | (old, new) :: rest =>
      do! mem' <- toggle_cb check tag old new mem;
      run_events check tag rest mem'
  end.

Definition toggle_run (constant undefined z : bool) (tag size : nat)
  (events : list (list N * list N)) (mem : list Z) : res (list Z) :=
  if constant then Ok (mark_constant tag size (get_cover_mem (tag + 2 * size) mem))
  else run_events (choose_check undefined z) tag events mem.

(* cover_state_cb, 272-284, and x_cover_setup_state_cb, 286-304: a signal of
   an enumeration subtype with the given lowest position; each event brings a
   position. *)
Fixpoint state_events (tag low : Z) (events : list Z) (mem : list Z) : res (list Z) :=
  match events with
  | [] => Ok mem
  | v :: rest =>
      let k := (tag - low + v)%Z in
      if (k <? 0)%Z then Fault
      else do! mem' <- increment (get_cover_mem (Z.to_nat k + 1) mem) (Z.to_nat k);
           state_events tag low rest mem'
  end.

Definition state_run (tag low : Z) (events : list Z) (mem : list Z) : res (list Z) :=
  let mem := get_cover_mem (Z.to_nat tag + 1) mem in
  state_events tag low events (replace mem (Z.to_nat tag) 1%Z).

(* MACRO_SADD on a counter: interp_sadd, src/jit/jit-interp.c 873-884, with
   size 32 as irgen_op_cover_increment emits it (src/jit/jit-irgen.c
   3478-3484).  The counter is read and written as uint32_t; the array is of
   int32_t.  llvm.uadd.sat of cgen_macro_sadd (src/jit/jit-llvm.c 2306-2323)
   does the same. *)
Definition to_unsigned32 (c : Z) : Z := (c mod 2 ^ 32)%Z.
Definition to_signed32 (c : Z) : Z :=
  if (c <? 2 ^ 31)%Z then c else (c - 2 ^ 32)%Z.
Definition interp_sadd (c : Z) : Z :=
  let s := (to_unsigned32 c + 1)%Z in
  to_signed32 (if (s <? 2 ^ 32)%Z then s else (2 ^ 32 - 1)%Z).

(* Where the counters are.  jit_get_cover_mem calls realloc, which may give
   another block; its choices are a stream of booleans.  c_block numbers the
   blocks that have been in use. *)
Record counters := Counters { c_block : nat; c_counts : list Z }.

Definition grow (mintags : nat) (moves : bool) (c : counters) : counters :=
  if length (c_counts c) <? mintags
  then Counters (if moves then S (c_block c) else c_block c) (get_cover_mem mintags (c_counts c))
  else c.

(* The operations of a run on the counters. *)
Inductive run_op :=
| Compile (tag : nat) (moves : bool)   (* code generated by the LLVM or x86 JIT *)
| HitCompiled (site : nat)             (* that code executes *)
| HitInterp (tag : nat) (moves : bool) (* interpreter, or code of the AOT compiler *)
| NewItem (moves : bool).              (* _nvc_add_cover_item and its first increment *)

(* sites: the addresses compiled into the code, as block and index
   (jit_get_cover_ptr, src/jit/jit-core.c 1399-1405, called from
   src/jit/jit-llvm.c 1236 and src/jit/jit-x86.c 1285).  Writing to a block
   that has been freed is a Fault.  The interpreter asks for the address on
   every execution (src/jit/jit-interp.c 181), the code of the AOT compiler
   loads it (src/jit/jit-llvm.c 1225-1234).  A new item gets the tag after all
   others. *)
Record run_state := RunState { r_mem : counters; r_sites : list (nat * nat) }.

Definition hit (tag : nat) (c : counters) : res counters :=
  match nth_error (c_counts c) tag with
  | Some n => Ok (Counters (c_block c) (replace (c_counts c) tag (interp_sadd n)))
  | None => Fault
  end.

Definition run_step (s : run_state) (o : run_op) : res run_state :=
  match o with
  | Compile tag moves =>
      let c := grow (tag + 1) moves (r_mem s) in
      Ok (RunState c (r_sites s ++ [(c_block c, tag)]))
  | HitCompiled site =>
      match nth_error (r_sites s) site with
      | None => Ok s
      | Some (b, tag) =>
          if b =? c_block (r_mem s)
          then do! c <- hit tag (r_mem s); Ok (RunState c (r_sites s))
          else Fault
      end
  | HitInterp tag moves =>
      do! c <- hit tag (grow (tag + 1) moves (r_mem s)); Ok (RunState c (r_sites s))
  | NewItem moves =>
      Ok (RunState (grow (length (c_counts (r_mem s)) + 1) moves (r_mem s)) (r_sites s))
  end.

Fixpoint run_ops (s : run_state) (os : list run_op) : res run_state :=
  match os with
  | [] => Ok s
  | o :: rest => do! s' <- run_step s o; run_ops s' rest
  end.
