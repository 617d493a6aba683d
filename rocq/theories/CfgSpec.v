(* What a control flow graph and liveness sets should be. *)
From Coq Require Import List ZArith Arith Bool.
From Verif Require Import Base JitModel JitSpec CfgModel.
Import ListNotations.

(* The blocks lie end to end from the first instruction to the last. *)
Definition partition (n : nat) (bs : list block) : Prop :=
  (exists b, nth_error bs 0 = Some b /\ first b = 0) /\
  (forall k b, nth_error bs k = Some b -> first b <= last b) /\
  (forall k b c, nth_error bs k = Some b -> nth_error bs (S k) = Some c -> first c = S (last b)) /\
  (exists b, nth_error bs (length bs - 1) = Some b /\ S (last b) = n).

(* [k] is the block of instruction [pos]. *)
Definition block_of (bs : list block) (pos k : nat) : Prop :=
  exists b, nth_error bs k = Some b /\ first b <= pos <= last b.

(* There is an edge from [k] to [m]. *)
Definition edge (bs : list block) (k m : nat) : Prop :=
  exists b, nth_error bs k = Some b /\ In m (outs b).

(* Control going from instruction [p] to instruction [q] stays in a block and goes to
   the next instruction, or follows an edge to the beginning of a block. *)
Definition transfer_ok (bs : list block) (p q : nat) : Prop :=
  exists k m, block_of bs p k /\ block_of bs q m /\
    ((k = m /\ q = S p) \/
     (edge bs k m /\ exists b, nth_error bs m = Some b /\ first b = q)).

(* ---- liveness ---- *)

(* A register or the flag. *)
Inductive loc := LReg (r : nat) | LFlag.

(* Reads and writes by an instruction.  The instructions that read the register in the
   result field do not write it. *)
Definition reads (i : ir) (x : loc) : Prop :=
  match x with
  | LReg r => In r (value_regs (arg1 i)) \/ In r (value_regs (arg2 i)) \/ (reads_result i = true /\ result i = Some r)
  | LFlag => reads_flags i = true
  end.
Definition writes (i : ir) (x : loc) : Prop :=
  match x with
  | LReg r => reads_result i = false /\ result i = Some r
  | LFlag => writes_flags i = true
  end.

(* Some instruction of [l] reads [x] and none before it writes it. *)
Definition exposed (l : list ir) (x : loc) : Prop :=
  exists a i b, l = a ++ i :: b /\ reads i x /\ (forall j, In j a -> ~ writes j x).
(* No instruction of [l] writes [x]. *)
Definition passes (l : list ir) (x : loc) : Prop := forall j, In j l -> ~ writes j x.

(* The instructions from [p] to [q]. *)
Definition slice (f : prog) (p q : nat) : list ir := firstn (S q - p) (skipn p f).

(* Along some path of edges starting after block [k], [x] is read before it is written. *)
Inductive live_after (f : prog) (bs : list block) (x : loc) : nat -> Prop :=
| live_here k m b : edge bs k m -> nth_error bs m = Some b ->
    exposed (slice f (first b) (last b)) x -> live_after f bs x k
| live_later k m b : edge bs k m -> nth_error bs m = Some b ->
    passes (slice f (first b) (last b)) x -> live_after f bs x m -> live_after f bs x k.
(* The same starting at the beginning of block [k]. *)
Definition live_before (f : prog) (bs : list block) (x : loc) (k : nat) : Prop :=
  exists b, nth_error bs k = Some b /\
    (exposed (slice f (first b) (last b)) x \/
     (passes (slice f (first b) (last b)) x /\ live_after f bs x k)).

(* No instruction both reads and writes the flag. *)
Definition no_chained_compare (f : prog) : Prop :=
  forall i, In i f -> op i <> J_CCMP /\ op i <> J_FCCMP.

(* ---- edges that can be taken ---- *)

(* Control can reach the end of the block and go on to the next instruction. *)
Definition may_go_on (f : prog) (b : block) : Prop :=
  exists x, nth_error f (last b) = Some x /\
    match op x with
    | J_JUMP => cc x <> CC_NONE
    | J_RET | MACRO_REEXEC => False
    | MACRO_CASE => True
    | _ => forall i y, first b <= i <= last b -> nth_error f i = Some y -> will_abort y = false
    end.

(* An edge is there for a reason: the next block, or a jump in the block to the
   beginning of the other. *)
Definition edge_real (f : prog) (bs : list block) (k m : nat) : Prop :=
  exists b c, nth_error bs k = Some b /\ nth_error bs m = Some c /\
    ((m = S k /\ may_go_on f b) \/
     exists i x, first b <= i <= last b /\ nth_error f i = Some x /\
       ((op x = J_JUMP /\ arg1 x = VLabel (first c)) \/ (op x = MACRO_CASE /\ arg2 x = VLabel (first c)))).

(* Exits that stop with an error do not come back. *)
Definition exits_abort {W} (prim : opcode -> size -> ccode -> Z -> Z -> Z -> bool -> (nat -> Z) -> W ->
                                   option (Z * bool * (nat -> Z) * W)) : Prop :=
  forall s c a b rv fl ar w, abort_exit a = true -> prim MACRO_EXIT s c a b rv fl ar w = None.
