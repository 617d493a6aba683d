(* What a register allocation should be. *)
From Coq Require Import List ZArith NArith Arith Bool Sorting.Permutation Sorting.Sorted.
From Verif Require Import Base JitModel CfgModel CfgSpec LscanModel.
Import ListNotations.

(* Intervals include both ends. *)
Definition covers (i : interval) (p : Z) : Prop := (ifirst i <= p <= ilast i)%Z.
Definition overlap (i j : interval) : Prop := exists p, covers i p /\ covers j p.

(* What qsort leaves: the same intervals, by increasing beginning, in any order otherwise. *)
Definition sorted_from (l sorted : list interval) : Prop :=
  Permutation l sorted /\ StronglySorted (fun a b => (ifirst a <= ifirst b)%Z) sorted.

(* The number of intervals at a point. *)
Definition pressure (l : list interval) (p : Z) : nat :=
  length (filter (fun i => (ifirst i <=? p)%Z && (p <=? ilast i)%Z) l).

(* Replacing registers by slots. *)
Definition rename_value (sl : nat -> nat) (v : value) : value :=
  match v with
  | VReg r => VReg (sl r)
  | VAddrReg r d => VAddrReg (sl r) d
  | _ => v
  end.
Definition rename_ir (sl : nat -> nat) (i : ir) : ir :=
  Ir (op i) (sz i) (target i) (cc i) (option_map sl (result i)) (rename_value sl (arg1 i)) (rename_value sl (arg2 i)).
Definition rename (sl : nat -> nat) (f : prog) : prog := map (rename_ir sl) f.

(* The slot of a register as a number. *)
Definition slot_of (sl : nat -> option nat) (r : nat) : nat := match sl r with Some s => s | None => 0 end.

(* An interval of positions, or of a register that is never used. *)
Definition proper (i : interval) : Prop :=
  (0 <= ifirst i <= ilast i /\ ilast i < UINT_MAX)%Z \/ (ifirst i = UINT_MAX /\ ilast i = 0)%Z.

(* The flag is not needed at the beginning or the end of any block. *)
Definition flag_local (nregs : nat) (bs : list block) (lin lout : nat -> rset) : Prop :=
  forall k, k < length bs -> lin k nregs = false /\ lout k nregs = false.

(* The live-in sets. *)
Definition lin_of (nregs : nat) (f : prog) (bs : list block) (lo : nat -> rset) (k : nat) : rset :=
  match nth_error bs k with Some b => live_in (node_of nregs f b) (lo k) | None => rempty end.
