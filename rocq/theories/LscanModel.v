(* Linear scan register allocation, src/jit/jit-optim.c:1274-1440. *)
From Coq Require Import List ZArith NArith Arith Bool.
From Verif Require Import Base JitModel CfgModel.
Import ListNotations.

(* lscan_interval_t, src/jit/jit-optim.c:1277-1281.  [reg], [first] and [last] are
   unsigned; positions are below UINT_MAX. *)
Record interval := Interval { ireg : nat; ifirst : Z; ilast : Z }.

Definition UINT_MAX : Z := 4294967295.
(* src/jit/jit-priv.h *)
Definition STACK_BASE : nat := 100.

(* ---- intervals ---- *)

(* The array li while the graph is walked: [first] and [last] of each register; an
   index that is not below [nregs] is outside the array. *)
Definition ranges := nat -> Z * Z.

(* Modelled: src/jit/jit-optim.c:1283-1288 (lscan_grow_range). *)
Definition grow_range (nregs : nat) (r : nat) (pos : nat) (li : ranges) : res ranges :=
  if r <? nregs then
    let '(a, b) := li r in Ok (upd li r (Z.min a (Z.of_nat pos), Z.max b (Z.of_nat pos)))
  else Fault.

Fixpoint grow_all (nregs : nat) (rs : list nat) (pos : nat) (li : ranges) : res ranges :=
  match rs with
  | [] => Ok li
  | r :: rs' => do! li' <- grow_range nregs r pos li; grow_all nregs rs' pos li'
  end.

(* The members of a set, as mask_iter gives them; the masks have [nregs + 1] bits. *)
Definition members (nregs : nat) (s : rset) : list nat := filter s (seq 0 (S nregs)).

(* Modelled: src/jit/jit-optim.c:1303-1314: the registers of an instruction. *)
Definition ir_ranges (nregs : nat) (pos : nat) (i : ir) (li : ranges) : res ranges :=
  do! li1 <- match result i with Some r => grow_range nregs r pos li | None => Ok li end;
  do! li2 <- match get_reg (arg1 i) with Some r => grow_range nregs r pos li1 | None => Ok li1 end;
  match get_reg (arg2 i) with Some r => grow_range nregs r pos li2 | None => Ok li2 end.

Fixpoint irs_ranges (nregs : nat) (pos : nat) (l : list ir) (li : ranges) : res ranges :=
  match l with
  | [] => Ok li
  | i :: l' => do! li' <- ir_ranges nregs pos i li; irs_ranges nregs (S pos) l' li'
  end.

(* Modelled: src/jit/jit-optim.c:1298-1317: one block, with its sets livein and liveout. *)
Definition block_ranges (nregs : nat) (f : prog) (b : block) (lin lout : rset) (li : ranges) : res ranges :=
  do! li1 <- grow_all nregs (members nregs lin) (first b) li;
  do! li2 <- irs_ranges nregs (first b) (body f b) li1;
  grow_all nregs (members nregs lout) (last b) li2.

(* Modelled: src/jit/jit-optim.c:1290-1323 (lscan_walk_cfg).  [fuel] bounds the depth
   of the recursion; C30_intervals shows that it is enough. *)
Fixpoint walk (fuel : nat) (nregs : nat) (f : prog) (bs : list block) (lin lout : nat -> rset)
  (bi : nat) (st : ranges * (nat -> bool)) : res (ranges * (nat -> bool)) :=
  match fuel with
  | O => Fault
  | S fuel' =>
    let '(li, visited) := st in
    if visited bi then Ok st
    else
      match nth_error bs bi with
      | None => Fault
      | Some b =>
        do! li1 <- block_ranges nregs f b (lin bi) (lout bi) li;
        (fix each (ns : list nat) (st : ranges * (nat -> bool)) : res (ranges * (nat -> bool)) :=
           match ns with
           | [] => Ok st
           | n :: ns' => do! st' <- walk fuel' nregs f bs lin lout n st; each ns' st'
           end) (outs b) (li1, upd visited bi true)
      end
  end.

(* Modelled: src/jit/jit-optim.c:1358-1372. *)
Definition intervals (nregs : nat) (f : prog) (bs : list block) (lin lout : nat -> rset)
  : res (list interval) :=
  do! st <- walk (S (length bs)) nregs f bs lin lout 0 (fun _ => (UINT_MAX, 0%Z), fun _ => false);
  Ok (map (fun r => Interval r (fst (fst st r)) (snd (fst st r))) (seq 0 nregs)).

(* ---- allocation ---- *)

(* The registers that are free, as bits of a 32-bit word. *)
Definition freeset := nat -> bool.

(* __builtin_ffsl - 1 *)
Definition lowest (fr : freeset) : option nat := find fr (seq 0 32).

(* Modelled: src/jit/jit-optim.c:1376-1377: Rint and freeregs from badmask. *)
Definition allowed (badmask : N) (r : nat) : bool := (r <? 32) && negb (N.testbit badmask (N.of_nat r)).
Definition popcount (badmask : N) : nat := length (filter (fun r => N.testbit badmask (N.of_nat r)) (seq 0 32)).
Definition rint (badmask : N) : nat := 32 - popcount badmask.

Record lstate := Lstate {
  slots : nat -> option nat;      (* None is UINT_MAX *)
  active : list interval;
  freeregs : freeset;
  next_spill : nat }.

(* Modelled: src/jit/jit-optim.c:1384-1397: the loop that expires intervals; an
   interval without a register is an assertion failure. *)
Fixpoint expire (sl : nat -> option nat) (pos : Z) (act : list interval) (fr : freeset)
  : res (list interval * freeset) :=
  match act with
  | [] => Ok ([], fr)
  | a :: act' =>
    if (pos <=? ilast a)%Z then Ok (act, fr)
    else match sl (ireg a) with
         | Some s => if s <? STACK_BASE then expire sl pos act' (upd fr s true) else Fault
         | None => Fault
         end
  end.

(* Modelled: src/jit/jit-optim.c:1424-1432: keeping the list sorted by end point. *)
Fixpoint insert_active (i : interval) (act : list interval) : list interval :=
  match act with
  | [] => [i]
  | a :: act' => if (ilast a <=? ilast i)%Z then a :: insert_active i act' else i :: act
  end.

(* Modelled: src/jit/jit-optim.c:1382-1434: one interval.  With no register at all the
   code reads the entry before the list, which is a fault. *)
Definition alloc_one (rint : nat) (this : interval) (st : lstate) : res lstate :=
  do! r <- expire (slots st) (ifirst this) (active st) (freeregs st);
  let '(act, fr) := r in
  if length act =? rint then
    match rev act with
    | [] => Fault
    | spill :: ract =>
      if (ilast this <? ilast spill)%Z then
        let s := slots st (ireg spill) in
        Ok (Lstate (upd (upd (slots st) (ireg this) s) (ireg spill) (Some (next_spill st)))
                   (insert_active this (rev ract)) fr (S (next_spill st)))
      else Ok (Lstate (upd (slots st) (ireg this) (Some (next_spill st))) act fr (S (next_spill st)))
    end
  else
    match lowest fr with
    | None => Fault
    | Some bit => Ok (Lstate (upd (slots st) (ireg this) (Some bit)) (insert_active this act)
                             (upd fr bit false) (next_spill st))
    end.

Fixpoint alloc_all (rint : nat) (l : list interval) (st : lstate) : res lstate :=
  match l with
  | [] => Ok st
  | i :: l' => do! st' <- alloc_one rint i st; alloc_all rint l' st'
  end.

(* Modelled: src/jit/jit-optim.c:1376-1440, for intervals in the order qsort left them
   in: the slots and the number of spill slots. *)
Definition lscan (badmask : N) (sorted : list interval) : res ((nat -> option nat) * nat) :=
  do! st <- alloc_all (rint badmask) sorted (Lstate (fun _ => None) [] (allowed badmask) STACK_BASE);
  Ok (slots st, next_spill st - STACK_BASE).
