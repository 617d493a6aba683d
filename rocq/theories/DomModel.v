(* Control flow graph and dominator sets of MIR units, src/mir/mir-optim.c:31-227. *)
From Coq Require Import List Arith Bool.
From Verif Require Import Base MaskModel CfgModel.
Import ListNotations.

(* The last operation of a block, as far as mir_get_cfg looks at it: [Wait b] is
   MIR_OP_WAIT resuming in block [b], [Return] is MIR_OP_RETURN and [Goto bs] any other
   terminator, with those of its arguments that are blocks, in order (jump, cond, case). *)
Inductive term := Wait (b : nat) | Return | Goto (bs : list nat).

(* A unit: the terminator of each block. *)
Definition munit := list term.

(* cfg_block_t, src/mir/mir-optim.c:41-54, without the number of the block. *)
Record cblock := Cblock { entry : bool; returns : bool; cin : elist; cout : elist }.
Definition cfg := nat -> cblock.

Definition set_entry (b : nat) (c : cfg) : cfg :=
  upd c b (Cblock true (returns (c b)) (cin (c b)) (cout (c b))).
Definition set_returns (b : nat) (c : cfg) : cfg :=
  upd c b (Cblock (entry (c b)) true (cin (c b)) (cout (c b))).

(* Modelled: src/mir/mir-optim.c:113-117 (cfg_add_edge); cfg_add_one_edge and
   cfg_get_edge (91-111, 119-126) are the same code as in src/jit/jit-optim.c. *)
Definition add_medge (c : cfg) (from to : nat) : res cfg :=
  do! o <- add_one_edge (cout (c from)) to;
  let c1 := upd c from (Cblock (entry (c from)) (returns (c from)) (cin (c from)) o) in
  do! i <- add_one_edge (cin (c1 to)) from;
  Ok (upd c1 to (Cblock (entry (c1 to)) (returns (c1 to)) i (cout (c1 to)))).

Fixpoint add_medges (n : nat) (c : cfg) (from : nat) (ts : list nat) : res cfg :=
  match ts with
  | [] => Ok c
  | t :: ts' =>
    if t <? n then do! c1 <- add_medge c from t; add_medges n c1 from ts' else Fault
  end.

(* One block of the loop of mir_get_cfg, src/mir/mir-optim.c:133-160; [n] is the number
   of blocks, a block number that is not below it is a fault. *)
Definition cfg_block (n i : nat) (t : term) (c : cfg) : res cfg :=
  match t with
  | Wait b => if b <? n then Ok (set_returns i (set_entry b c)) else Fault
  | Return => Ok (set_returns i c)
  | Goto ts => add_medges n c i ts
  end.

Fixpoint cfg_blocks (n i : nat) (l : list term) (c : cfg) : res cfg :=
  match l with
  | [] => Ok c
  | t :: l' => do! c1 <- cfg_block n i t c; cfg_blocks n (S i) l' c1
  end.

(* Modelled: src/mir/mir-optim.c:128-164 (mir_get_cfg). *)
Definition mir_get_cfg (u : munit) : res cfg :=
  cfg_blocks (length u) 0 u (fun i => Cblock (i =? 0) false no_edges no_edges).

(* Modelled: src/mir/mir-optim.c:186-193, the initial sets. *)
Fixpoint dom_init (n : nat) (c : cfg) (l : list nat) (dom : nat -> mask) : res (nat -> mask) :=
  match l with
  | [] => Ok dom
  | i :: l' =>
    do! m <- (if entry (c i) then mask_set (mask_init n) i else mask_setall (mask_init n));
    dom_init n c l' (upd dom i m)
  end.

(* Modelled: src/mir/mir-optim.c:207-210, [j] counting the [k] remaining edges. *)
Fixpoint dom_preds (c : cfg) (dom : nat -> mask) (i k j : nat) (tmp : mask) : res mask :=
  match k with
  | O => Ok tmp
  | S k' =>
    do! p <- get_edge (cin (c i)) j;
    do! tmp1 <- mask_intersect tmp (dom p);
    dom_preds c dom i k' (S j) tmp1
  end.

(* Modelled: src/mir/mir-optim.c:202-218, one pass over the blocks. *)
Fixpoint dom_round (c : cfg) (l : list nat) (dom : nat -> mask) (tmp : mask) (changes : bool)
  : res ((nat -> mask) * mask * bool) :=
  match l with
  | [] => Ok (dom, tmp, changes)
  | i :: l' =>
    if entry (c i) then dom_round c l' dom tmp changes
    else
      do! t1 <- mask_setall tmp;
      do! t2 <- dom_preds c dom i (ecount (cin (c i))) 0 t1;
      do! t3 <- mask_set t2 i;
      do! changes1 <- (if changes then Ok true else do! e <- mask_eq t3 (dom i); Ok (negb e));
      do! m <- mask_copy (dom i) t3;
      dom_round c l' (upd dom i m) t3 changes1
  end.

(* Modelled: src/mir/mir-optim.c:198-219; [fuel] bounds the number of passes. *)
Fixpoint dom_loop (fuel n : nat) (c : cfg) (dom : nat -> mask) (tmp : mask) : res (nat -> mask) :=
  match fuel with
  | O => Fault
  | S fuel' =>
    do! (dt, changes) <- dom_round c (seq 0 n) dom tmp false;
    let '(dom1, tmp1) := dt in
    if (changes : bool) then dom_loop fuel' n c dom1 tmp1 else Ok dom1
  end.

(* Modelled: src/mir/mir-optim.c:182-220 (mir_dominator_tree).  The bound on the passes
   is more than are ever needed (C42_dominators: the result is not a fault). *)
Definition mir_dominator_tree (n : nat) (c : cfg) : res (nat -> mask) :=
  do! dom <- dom_init n c (seq 0 n) (fun _ => mask_init n);
  dom_loop (S (n * n)) n c dom (mask_init n).
