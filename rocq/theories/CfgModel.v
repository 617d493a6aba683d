(* Control flow graph and liveness, src/jit/jit-optim.c:31-268. *)
From Coq Require Import List ZArith Arith Bool.
From Verif Require Import Base JitModel.
Import ListNotations.

(* ---- lists of edges, jit_edge_list_t, src/jit/jit-priv.h:236-243 ---- *)

(* The union: four entries in place, or a pointer to more. *)
Inductive store := Inline (l : list nat) | External (l : list nat).
Record elist := Elist { ecount : nat; emax : nat; estore : store }.

(* xcalloc_flex *)
Definition no_edges : elist := Elist 0 0 (Inline []).

(* Modelled: src/jit/jit-optim.c:40-58 (cfg_add_one_edge).  Reading the pointer when
   there is none, or writing past the end, is a fault. *)
Definition add_one_edge (e : elist) (x : nat) : res elist :=
  if ecount e <? 4 then
    match estore e with
    | Inline l => Ok (Elist (S (ecount e)) (emax e) (Inline (l ++ [x])))
    | External _ => Fault
    end
  else if ecount e =? 4 then
    match estore e with
    | Inline l => Ok (Elist (S (ecount e)) 16 (External (l ++ [x])))
    | External _ => Fault
    end
  else
    match estore e with
    | Inline _ => Fault
    | External l =>
      if ecount e =? emax e then Ok (Elist (S (ecount e)) (emax e * 2) (External (l ++ [x])))
      else if ecount e <? emax e then Ok (Elist (S (ecount e)) (emax e) (External (l ++ [x])))
      else Fault
    end.

(* Modelled: src/jit/jit-optim.c:259-266 (jit_get_edge). *)
Definition get_edge (e : elist) (n : nat) : res nat :=
  if n <? ecount e then
    match emax e <=? 4, estore e with
    | true, Inline l | false, External l => match nth_error l n with Some x => Ok x | None => Fault end
    | _, _ => Fault
    end
  else Fault.

Fixpoint add_edges (e : elist) (xs : list nat) : res elist :=
  match xs with
  | [] => Ok e
  | x :: xs' => do! e' <- add_one_edge e x; add_edges e' xs'
  end.

(* ---- blocks ---- *)

(* jit_block_t, src/jit/jit-priv.h:245-255; the lists of edges as lists of numbers,
   which is what C32_edges shows them to be. *)
Record block := Block {
  first : nat; last : nat; aborts : bool; rets : bool; outs : list nat; ins : list nat }.

(* Modelled: src/jit/jit-core.c:1371-1385 (jit_will_abort), with the numbers of the
   exits from src/jit/jit-priv.h:120-130. *)
Definition abort_exit (e : Z) : bool := existsb (Z.eqb e) [0; 1; 2; 3; 4; 5; 6; 9]%Z.
Definition will_abort (i : ir) : bool :=
  match op i with
  | MACRO_EXIT => match arg1 i with VExit e => abort_exit e | _ => false end
  | J_TRAP => true
  | _ => false
  end.

Definition is_ret (i : ir) : bool := op_eqb (op i) J_RET.

(* Modelled: src/jit/jit-optim.c:166-173, counting the blocks: [fst] is the first
   instruction of the block being counted. *)
Fixpoint count_blocks (f : prog) (i : nat) (fst nb : nat) (l : list ir) : nat :=
  match l with
  | [] => nb
  | x :: l' =>
    let '(fst1, nb1) := if target x && (0 <? i) && negb (fst =? i) then (i, S nb) else (fst, nb) in
    let '(fst2, nb2) := if is_terminator f i && (S i <? length f) then (S i, S nb1) else (fst1, nb1) in
    count_blocks f (S i) fst2 nb2 l'
  end.

Definition with_out (b : block) (o : list nat) : block :=
  Block (first b) (last b) (aborts b) (rets b) (outs b ++ o) (ins b).
Definition with_in (b : block) (o : list nat) : block :=
  Block (first b) (last b) (aborts b) (rets b) (outs b) (ins b ++ o).
Definition new_block (i : nat) (o : list nat) : block := Block i 0 false false [] o.

(* The blocks before the current one, and the current one. *)
Definition building := (list block * block)%type.

(* ++bb, with an edge from the old to the new block if [fall]. *)
Definition next_block (fall : bool) (i : nat) (s : building) : building :=
  let '(d, c) := s in
  let k := length d in
  (d ++ [with_out c (if fall then [S k] else [])], new_block i (if fall then [k] else [])).

(* Modelled: src/jit/jit-optim.c:180-203: one instruction. *)
Definition build_one (f : prog) (i : nat) (x : ir) (s : building) : building :=
  let s1 :=
    if target x && (0 <? i) && negb (first (snd s) =? i)
    then next_block (negb (rets (snd s)) && negb (aborts (snd s))) i s
    else s in
  let c := snd s1 in
  let c1 := Block (first c) i
              (if is_ret x then aborts c else if will_abort x then true else aborts c)
              (if is_ret x then true else rets c) (outs c) (ins c) in
  if is_terminator f i && (S i <? length f) then
    next_block ((op_eqb (op x) J_JUMP && negb (cc_none (cc x))) || op_eqb (op x) MACRO_CASE) (S i)
               (fst s1, c1)
  else (fst s1, c1).

Fixpoint build_from (f : prog) (i : nat) (l : list ir) (s : building) : building :=
  match l with
  | [] => s
  | x :: l' => build_from f (S i) l' (build_one f i x s)
  end.

Definition build (f : prog) : list block :=
  let '(d, c) := build_from f 0 f ([], new_block 0 []) in d ++ [c].

(* Modelled: src/jit/jit-optim.c:241-256 (jit_block_for); no block is a fatal error. *)
Fixpoint block_for_from (fuel : nat) (bs : list block) (low high : Z) (pos : nat) : res nat :=
  match fuel with
  | O => Fault
  | S fuel' =>
    if (low <=? high)%Z then
      let mid := ((low + high) / 2)%Z in
      match nth_error bs (Z.to_nat mid) with
      | None => Fault
      | Some bb =>
        if last bb <? pos then block_for_from fuel' bs (mid + 1) high pos
        else if pos <? first bb then block_for_from fuel' bs low (mid - 1) pos
        else Ok (Z.to_nat mid)
      end
    else Fault
  end.
Definition block_for (bs : list block) (pos : nat) : res nat :=
  block_for_from (S (length bs)) bs 0 (Z.of_nat (length bs) - 1) pos.

(* The label an instruction can jump to, src/jit/jit-optim.c:206-211. *)
Definition label_of (x : ir) : option nat :=
  match op x with
  | J_JUMP => match arg1 x with VLabel l => Some l | _ => None end
  | MACRO_CASE => match arg2 x with VLabel l => Some l | _ => None end
  | _ => None
  end.

Definition upd_block (bs : list block) (k : nat) (g : block -> block) : list block :=
  match nth_error bs k with
  | Some b => firstn k bs ++ g b :: skipn (S k) bs
  | None => bs
  end.

(* Modelled: src/jit/jit-optim.c:60-64 (cfg_add_edge). *)
Definition add_edge (bs : list block) (from to : nat) : list block :=
  upd_block (upd_block bs from (fun b => with_out b [to])) to (fun b => with_in b [from]).

(* Modelled: src/jit/jit-optim.c:205-220. *)
Fixpoint jump_edges (n : nat) (i : nat) (l : list ir) (bs : list block) : res (list block) :=
  match l with
  | [] => Ok bs
  | x :: l' =>
    match label_of x with
    | None => jump_edges n (S i) l' bs
    | Some t =>
      if t <? n then
        do! from <- block_for bs i;
        do! to <- block_for bs t;
        jump_edges n (S i) l' (add_edge bs from to)
      else Fault
    end
  end.

(* Modelled: src/jit/jit-optim.c:158-224 (jit_get_cfg) without the liveness; building
   more blocks than were counted is a fault. *)
Definition get_cfg (f : prog) : res (list block) :=
  let bs := build f in
  if length bs <=? count_blocks f 0 0 1 f then jump_edges (length f) 0 f bs else Fault.

(* ---- liveness, cfg_liveness, src/jit/jit-optim.c:88-156 ---- *)

(* A set of registers; the masks are those of C03 and C04. *)
Definition rset := nat -> bool.
Definition rempty : rset := fun _ => false.
Definition radd (r : nat) (s : rset) : rset := fun x => (x =? r) || s x.
Definition runion (a b : rset) : rset := fun x => a x || b x.
Definition rminus (a b : rset) : rset := fun x => a x && negb (b x).
Definition req (n : nat) (a b : rset) : bool := forallb (fun x => Bool.eqb (a x) (b x)) (seq 0 n).

(* Modelled: src/jit/jit-optim.c:66-75 (cfg_get_reg). *)
Definition get_reg (v : value) : option nat :=
  match v with VReg r | VAddrReg r _ => Some r | _ => None end.
(* Modelled: src/jit/jit-optim.c:83-86 (cfg_writes_result). *)
Definition writes_result (i : ir) : option nat :=
  match op i with MACRO_CASE => None | _ => result i end.

Definition expose (r : option nat) (s : rset * rset) : rset * rset :=
  let '(live, kill) := s in
  match r with Some x => if kill x then s else (radd x live, kill) | None => s end.

(* Modelled: src/jit/jit-optim.c:98-122: one instruction; the sets are livein, which
   at this point holds the registers read before they are written, and varkill.  The
   flag is register [nregs]. *)
Definition scan_one (nregs : nat) (s : rset * rset) (i : ir) : rset * rset :=
  let s1 := expose (get_reg (arg1 i)) s in
  let s2 := expose (get_reg (arg2 i)) s1 in
  let s3 := if reads_result i then expose (result i) s2 else s2 in
  let s4 := match writes_result i with Some r => (fst s3, radd r (snd s3)) | None => s3 end in
  if writes_flags i then (fst s4, radd nregs (snd s4))
  else if reads_flags i then expose (Some nregs) s4
  else s4.

Definition scan (nregs : nat) (l : list ir) : rset * rset := fold_left (scan_one nregs) l (rempty, rempty).

(* The instructions of a block. *)
Definition body (f : prog) (b : block) : list ir := firstn (S (last b) - first b) (skipn (first b) f).

(* What the iteration needs of a block: livein, varkill, the successors. *)
Record node := Node { ue : rset; vk : rset; succs : list nat }.
Definition node_of (nregs : nat) (f : prog) (b : block) : node :=
  let '(l, k) := scan nregs (body f b) in Node l k (outs b).

(* Modelled: src/jit/jit-optim.c:131-140: the new live-out set of a block. *)
Definition live_new (ns : list node) (lo : nat -> rset) (b : node) : rset :=
  fold_left (fun acc s =>
    match nth_error ns s with
    | Some n => runion acc (runion (rminus (lo s) (vk n)) (ue n))
    | None => acc
    end) (succs b) rempty.

(* One round over the blocks, from the last to the first; [k] blocks are left. *)
Fixpoint live_round (nr : nat) (ns : list node) (k : nat) (lo : nat -> rset) (changed : bool)
  : (nat -> rset) * bool :=
  match k with
  | O => (lo, changed)
  | S k' =>
    match nth_error ns k' with
    | None => (lo, changed)
    | Some b =>
      let new := live_new ns lo b in
      if req nr new (lo k') then live_round nr ns k' lo changed
      else live_round nr ns k' (upd lo k' new) true
    end
  end.

(* do ... while (changed); [fuel] bounds the rounds and C31_terminates shows that it
   is enough. *)
Fixpoint live_iter (fuel : nat) (nr : nat) (ns : list node) (lo : nat -> rset) : res (nat -> rset) :=
  match fuel with
  | O => Fault
  | S fuel' =>
    let '(lo', changed) := live_round nr ns (length ns) lo false in
    if changed then live_iter fuel' nr ns lo' else Ok lo'
  end.

(* The live-out sets of all blocks. *)
Definition liveness (nregs : nat) (ns : list node) : res (nat -> rset) :=
  live_iter (S (length ns * S nregs)) (S nregs) ns (fun _ => rempty).

(* Modelled: src/jit/jit-optim.c:148-153: the final live-in set. *)
Definition live_in (n : node) (lo : rset) : rset := runion (ue n) (rminus lo (vk n)).
