(* src/psl/psl-fsm.c: the automaton built for a PSL sequence;
   src/psl/psl-lower.c: the code emitted for its states;
   src/rt/model.c: the set of active states at run time.

   States are numbered by their [id]; the list [fsm->states] is the numbers
   0 .. next-1 in order, because add_state appends and never reuses an id.
   Not modelled: the [where] and [strong] fields, psl_fsm_dump, the memory
   pool, and the property operators that are not sequences (next, until,
   eventually!, before, abort, logical operators, suffix implication). *)
From Coq Require Import List Arith Bool.
From Verif Require Import Base PslSpec.
Import ListNotations.

(* psl-fsm.h 30-48.  A guard is a tagged pointer; NULL (always true) is
   [None] in [option guard].  An expression guard is the node's number. *)
Inductive binop := BAnd | BOr.
Inductive guard :=
| GExpr (p : nat)
| GNot (p : nat)
| GFalse
| GBin (k : binop) (l r : guard).

(* psl-fsm.h 26-28, 50-55. *)
Inductive ekind := NEXT | EPS.
Record edge := Edge { ek : ekind; eg : option guard; dst : nat }.

(* psl-fsm.h 57-83: next_id and, per state, the edge list, the accept flag
   and the guard of the accept flag. *)
Record fsm := Fsm {
  next : nat;
  edges : nat -> list edge;
  acc : nat -> bool;
  ag : nat -> option guard }.

Definition set_edges (f : fsm) (q : nat) (l : list edge) : fsm :=
  Fsm (next f) (upd (edges f) q l) (acc f) (ag f).

(* psl-fsm.c 44-55 add_state. *)
Definition add_state (f : fsm) : fsm * nat :=
  (Fsm (S (next f)) (edges f) (acc f) (ag f), next f).

(* psl-fsm.c 57-79 same_guard.  Both [bop1] and [bop2] are taken from [g1],
   so two compound guards always compare equal.  Guards of the other kinds
   are equal when the tagged pointers are. *)
Definition same_guard (g1 g2 : option guard) : bool :=
  match g1, g2 with
  | None, None => true
  | Some (GExpr p), Some (GExpr q) => p =? q
  | Some (GNot p), Some (GNot q) => p =? q
  | Some GFalse, Some GFalse => true
  | Some (GBin _ _ _), Some (GBin _ _ _) => true
  | _, _ => false
  end.

Definition kind_eqb (a b : ekind) : bool :=
  match a, b with NEXT, NEXT | EPS, EPS => true | _, _ => false end.

(* psl-fsm.c 81-99 add_edge, on the edge list of the source state. *)
Definition insert_edge (l : list edge) (e : edge) : list edge :=
  if existsb (fun x => kind_eqb (ek x) (ek e) && (dst x =? dst e)
                       && same_guard (eg x) (eg e)) l
  then l else l ++ [e].

Definition add_edge (f : fsm) (from to : nat) (k : ekind) (g : option guard) : fsm :=
  set_edges f from (insert_edge (edges f from) (Edge k g to)).

(* psl-fsm.c 112-127 make_binop_guard.  [left == right] compares pointers;
   the model compares expression guards only, because two compound guards
   reached here are different objects. *)
Definition make_binop (k : binop) (l r : option guard) : option guard :=
  match l, r with
  | None, _ => r
  | _, None => l
  | Some (GExpr p), Some (GExpr q) => if p =? q then l else Some (GBin k (GExpr p) (GExpr q))
  | Some (GNot p), Some (GNot q) => if p =? q then l else Some (GBin k (GNot p) (GNot q))
  | Some a, Some b => Some (GBin k a b)
  end.

(* psl-fsm.c 129-139. *)
Definition or_guard := make_binop BOr.
Definition and_guard := make_binop BAnd.

(* psl-fsm.c 141-147 not_guard; asserts that the guard is an expression
   (NULL counts as one). *)
Definition not_guard (g : option guard) : res guard :=
  match g with
  | None => Ok GFalse
  | Some (GExpr p) => Ok (GNot p)
  | Some _ => Fault
  end.

(* psl-fsm.c 149-157 build_else_guard, on the state's edges. *)
Fixpoint else_guard (g : option guard) (l : list edge) : res (option guard) :=
  match l with
  | [] => Ok g
  | e :: rest =>
    do! n <- not_guard (eg e);
    else_guard (and_guard g (Some n)) rest
  end.

(* psl-fsm.c 707-747 psl_simplify_dfs.  [visited] is the bit mask; the edges
   before and after the one being looked at are [done] and [todo]; [rec] is
   the recursive call.  A call that does not end within [fuel] nested calls,
   or a loop that does not end within [fuel] steps, is a [Fault]. *)
Definition simplify_loop (rec : fsm -> (nat -> bool) -> nat -> res (fsm * (nat -> bool)))
  (q : nat) :=
  fix loop (steps : nat) (f : fsm) (visited : nat -> bool) (done todo : list edge)
    : res (fsm * (nat -> bool)) :=
    match steps with
    | O => Fault
    | S steps' =>
      match todo with
      | [] => Ok (set_edges f q done, visited)
      | e :: rest =>
        match ek e with
        | NEXT => loop steps' f visited (done ++ [e]) rest
        | EPS =>
          let f0 := set_edges f q (done ++ e :: rest) in
          do! (f1, vis1) <-
            (if visited (dst e) then Ok (f0, visited) else rec f0 visited (dst e));
          let f2 :=
            if acc f1 (dst e) then
              Fsm (next f1) (edges f1) (upd (acc f1) q true)
                  (upd (ag f1) q
                       (or_guard (ag f1 q) (and_guard (eg e) (ag f1 (dst e)))))
            else f1 in
          match edges f2 (dst e) with
          | [] => loop steps' f2 vis1 done rest
          | first :: more =>
            if forallb (fun e2 => kind_eqb (ek e2) NEXT) (first :: more) then
              let all :=
                fold_left (fun l e2 =>
                             insert_edge l (Edge (ek e2) (and_guard (eg e) (eg e2)) (dst e2)))
                          more (done ++ e :: rest) in
              let e' := Edge (ek first) (and_guard (eg e) (eg first)) (dst first) in
              loop steps' f2 vis1 (done ++ [e']) (skipn (S (length done)) all)
            else Fault
          end
        end
      end
    end.

Fixpoint simplify_dfs (fuel : nat) (f : fsm) (visited : nat -> bool) (q : nat)
  : res (fsm * (nat -> bool)) :=
  match fuel with
  | O => Fault
  | S fuel' =>
    simplify_loop (simplify_dfs fuel') q fuel f (upd visited q true) [] (edges f q)
  end.

(* psl-fsm.c 749-760 psl_simplify. *)
Definition simplify (fuel : nat) (f : fsm) : res fsm :=
  do! (f', _) <-
    fold_left (fun (st : res (fsm * (nat -> bool))) q =>
                 do! (f, vis) <- st;
                 if vis q then Ok (f, vis) else simplify_dfs fuel f vis q)
              (seq 0 (next f)) (Ok (f, fun _ => false));
  Ok f'.

(* psl-fsm.c 194-258 intersect_fsm: the product of two automata, with a
   worklist used as a stack.  The map from pairs to states is an association
   list. *)
Definition pair_get (m : list (nat * nat * nat)) (a b : nat) : option nat :=
  match find (fun x => (fst (fst x) =? a) && (snd (fst x) =? b)) m with
  | Some x => Some (snd x)
  | None => None
  end.

Definition product_edge (into : nat)
  (st : fsm * list (nat * nat * nat) * list (nat * nat * nat)) (ee : edge * edge)
  : fsm * list (nat * nat * nat) * list (nat * nat * nat) :=
  let '(f, m, work) := st in
  let '(e1, e2) := ee in
  let '(f', m', work', d) :=
    if dst e1 =? dst e2 then (f, m, work, dst e1)
    else match pair_get m (dst e1) (dst e2) with
         | Some d => (f, m, work, d)
         | None =>
           let '(f', d) := add_state f in
           (f', (dst e1, dst e2, d) :: m, (dst e1, dst e2, d) :: work, d)
         end in
  (add_edge f' into d (ek e1) (and_guard (eg e1) (eg e2)), m', work').

Fixpoint product (fuel : nat) (f : fsm) (m work : list (nat * nat * nat)) (final : nat)
  : res fsm :=
  match work with
  | [] => Ok f
  | (l, r, into) :: work' =>
    match fuel with
    | O => Fault
    | S fuel' =>
      let '(f1, m1, work1) :=
        fold_left (product_edge into) (list_prod (edges f l) (edges f r)) (f, m, work') in
      let f2 :=
        if acc f1 l && acc f1 r
        then add_edge f1 into final EPS (and_guard (ag f1 l) (ag f1 r)) else f1 in
      product fuel' f2 m1 work1 final
    end
  end.

Definition set_accept (f : fsm) (q : nat) : fsm :=
  Fsm (next f) (edges f) (upd (acc f) q true) (ag f).

Definition intersect (fuel : nat) (f : fsm) (initial li lf ri rf : nat)
  : res (fsm * nat) :=
  do! f1 <- simplify fuel (set_accept (set_accept f lf) rf);
  let '(f2, final) := add_state f1 in
  do! f3 <- product fuel f2 [] [(li, ri, initial)] final;
  Ok (f3, final).

(* psl-fsm.c 355-396 build_sere (fusion, concatenation, "&&"), 398-452
   get_repeat_bounds, 454-510 build_repeat and 598-606 the HDL expression case
   of build_node.  [fuel] is for "&&" only.  An infinite repetition is
   [hi = None], which stands for the upper bound INT32_MAX. *)
Section Build.
Variable fuel : nat.

(* 366-378: the operands in order; consecutive ones are linked by a new
   state and an edge of kind [lk], unless the operand added no state. *)
Definition build_seq (bld : sere -> fsm -> nat -> res (fsm * nat)) (lk : ekind) :=
  fix go (ops : list sere) (f : fsm) (s : nat) {struct ops} : res (fsm * nat) :=
    match ops with
    | [] => Ok (f, s)
    | o :: rest =>
      do! (f1, t) <- bld o f s;
      match rest with
      | [] => Ok (f1, t)
      | _ =>
        if t =? s then go rest f1 t
        else
          let '(f2, s2) := add_state f1 in
          go rest (add_edge f2 t s2 lk None) s2
      end
    end.

(* 467-496, the loop of build_repeat: [k] iterations remain, [i] are done.
   Returns the last state and [last_but_one]. *)
Fixpoint build_copies (bld : fsm -> nat -> res (fsm * nat)) (rk : repkind) (r : sere)
  (lo : nat) (skip : nat) (k i : nat) (f : fsm) (s lb : nat) {struct k}
  : res (fsm * nat * nat) :=
  match k with
  | O => Ok (f, s, lb)
  | S k' =>
    do! (f1, t) <- bld f s;
    do! f2 <-
      match rk with
      | Times => Ok f1
      | _ =>
        let '(fw, wait) := add_state f1 in
        do! g <- else_guard None (edges fw s);
        Ok (add_edge (add_edge fw s wait EPS g) wait s NEXT None)
      end;
    match k' with
    | O =>
      match rk with
      | Equal =>
        let '(fa, aux) := add_state f2 in
        let '(fd, dead) := add_state fa in
        let '(fw, wait) := add_state fd in
        match r with
        | Hdl p =>
          let f3 := add_edge (add_edge fw t aux NEXT None) aux dead EPS (Some (GExpr p)) in
          do! g <- else_guard None (edges f3 aux);
          Ok (add_edge (add_edge (add_edge f3 aux wait EPS g) wait aux NEXT None)
                       wait t EPS None, t, s)
        | _ => Fault
        end
      | _ => Ok (f2, t, s)
      end
    | S _ =>
      let f3 := if lo - 1 <=? i then add_edge f2 t skip EPS None else f2 in
      let '(f4, s2) := add_state f3 in
      build_copies bld rk r lo skip k' (S i) (add_edge f4 t s2 NEXT None) s2 s
    end
  end.

(* 454-510. *)
Definition build_repeat (bld : fsm -> nat -> res (fsm * nat)) (rk : repkind)
  (lo : nat) (hi : option nat) (r : sere) (f : fsm) (s : nat) : res (fsm * nat) :=
  let high := match hi with Some h => h | None => lo end in
  let '(f0, skip) := if lo <? high then add_state f else (f, 0) in
  do! (f1, t, lb) <- build_copies bld rk r lo skip high 0 f0 s 0;
  let f2 := if lo <? high then add_edge f1 skip t EPS None else f1 in
  let f3 := if t =? s then f2
            else
              let fz := if lo =? 0 then add_edge f2 s t EPS None else f2 in
              match hi with None => add_edge fz t lb NEXT None | Some _ => fz end in
  Ok (f3, t).

Fixpoint build (r : sere) (f : fsm) (s : nat) {struct r} : res (fsm * nat) :=
  match r with
  | Hdl p =>
    let '(f1, t) := add_state f in
    Ok (add_edge f1 s t EPS (Some (GExpr p)), t)
  | Seq k ops =>
    build_seq build (match k with Fusion => EPS | Concat => NEXT end) ops f s
  | Rep rk lo hi r' => build_repeat (build r') rk lo hi r' f s
  | And a b =>
    let '(f1, li) := add_state f in
    do! (f2, lf) <- build a f1 li;
    let '(f3, ri) := add_state f2 in
    do! (f4, rf) <- build b f3 ri;
    intersect fuel f4 s li lf ri rf
  end.
End Build.

(* psl-fsm.c 762-784 psl_prune_dfs: a state that accepts unconditionally loses
   its edges.  Dropping unreachable states and renumbering the others are not
   modelled: neither changes which states are active. *)
Definition prune (f : fsm) : fsm :=
  Fsm (next f)
      (fun q => if acc f q then match ag f q with None => [] | Some _ => edges f q end
                else edges f q)
      (acc f) (ag f).

(* psl-fsm.c 808-840 psl_fsm_new, for a directive whose property is a
   sequence. *)
Definition empty_fsm : fsm := Fsm 0 (fun _ => []) (fun _ => false) (fun _ => None).

Definition fsm_new (fuel : nat) (r : sere) : res fsm :=
  let '(f0, initial) := add_state empty_fsm in
  do! (f1, final) <- build fuel r f0 initial;
  do! f2 <- simplify fuel (set_accept f1 final);
  Ok (prune f2).

(* psl-lower.c 84-110 psl_lower_guard: the value of a guard in the current
   cycle, given the values of the expressions.  GUARD_FALSE has no case
   there (should_not_reach_here); the model gives it the value it names. *)
Fixpoint eval_guard (v : nat -> bool) (g : guard) : bool :=
  match g with
  | GExpr p => v p
  | GNot p => negb (v p)
  | GFalse => false
  | GBin BAnd l r => eval_guard v l && eval_guard v r
  | GBin BOr l r => eval_guard v l || eval_guard v r
  end.

Definition holds (v : nat -> bool) (g : option guard) : bool :=
  match g with None => true | Some g => eval_guard v g end.

(* psl-lower.c 151-221 psl_lower_state: does the state accept in this cycle
   (then the code returns at once), which states does it enter, and does the
   assertion that some edge is taken fail. *)
Definition accepts (f : fsm) (v : nat -> bool) (q : nat) : bool :=
  acc f q && holds v (ag f q).

Definition enters (f : fsm) (v : nat -> bool) (q : nat) : list nat :=
  if accepts f v q then []
  else map dst (filter (fun e => holds v (eg e)) (edges f q)).

Definition fails (f : fsm) (v : nat -> bool) (q : nat) : bool :=
  negb (accepts f v q) && forallb (fun e => negb (holds v (eg e))) (edges f q).

(* model.c 2448-2492 update_property and 4069-4077 x_enter_state: the code of
   every active state runs once per clock cycle, and the states entered are
   the active ones of the next cycle.  psl-lower.c 157-158: a directive that
   repeats re-enters the initial state in every cycle it is active.
   model.c 915-945 reset_property: only state 0 is active at first. *)
Fixpoint active (f : fsm) (repeating : bool) (w : trace) (n : nat) : list nat :=
  match n with
  | O => [0]
  | S n' =>
    let act := active f repeating w n' in
    let entered := flat_map (fun q => (if (q =? 0) && repeating then [0] else [])
                                        ++ enters f (w n') q) act in
    filter (fun q => existsb (Nat.eqb q) entered) (seq 0 (next f))
  end.

(* psl-lower.c 167-186: in a "cover" directive the message is printed, in a
   "never" directive an error is reported, by every active state that
   accepts. *)
Definition reported (f : fsm) (w : trace) (n : nat) : bool :=
  existsb (accepts f (w n)) (active f true w n).

(* psl-lower.c 212-219: in an "assert" directive an error is reported by
   every active state that does not accept and takes no edge. *)
Definition failed (f : fsm) (repeating : bool) (w : trace) (n : nat) : bool :=
  existsb (fails f (w n)) (active f repeating w n).
