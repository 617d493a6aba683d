(* What splitting a signal must preserve, element by element, and what it must
   establish. *)
From Coq Require Import List Arith Bool Permutation.
From Verif Require Import Base SenseModel NexusModel.
Import ListNotations.

(* The piece containing element [i], and the element's position in it. *)
Fixpoint locate {A} (ps : list (piece A)) (i : nat) : option (piece A * nat) :=
  match ps with
  | [] => None
  | p :: ps' => if i <? p_width p then Some (p, i) else locate ps' (i - p_width p)
  end.

(* The bytes of element [k] of a value of [w] elements of [size] bytes. *)
Definition elem (mem : nat -> nat) (w size k : nat) (v : value) : list nat :=
  match value_bytes mem (w * size) v with
  | Ok b => firstn size (skipn (k * size) b)
  | Fault => []
  end.

(* What one source contributes to one element: kind, process, whether it is
   disconnected, current value and pending transactions. *)
Definition src_view (mem : nat -> nat) (w size k : nat) (o : src) :=
  (s_kind o, s_proc o, s_disc o,
   (fst (s_cur o), elem mem w size k (snd (s_cur o))),
   map (fun tv => (fst tv, elem mem w size k (snd tv))) (s_pend o)).

(* Everything that can be observed of element [i]: where its value and last
   value are stored, flags and event times, who is sensitive to it, and all its
   sources. *)
Definition view {A} (mem : nat -> nat) (s : signal A) (i : nat) :=
  match locate (g_pieces s) i with
  | None => None
  | Some (p, k) =>
    Some (p_off p + k * p_size p, p_size p, p_attr p, p_sens p,
          map (src_view mem (p_width p) (p_size p) k) (p_srcs p))
  end.

(* The pieces partition the signal: none is empty, they are laid out one after
   the other, and together they are as wide as the signal. *)
Fixpoint laid_out {A} (size off : nat) (ps : list (piece A)) : Prop :=
  match ps with
  | [] => True
  | p :: ps' => 0 < p_width p /\ p_size p = size /\ p_off p = off * size /\
                laid_out size (off + p_width p) ps'
  end.
Definition partition {A} (s : signal A) : Prop :=
  laid_out (g_size s) 0 (g_pieces s) /\ total (g_pieces s) = g_width s.

(* The range [off, off + count) is made of whole pieces, from position r to
   position r'. *)
Definition covers {A} (s : signal A) (r off count : nat) : Prop :=
  exists r', r <= r' <= length (g_pieces s) /\
             total (firstn r (g_pieces s)) = off /\
             total (firstn r' (g_pieces s)) = off + count.

(* All pending transaction times of all sources of all pieces. *)
Definition pending_times {A} (s : signal A) : list nat :=
  concat (map (fun p => concat (map (fun o => map fst (s_pend o)) (p_srcs p))) (g_pieces s)).

(* ---- a new signal ---- *)

(* A value of n bytes is stored in place iff n <= 8. *)
Definition fits (n : nat) (v : value) : Prop :=
  match v with Word b => n <= 8 /\ length b = 8 | Ptr _ => 8 < n end.

(* A source whose values have the right representation, that is connected, not
   waiting for a queued force or deposit, and has no overdue transaction. *)
Definition plain (now n : nat) (o : src) : Prop :=
  fits n (snd (s_cur o)) /\ Forall (fun tv => now <= fst tv /\ fits n (snd tv)) (s_pend o) /\
  s_disc o = false /\ s_queued o = false /\
  (s_kind o = KDriver \/ s_pend o = []).

(* A signal that has not been split yet. *)
Definition fresh_signal {A} (size width : nat) (attr : A) (sens : pending) (srcs : list src) : signal A :=
  Signal size width [Piece 0 width size 0 attr sens srcs] None 1.

(* ---- histories ---- *)

(* Whatever simulation does between two accesses: the time changes and every
   piece gets new contents, but pieces keep their place. *)
Definition simulate {A} (contents : nat -> A * pending * list src) (s : signal A) : signal A :=
  Signal (g_size s) (g_width s)
    (map (fun p => let '(a, sn, l) := contents (p_id p) in
                   Piece (p_id p) (p_width p) (p_size p) (p_off p) a sn l) (g_pieces s))
    (g_index s) (g_next s).

(* The states a signal can reach by sub-range accesses, in any order and number,
   interleaved with any simulation that leaves its sources plain.  Memory and
   uninitialised bytes are arbitrary at each access. *)
Inductive reachable {A} : nat -> signal A -> Prop :=
| reach_new now size width attr sens srcs :
    0 < size -> 0 < width -> Forall (plain now (width * size)) srcs ->
    reachable now (fresh_signal size width attr sens srcs)
| reach_sim now now' s contents :
    reachable now s ->
    (forall p, In p (g_pieces s) ->
       Forall (plain now' (p_width p * p_size p)) (snd (contents (p_id p)))) ->
    reachable now' (simulate contents s)
| reach_access now s mem junk off count s' r ev :
    reachable now s -> length junk = 8 -> 0 < count -> off + count <= g_width s ->
    split_nexus mem junk now s off count = Ok (s', r, ev) -> reachable now s'.

(* The same signal without its acceleration index. *)
Definition drop_index {A} (s : signal A) : signal A :=
  Signal (g_size s) (g_width s) (g_pieces s) None (g_next s).
