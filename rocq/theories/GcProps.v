(* C35, C36: the garbage-collected heap. *)
From Coq Require Import List Arith NArith ZArith Bool Lia.
From Verif Require Import Base MaskModel GcModel GcSpec GcProofs GcRefine.
Import ListNotations.

(* Sizes of heaps that work: at least one line besides the margin, below the limit
   of 2^32 lines, and a number of lines that is no multiple of 64 (see
   C35_margin_refuted). *)
Definition good_size (size : nat) : Prop :=
  33 <= size /\ heap_lines size mod 64 <> 0 /\ (N.of_nat (heap_lines size) < 4294967295)%N.

(* Every history of calls runs without a failed assertion and is one that GcSpec.v
   allows: allocations return unused memory, collections keep exactly the reachable
   objects, and only the content of a new object changes. *)
Theorem C35_heap_history : forall sp size ops, good_size size ->
  exists m0 outs m h, mspace_new sp size = Ok m0 /\ run m0 ops = Ok (outs, m) /\
    heap_run sp (heap_lines size) empty_heap ops outs h.
Proof.
  intros sp size ops (G1 & G2 & G3). destruct (new_ok sp size G1 G2 G3) as (m0 & E & R).
  destruct (run_ok sp (heap_lines size) ops m0 empty_heap R) as (outs & m & h & E2 & H & _). exists m0, outs, m, h. auto.
Qed.

(* After any history the objects do not overlap, lie inside the heap, and share no
   line with the free list. *)
Theorem C35_owned : forall sp size ops m0 outs m, good_size size ->
  mspace_new sp size = Ok m0 -> run m0 ops = Ok (outs, m) ->
  exists h, heap_run sp (heap_lines size) empty_heap ops outs h /\
    forall s n, obj h s = Some n -> s + n <= heap_lines size /\
      (forall s' n' x, obj h s' = Some n' -> covers s n x -> covers s' n' x -> s = s') /\
      (forall p z x, In (p, z) (free_list m) -> covers s n x -> ~ p <= 32 * x < p + z).
Proof.
  intros sp size ops m0 outs m (G1 & G2 & G3) E Er. destruct (new_ok sp size G1 G2 G3) as (m0' & E' & R). rewrite E in E'. injection E' as <-.
  destruct (run_ok sp (heap_lines size) ops m0 empty_heap R) as (outs' & m' & h & E2 & H & R'). rewrite Er in E2. injection E2 as <- <-.
  exists h. split; [exact H|]. destruct R' as (R1 & R2 & R3 & [O1 O2] & [F1 F2] & _). intros s n O.
  destruct (O1 _ _ O) as (S1 & S2 & _). split; [exact S2|]. split.
  - intros s' n' x O' Cv Cv'. destruct (seg_unique _ _ _ _ _ _ x (O1 _ _ O) (O1 _ _ O') Cv Cv') as [-> _]. reflexivity.
  - intros p z x I Cv [P1 P2]. destruct (fl_aligned _ _ _ _ F1 I) as (l & c & Ep). injection Ep as -> ->.
    apply (F2 x) with (s := s) (n := n); [|exact O|exact Cv]. exists l, c. split; [exact I|]. unfold covers. lia.
Qed.

(* Any pointer into an object, or just past its last byte, points into it. *)
Theorem C35_end_pointer : forall sp lines h size p h' q, allocate sp lines h size p h' ->
  (p <= q <= p + N.of_nat size)%N -> exists s n, obj h' s = Some n /\ p = (sp + 32 * N.of_nat s)%N /\ points sp lines h' q s n.
Proof.
  intros sp lines h size p h' q (s & n & -> & (F1 & F2 & F3 & F4) & O & _) Q. exists s, n. split; [exact O|]. split; [reflexivity|].
  split; [now left|]. set (d := (q - sp)%N). exists (N.to_nat (d / 32)).
  pose proof (N.div_mod d 32 ltac:(lia)) as DM. pose proof (N.mod_lt d 32 ltac:(lia)) as ML. unfold in_line, covers.
  assert (Dq : q = (sp + d)%N) by (unfold d; lia). set (k := (d / 32)%N) in *. set (r := (d mod 32)%N) in *. clearbody d k r. subst q.
  split; [lia|]. left. lia.
Qed.

(* A collection frees everything else: the free list then holds exactly the lines
   of no reachable block, in runs that cannot be extended. *)
Theorem C36_all_freed : forall sp size ops m0 outs m rs, good_size size ->
  mspace_new sp size = Ok m0 -> run m0 ops = Ok (outs, m) ->
  exists h m', heap_run sp (heap_lines size) empty_heap ops outs h /\ mspace_gc m rs = Ok m' /\
    let reached x := exists s n, reach sp (heap_lines size) h rs s n /\ covers s n x in
    (forall x, x < heap_lines size -> (exists p z, In (p, z) (free_list m') /\ p <= 32 * x < p + z) <-> ~ reached x) /\
    (forall p z, In (p, z) (free_list m') -> exists l c, p = 32 * l /\ z = 32 * c /\ 1 <= c /\ l + c <= heap_lines size /\
       (l = 0 \/ reached (l - 1)) /\ (l + c = heap_lines size \/ reached (l + c))).
Proof.
  intros sp size ops m0 outs m rs (G1 & G2 & G3) E Er. destruct (new_ok sp size G1 G2 G3) as (m0' & E' & R). rewrite E in E'. injection E' as <-.
  destruct (run_ok sp (heap_lines size) ops m0 empty_heap R) as (outs' & m' & h & E2 & H & R'). rewrite Er in E2. injection E2 as <- <-.
  destruct (collect_ok sp (heap_lines size) m h rs R') as (m' & h' & mk & Eg & _ & _ & (S1 & S2 & S3 & S4)).
  exists h, m'. split; [exact H|]. split; [exact Eg|]. cbv zeta. split.
  - intros x Hx. rewrite <- (S1 x). split.
    + intros (p & z & I & P). destruct (fl_aligned _ _ _ _ S2 I) as (l & c & Ep). injection Ep as -> ->.
      assert (O : on_list (free_list m') x) by (exists l, c; split; [exact I|unfold covers; lia]). apply S3 in O. destruct O as [_ O]. congruence.
    + intros K. assert (O : on_list (free_list m') x) by (apply S3; split; [exact Hx|destruct (mk x); [now elim K|reflexivity]]).
      destruct O as (l & c & I & Cv). exists (32 * l), (32 * c). split; [exact I|]. unfold covers in Cv. lia.
  - intros p z I. destruct (fl_aligned _ _ _ _ S2 I) as (l & c & Ep). injection Ep as -> ->.
    destruct (S4 _ _ I) as (T1 & T2 & T3 & T4 & T5). exists l, c. split; [reflexivity|]. split; [reflexivity|]. split; [exact T1|]. split; [exact T2|]. split.
    + destruct T4 as [T4|T4]; [now left|right; now apply S1].
    + destruct T5 as [T5|T5]; [now left|right; now apply S1].
Qed.

(* When the number of lines is a multiple of 64, a word that looks like an address in
   the margin after the last line makes the collector read outside its bit mask. *)
Theorem C35_margin_refuted : exists size ops, 33 <= size /\
  exists m0, mspace_new 4096 size = Ok m0 /\ run m0 ops = Fault.
Proof.
  exists (32 * 129), [Gc [(4096 + 32 * 128)%N]]. split; [lia|]. eexists. split; [reflexivity|]. vm_compute. reflexivity.
Qed.

Print Assumptions C35_heap_history.
Print Assumptions C35_owned.
Print Assumptions C35_end_pointer.
Print Assumptions C36_all_freed.
Print Assumptions C35_margin_refuted.

(* A list of two objects is kept by a root that points into the middle of the first;
   a third object is collected and its memory is used again. *)
Definition story : list op :=
  [ MptrNew;
    Alloc 40 [] [];                 (* lines 0-1 *)
    Alloc 40 [] [];                 (* lines 2-3 *)
    Alloc 70 [] [];                 (* lines 4-6 *)
    Write 1 (4096 + 32 * 4 + 70)%N; (* first object -> one past the end of the third *)
    Write 16 (4096 + 9)%N;          (* third object -> first *)
    MptrSet 0 (4096 + 32 + 5)%N;    (* root -> middle of the first *)
    Gc [];
    Alloc 20 [] [];                 (* line 2 *)
    Alloc 63 [] [];                 (* lines 7-8 *)
    Find (4096 + 32 * 6)%N;
    Alloc 32 [] []                  (* needs 2 lines: collects, lines 2-3 *) ].
Example story_runs : good_size 320 /\ exists m0 m, mspace_new 4096 320 = Ok m0 /\
  run m0 story = Ok ([OId 0; OPtr (Some 4096); OPtr (Some 4160); OPtr (Some 4224); ONone; ONone; ONone; ONone;
                      OPtr (Some 4160); OPtr (Some 4320); OFind (Some 4224) 96; OPtr (Some 4160)]%N, m) /\ free_list m = [(224, 64)].
Proof.
  split; [split; [lia|split; [vm_compute; discriminate|vm_compute; reflexivity]]|]. eexists. eexists. split; [reflexivity|].
  split; [vm_compute; reflexivity|reflexivity].
Qed.
