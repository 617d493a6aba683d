(* The marks that traversals of the objects of an arena set (object_marked_p,
   src/object.c 137-186).  An object is known by its index in units of
   OBJECT_ALIGN bytes. *)

From Coq Require Import NArith List Bool Arith.
From Verif Require Import Base.
Import ListNotations.

(* The fields of object_arena_t, 41-63, for marks.  The words of a new array
   hold anything. *)
Record marks := Marks {
  m_bits : option (list N);     (* mark_bits, NULL first *)
  m_low : nat; m_high : nat;
  m_gen : N }.                  (* generation_t is a uint16_t, src/object.h 120 *)

Definition marks0 : marks := Marks None 0 0 0.

(* object_next_generation, 1064-1067: next_generation is a generation_t, so
   the numbers start again after 65536. *)
Definition generation (n : N) : N := (n mod 65536)%N.

(* zero_mark_bits, 137-147, with the second assertion.  The first compares
   words with the size in bytes: that the words exist is checked instead. *)
Definition zero_mark_bits (bits : list N) (low high first count : nat) : res (list N) :=
  if length bits <? first + count then Fault
  else if (high <? first) || (first + count <=? low)
  then Ok (firstn first bits ++ repeat 0%N count ++ skipn (first + count) bits)
  else Fault.

Definition set_word (bits : list N) (w : nat) (v : N) : res (list N) :=
  if w <? length bits then Ok (firstn w bits ++ v :: skipn (S w) bits) else Fault.

(* object_marked_p, 149-186; `fresh` is what xmalloc returns.  The result is
   whether the object was marked before. *)
Definition marked_p (fresh : list N) (m : marks) (gen : N) (bit : nat) : res (bool * marks) :=
  let word := bit / 64 in
  do! m <- match m_bits m with
           | None => do! b <- set_word fresh word 0; Ok (Marks (Some b) word word gen)
           | Some b =>
               if negb (m_gen m =? gen)%N
               then do! b <- set_word b word 0; Ok (Marks (Some b) word word gen)
               else Ok m
           end;
  match m_bits m with
  | None => Fault
  | Some b =>
      do! m <- (if word <? m_low m
                then do! b <- zero_mark_bits b (m_low m) (m_high m) word (m_low m - word);
                     Ok (Marks (Some b) word (m_high m) (m_gen m))
                else if m_high m <? word
                then do! b <- zero_mark_bits b (m_low m) (m_high m) (m_high m + 1) (word - m_high m);
                     Ok (Marks (Some b) (m_low m) word (m_gen m))
                else Ok m);
      match m_bits m with
      | None => Fault
      | Some b =>
          match nth_error b word with
          | None => Fault
          | Some v =>
              let i := N.of_nat (bit mod 64) in
              do! b <- set_word b word (N.setbit v i);
              Ok (N.testbit v i, Marks (Some b) (m_low m) (m_high m) (m_gen m))
          end
      end
  end.

(* The size of the array, 157-159, in words: mark_sz is in bytes. *)
Definition mark_words (nbits : nat) : nat := (nbits + 63) / 64 * 64 / 8 / 8.

(* What a sequence of calls returns: each with the number of its traversal,
   counted without end. *)
Fixpoint calls (fresh : list N) (m : marks) (qs : list (N * nat)) : res (list bool) :=
  match qs with
  | [] => Ok []
  | (g, bit) :: rest =>
      do! (r, m) <- marked_p fresh m (generation g) bit;
      do! rs <- calls fresh m rest;
      Ok (r :: rs)
  end.
