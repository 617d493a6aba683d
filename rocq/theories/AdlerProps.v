(* C17: the checksum of library files. *)
From Coq Require Import List NArith Arith Bool Lia ZifyNat ZifyN ZifyBool.
From Verif Require Import Base AdlerModel AdlerSpec AdlerProofs.
Import ListNotations.
Local Open Scope N_scope.

(* Every implementation (scalar with 32-bit or 64-bit words, AVX2), fed any byte
   string cut into updates in any way, computes the mathematical Adler-32 sums;
   no assertion fails and no machine word overflows visibly. *)
Theorem C17_every_implementation_is_adler : forall i chunks,
  Forall (Forall is_byte) chunks ->
  exists st, updates i adler_init chunks = Ok st /\
             checksum_finish st = adler (concat chunks).
Proof.
  intros i chunks B. exists (steps adler_init (concat chunks)). split.
  - apply updates_ok; [split; reflexivity|exact B].
  - rewrite steps_spec. unfold adler. apply finish_spec; apply N.mod_lt; discriminate.
Qed.
Print Assumptions C17_every_implementation_is_adler.

Lemma sumB_alt l : sumB l = E2 1 0 l mod MOD.
Proof. unfold sumB. now rewrite sumB_E2. Qed.

Lemma sums_bound l : sumA l < 65536 /\ sumB l < 65536.
Proof.
  pose proof (N.mod_lt (1 + total l) 65521 ltac:(discriminate)).
  pose proof (N.mod_lt (E2 1 0 l) MOD ltac:(discriminate)). unfold sumA. rewrite sumB_alt. unfold MOD in *. lia.
Qed.

(* Two sums are packed without loss. *)
Lemma adler_inj l l' : adler l = adler l' -> sumA l = sumA l' /\ sumB l = sumB l'.
Proof. unfold adler. destruct (sums_bound l), (sums_bound l'). lia. Qed.

(* Values closer than the modulus have different residues. *)
Lemma mod_diff a b c : b <> c -> b < 65521 -> c < 65521 -> (a + b) mod 65521 <> (a + c) mod 65521.
Proof.
  intros N B C E.
  pose proof (N.div_mod (a + b) 65521 ltac:(discriminate)) as D1.
  pose proof (N.div_mod (a + c) 65521 ltac:(discriminate)) as D2.
  rewrite E in D1. set (r := (a + c) mod 65521) in *. set (q1 := (a + b) / 65521) in *. set (q2 := (a + c) / 65521) in *.
  clearbody r q1 q2. nia.
Qed.

(* Corrupting one byte changes the checksum. *)
Theorem C17_detects_one_byte : forall l l', one_byte_changed l l' -> adler l <> adler l'.
Proof.
  intros l l' (p & b & b' & s & -> & -> & N & B & B') E. apply adler_inj in E. destruct E as [E _].
  unfold sumA in E. rewrite !total_app in E. cbn [total] in E.
  replace (1 + (total p + (b + total s))) with (1 + total p + total s + b) in E by lia.
  replace (1 + (total p + (b' + total s))) with (1 + total p + total s + b') in E by lia.
  apply mod_diff in E; [exact E|exact N|lia|lia].
Qed.
Print Assumptions C17_detects_one_byte.

(* So does exchanging two neighbouring, different bytes. *)
Theorem C17_detects_swap : forall p x y s, x <> y -> x < 256 -> y < 256 ->
  adler (p ++ x :: y :: s) <> adler (p ++ y :: x :: s).
Proof.
  intros p x y s N X Y E. apply adler_inj in E. destruct E as [_ E]. rewrite !sumB_alt in E.
  rewrite !E2_app in E. cbn [E2] in E. set (t := 1 + total p) in *. set (e := E2 1 0 p) in *.
  rewrite (E2_lin s (t + x + y)), (E2_lin s (t + y + x)) in E.
  set (rest := nlen s * (t + x + y) + E2 0 0 s + e + t + t + x + y).
  replace (e + (t + x) + (t + x + y) + nlen s * (t + x + y) + E2 0 0 s) with (rest + x) in E by (unfold rest; lia).
  replace (e + (t + y) + (t + y + x) + nlen s * (t + y + x) + E2 0 0 s) with (rest + y) in E.
  2:{ unfold rest. replace (t + y + x) with (t + x + y) by lia. lia. }
  apply mod_diff in E; [exact E|exact N|lia|lia].
Qed.
Print Assumptions C17_detects_swap.

(* Concrete cases: the standard test vector, and a string long enough for the
   vector loop, given in two pieces. *)
Definition wikipedia : list N := [87; 105; 107; 105; 112; 101; 100; 105; 97].
Example adler_wikipedia : adler wikipedia = 920 * 65536 + 4582.
Proof. vm_compute. reflexivity. Qed.

Definition long : list N := map (fun k => N.of_nat k * 7 mod 256) (seq 0 100).
Example long_bytes : Forall is_byte long.
Proof. unfold long. apply Forall_map, Forall_forall. intros k _. apply N.mod_lt. discriminate. Qed.
Example adler_long :
  map (fun i => match updates i adler_init [firstn 37 long; skipn 37 long] with
                | Ok st => checksum_finish st | Fault => 0 end) [Scalar32; Scalar64; Avx2]
  = repeat (adler long) 3.
Proof. vm_compute. reflexivity. Qed.

Example changed : one_byte_changed [1; 2; 3] [1; 9; 3].
Proof. exists [1], 2, 9, [3]. repeat split. discriminate. Qed.
