(* C29: local value numbering preserves what a function does. *)
From Coq Require Import List ZArith NArith Arith Bool Lia.
From Verif Require Import Base JitModel JitPassModel JitSpec LvnSpec LvnModel LvnRun LvnSim.
Import ListNotations.
Local Open Scope Z_scope.

Section Statement.
Variable W : Type.
Variable cpool_base : Z.
Variable cover_addr : Z -> Z.
Variable prim : opcode -> size -> ccode -> Z -> Z -> Z -> bool -> (nat -> Z) -> W ->
                option (Z * bool * (nat -> Z) * W).
Notation returns := (returns W cpool_base cover_addr prim).
Notation goes_wrong := (goes_wrong W cpool_base cover_addr prim).
Notation diverges := (diverges W cpool_base cover_addr prim).
Notation run := (run W cpool_base cover_addr prim).

Lemma run_done f s ar w : forall n k, run n f s = Done W ar w -> (n <= k)%nat -> run k f s = Done W ar w.
Proof.
  intros n k H L. replace k with (n + (k - n))%nat by lia.
  rewrite (run_add W cpool_base cover_addr prim f n (k - n) s). now rewrite H.
Qed.

Lemma run_next f s : forall n k t, run n f s = Next W t -> (k <= n)%nat -> exists u, run k f s = Next W u.
Proof.
  intros n k t H L. replace n with (k + (n - k))%nat in H by lia.
  rewrite (run_add W cpool_base cover_addr prim f k (n - k) s) in H. destruct (run k f s); eauto; discriminate.
Qed.

(* Missing: code in which a checked addition, subtraction or multiplication, an
   exponentiation or an operation on a block of memory is replaced; code that
   writes a register twice; code that reuses an argument slot without a call.
   For each of these there is a refutation below. *)
Theorem C29_lvn_partial : forall nregs cpool_load f f' rg fl ar w,
  prim_slots W prim -> prim_words W prim -> (forall z, word (cover_addr z)) ->
  numbered_code nregs f ->
  (forall r, word (rg r)) -> (forall n, word (ar n)) ->
  lvn_pass nregs cpool_load f = Ok f' -> left_alone f f' ->
  ~ goes_wrong f (start W rg fl ar w) ->
  let s0 := start W rg fl ar w in
  (forall ar1 w1, returns f s0 ar1 w1 -> exists ar2, (forall n, ar2 n = ar1 n) /\ returns f' s0 ar2 w1) /\
  (forall ar2 w1, returns f' s0 ar2 w1 -> exists ar1, (forall n, ar1 n = ar2 n) /\ returns f s0 ar1 w1) /\
  (diverges f s0 <-> diverges f' s0) /\ ~ goes_wrong f' s0.
Proof.
  intros nregs cpool_load f f' rg fl ar w PS PW CW NC WR WA P LA NW s0.
  assert (SIM : forall k, exists m, (k <= m)%nat /\ alike W (run m f s0) (run k f' s0)).
  { intros k. apply (simulation W cpool_base cover_addr prim nregs (next_power_of_2 (length f)) cpool_load f f' P PS PW CW);
      try apply NC; auto.
    - apply ready_start; assumption.
    - intros n X. apply NW. now exists n. }
  split; [|split; [|split; [split|]]].
  - intros ar1 w1 [n R]. destruct (SIM n) as (m & L & A). rewrite (run_done _ _ _ _ _ _ R L) in A.
    destruct (run n f' s0) as [|ar2 w2|] eqn:E; try now destruct A. destruct A as [A ->].
    exists ar2. split; [exact A|]. now exists n.
  - intros ar2 w1 [n R]. destruct (SIM n) as (m & L & A). rewrite R in A.
    destruct (run m f s0) as [|ar1 w2|] eqn:E; try now destruct A. destruct A as [A ->].
    exists ar1. split; [intros k; now rewrite A|]. now exists m.
  - intros D n. destruct (SIM n) as (m & L & A). destruct (D m) as [t T]. rewrite T in A.
    destruct (run n f' s0); try now destruct A. eauto.
  - intros D n. destruct (SIM n) as (m & L & A). destruct (D n) as [t T]. rewrite T in A.
    destruct (run m f s0) as [u| |] eqn:E; try now destruct A. exact (run_next _ _ _ _ _ E L).
  - intros [n R]. destruct (SIM n) as (m & L & A). rewrite R in A.
    destruct (run m f s0) eqn:E; try now destruct A. apply NW. now exists m.
Qed.
End Statement.
Print Assumptions C29_lvn_partial.

(* ---- setting a block of memory to a value known when compiling ---- *)

Lemma byte_bit z k j : 0 <= j < 8 -> Z.testbit (byte z k) j = Z.testbit z (8 * Z.of_nat k + j).
Proof.
  intros H. unfold byte. change 256 with (2 ^ 8). rewrite Z.mod_pow2_bits_low by lia.
  rewrite Z.shiftr_spec by lia. f_equal. lia.
Qed.
Lemma byte_high z k j : 8 <= j -> Z.testbit (byte z k) j = false.
Proof. intros H. unfold byte. change 256 with (2 ^ 8). now rewrite Z.mod_pow2_bits_high by lia. Qed.
Lemma byte_eq x y k : (forall j, 8 * Z.of_nat k <= j < 8 * Z.of_nat k + 8 -> Z.testbit x j = Z.testbit y j) ->
  byte x k = byte y k.
Proof.
  intros H. apply Z.bits_inj'. intros j J. destruct (Z.lt_ge_cases j 8).
  - rewrite !byte_bit by lia. apply H. lia.
  - now rewrite !byte_high by lia.
Qed.
Lemma byte_mod z n k : 8 * Z.of_nat k + 8 <= n -> byte (z mod 2 ^ n) k = byte z k.
Proof. intros H. apply byte_eq. intros j J. apply Z.mod_pow2_bits_low. lia. Qed.
Lemma byte_wrap z k : (k < 8)%nat -> byte (wrap z) k = byte z k.
Proof.
  intros H. rewrite <- (byte_mod (wrap z) 64), <- (byte_mod z 64) by lia. f_equal.
  unfold wrap, M64, M63. change (2 ^ 64) with 18446744073709551616.
  Z.to_euclidean_division_equations. lia.
Qed.
Lemma byte_div z k : byte z k = (z / 2 ^ (8 * Z.of_nat k)) mod 256.
Proof. unfold byte. now rewrite Z.shiftr_div_pow2 by lia. Qed.

Ltac pows := repeat match goal with
  | |- context [2 ^ ?e] => let v := eval vm_compute in (2 ^ e) in change (2 ^ e) with v
  | H : context [2 ^ ?e] |- _ => let v := eval vm_compute in (2 ^ e) in change (2 ^ e) with v in H
  end.

Lemma repeat_bytes v (size : nat) (e : Z) k :
  (size, e) = (1%nat, 0x0101010101010101) \/ (size, e) = (2%nat, 0x0001000100010001) \/
  (size, e) = (4%nat, 0x100000001) \/ (size, e) = (8%nat, 1) ->
  0 <= v < 2 ^ (8 * Z.of_nat size) -> (k < 8)%nat -> byte (v * e) k = byte v (k mod size).
Proof.
  intros S V K. rewrite !byte_div.
  destruct S as [S|[S|[S|S]]]; injection S as -> ->;
    do 8 (destruct k as [|k]; [pows; Z.to_euclidean_division_equations; lia|]); lia.
Qed.

Lemma compress_bytes x s size comp q :
  (s, size) = (SZ_8, 1%nat) \/ (s, size) = (SZ_16, 2%nat) \/ (s, size) = (SZ_32, 4%nat) \/ (s, size) = (SZ_64, 8%nat) ->
  compress s = Some comp -> (q < size)%nat -> byte (x * comp) q = byte (x * 0x0101010101010101) q.
Proof.
  intros SZ CM Q.
  assert (exists c, 0x0101010101010101 = comp + c * 2 ^ (8 * Z.of_nat size)) as [c E].
  { destruct SZ as [S|[S|[S|S]]]; injection S as -> ->; injection CM as <-;
      [exists 0x01010101010101|exists 0x010101010101|exists 0x01010101|exists 0]; reflexivity. }
  rewrite E. rewrite <- (byte_mod (x * comp) (8 * Z.of_nat size) q) by lia.
  rewrite <- (byte_mod (x * (comp + _)) (8 * Z.of_nat size) q) by lia. f_equal.
  replace (x * (comp + c * 2 ^ (8 * Z.of_nat size))) with (x * comp + x * c * 2 ^ (8 * Z.of_nat size)) by ring.
  symmetry. apply Z.mod_add. apply Z.pow_nonzero; lia.
Qed.

(* Setting [count] bytes, a power of two up to eight, to a value that is not
   negative becomes one store, and the bytes it stores are those of the value over
   and over. *)
Theorem C29_memset_partial : forall i st i' st' v count size,
  op i = MACRO_MEMSET -> is_const st (arg2 i) = Some v -> count_of i st = Some count ->
  (sz i, size) = (SZ_8, 1%nat) \/ (sz i, size) = (SZ_16, 2%nat) \/ (sz i, size) = (SZ_32, 4%nat) \/
    (sz i, size) = (SZ_64, 8%nat) ->
  0 <= v < 2 ^ (8 * Z.of_nat size) -> v < 2 ^ 63 ->
  count = 1 \/ count = 2 \/ count = 4 \/ count = 8 ->
  lvn_memset i st = Ok (i', st') ->
  op i' = J_STORE /\ 8 * count = bits (sz i') /\ arg2 i' = arg1 i /\
  exists x, arg1 i' = VInt x /\
    forall k, (Z.of_nat k < count) -> byte x k = byte v (k mod size).
Proof.
  intros i st i' st' v count size O C CO SZ V V63 CN H.
  assert (P2 : (0 <? count) && (count <=? 8) && is_power_of_2 count = true /\ count <> 0 /\ count <= 8 /\
               8 * count = bits (size_of count))
    by (destruct CN as [-> |[-> |[-> | ->]]]; repeat split; discriminate).
  destruct P2 as (P2 & NZ & C8 & CB). apply Z.eqb_neq in NZ.
  assert (SP : (0 < size)%nat) by (destruct SZ as [S|[S|[S|S]]]; injection S as _ ->; lia).
  unfold lvn_memset in H. rewrite C in H. destruct (Z.eqb_spec v 0) as [E|N0].
  { subst v. unfold lvn_bzero in H.
    assert (CO' : count_of (Ir MACRO_BZERO SZ_UNSPEC (target i) (cc i) (result i) (arg1 i) VInvalid) st = Some count)
      by exact CO.
    rewrite CO', NZ, P2 in H. injection H as <- <-. cbn [store_of op sz arg1 arg2]. split; [reflexivity|].
    split; [exact CB|]. split; [reflexivity|]. exists 0. split; [reflexivity|].
    intros k K. unfold byte. now rewrite !Z.shiftr_0_l. }
  assert (BV : U64 v = v).
  { unfold U64. apply Z.mod_small. change (2 ^ 64) with 18446744073709551616. change (2 ^ 63) with 9223372036854775808 in V63. lia. }
  destruct (compress (sz i)) as [comp|] eqn:CM; [|discriminate].
  set (x0 := Z.land (U64 v) 255) in H.
  assert (X0 : x0 = v mod 256) by (unfold x0; rewrite BV; change 255 with (Z.ones 8); rewrite Z.land_ones by lia; reflexivity).
  assert (FIN : forall (b e : Z), (forall k, (k < 8)%nat -> byte (b * e) k = byte v (k mod size)) ->
            forall k, Z.of_nat k < count ->
            byte (wrap (Z.land (U64 (b * e)) (2 ^ (8 * count) - 1))) k = byte v (k mod size)).
  { intros b e Q k K. rewrite byte_wrap by lia.
    rewrite Z.sub_1_r, <- Z.ones_equiv, Z.land_ones by lia. rewrite byte_mod by lia. unfold U64.
    rewrite byte_mod by lia. apply Q. lia. }
  destruct (Z.eqb_spec (U64 v) (U64 (x0 * comp))) as [EC|NC].
  - set (j := Ir (op i) SZ_8 (target i) (cc i) (result i) (arg1 i) (VInt x0)) in H.
    assert (CO' : count_of j st = Some count) by exact CO.
    rewrite CO', NZ, P2 in H. injection H as <- <-. cbn [store_of op sz arg1 arg2]. split; [reflexivity|].
    split; [exact CB|]. split; [reflexivity|]. eexists. split; [reflexivity|].
    apply FIN. intros k K. cbn [j sz expand].
    assert (X8 : 0 <= x0 < 256) by (rewrite X0; apply Z.mod_pos_bound; lia).
    rewrite (repeat_bytes x0 1 _ k); [|now left|cbn; lia|exact K].
    assert (EV : v = x0 * comp).
    { rewrite BV in EC. rewrite EC. unfold U64. apply Z.mod_small. change (2 ^ 64) with 18446744073709551616.
      destruct SZ as [S|[S|[S|S]]]; injection S as S _; rewrite S in CM; injection CM as <-; lia. }
    rewrite EV. symmetry.
    assert (KM : (k mod size < size)%nat) by (apply Nat.mod_upper_bound; lia).
    set (q := (k mod size)%nat) in *. clearbody q.
    rewrite (compress_bytes x0 (sz i) size comp q SZ CM KM).
    rewrite (repeat_bytes x0 1 _ q); [now rewrite !Nat.mod_1_r|now left|cbn; lia|].
    destruct SZ as [S|[S|[S|S]]]; injection S as _ S; lia.
  - rewrite CO, NZ, P2 in H. injection H as <- <-. cbn [store_of op sz arg1 arg2]. split; [reflexivity|].
    split; [exact CB|]. split; [reflexivity|]. eexists. split; [reflexivity|].
    apply FIN. intros k K. rewrite BV.
    destruct SZ as [S|[S|[S|S]]]; injection S as S ->; rewrite S; cbn [expand];
      apply repeat_bytes; auto.
Qed.
Print Assumptions C29_memset_partial.

(* For a negative value the bytes are wrong: setting four bytes to -1 stores
   0xfefefeff. *)
Theorem C29_memset_refuted : exists i st i' st' x,
  op i = MACRO_MEMSET /\ sz i = SZ_8 /\ is_const st (arg2 i) = Some (-1) /\ count_of i st = Some 4 /\
  lvn_memset i st = Ok (i', st') /\ op i' = J_STORE /\ arg1 i' = VInt x /\
  map (byte (-1)) [0; 0; 0; 0]%nat = [255; 255; 255; 255] /\
  map (byte x) [0; 1; 2; 3]%nat = [255; 254; 254; 254].
Proof.
  set (i := Ir MACRO_MEMSET SZ_8 false CC_NONE (Some 1%nat) (VAddrReg 2 0) (VInt (-1))).
  set (st := set_vn lvn_init 1 (Some 4%N)).
  exists i, st. eexists _, _, _. repeat split; vm_compute; reflexivity.
Qed.
Print Assumptions C29_memset_refuted.

(* ---- programs value numbering changes the meaning of ---- *)

(* Nothing outside is used, except that exponentiation works. *)
Definition no_prim (o : opcode) (_ : size) (_ : ccode) (a b : Z) (_ : Z) (_ : bool) (ar : nat -> Z) (w : unit)
  : option (Z * bool * (nat -> Z) * unit) :=
  match o with MACRO_EXP => Some (wrap (a ^ b), false, ar, w) | _ => None end.

Lemma no_prim_slots : prim_slots unit no_prim.
Proof. intros o s c a b rv fl ar ar' w H. unfold no_prim. destruct o; auto. Qed.
Lemma no_prim_words : prim_words unit no_prim.
Proof.
  intros o s c a b rv fl ar w v g br x H E. unfold no_prim in E. destruct o; try discriminate.
  injection E as <- <- <- <-. split; [apply word_wrap|exact H].
Qed.

Definition ins o r a b := Ir o SZ_UNSPEC false CC_NONE r a b.
Definition chk o c r a b := Ir o SZ_UNSPEC false c r a b.
Definition recv r n := ins J_RECV (Some r) (VInt n) VInvalid.
Definition send n v := ins J_SEND None (VInt n) v.
Definition ret := ins J_RET None VInvalid VInvalid.

(* For a given program, going through them one by one. *)
Ltac each I0 t := cbn in I0; repeat (destruct I0 as [<-|I0]; [t|]); destruct I0.
Ltac nths n N t := first [destruct n; discriminate N
  |destruct n as [|n]; [cbn in N; injection N as <-; t|cbn in N; nths n N t]].
Ltac numbered := constructor;
  [ intros i r I0 R; each I0 ltac:(cbn in R; lia)
  | intros i l I0 L; each I0 ltac:(cbn in L; destruct L as [L|L]; first [discriminate L|injection L as <-; eexists; split; reflexivity])
  | intros i I0; each I0 ltac:(split; reflexivity)
  | intros i r I0 R; each I0 ltac:(cbn in R |- *; first [discriminate R|auto; fail])
  | intros i I0 R; each I0 ltac:(cbn in R |- *; congruence)
  | intros n i r N P R; nths n N ltac:(cbn in P, R; first [discriminate|injection R as <-; split;
      [cbn; lia|let m := fresh "m" in let j := fresh "j" in let L := fresh "L" in let M := fresh "M" in
         intros m j L M; nths m M ltac:(cbn; lia)]])
  | intros i I0 O; each I0 ltac:(cbn in O; destruct O; first [discriminate|eexists; split; [reflexivity|lia]])
  | intros m n i j z L M N O1 A1 O2 A2; nths m M ltac:(first [discriminate O1|
      nths n N ltac:(destruct O2; first [discriminate|lia|cbn in A1, A2; congruence])])
  | intros i I0 O; each I0 ltac:(first [discriminate O|cbn; auto; fail])
  | intros i I0; each I0 ltac:(cbn; unfold word; split; auto; lia) ].

(* Given [ar], the function leaves [z] in the first argument slot. *)
Definition answers (f : prog) (ar : nat -> Z) (z : Z) : Prop :=
  exists ar', returns unit 0 (fun _ => 0) no_prim f (start unit (fun _ => 0) false ar tt) ar' tt /\ ar' 0%nat = z.

(* After a register is written again, the remembered expressions that read it are
   still taken for what they were. *)
Theorem C29_rewritten_refuted : exists f f' ar,
  lvn_pass 7 (fun _ _ => 0) f = Ok f' /\ left_alone f f' /\ answers f ar 3 /\ answers f' ar 16.
Proof.
  set (f := [recv 1 0; recv 2 1; recv 3 2; ins J_ASR (Some 4%nat) (VReg 1) (VReg 2);
             ins J_MOV (Some 1%nat) (VReg 3) VInvalid; ins J_ASR (Some 5%nat) (VReg 3) (VReg 2); send 0 (VReg 5); ret]).
  exists f. eexists. exists (fun n => match n with 0%nat => 64 | 1%nat => 2 | _ => 12 end).
  split; [vm_compute; reflexivity|]. split.
  { intros n i i' N N'. do 8 (destruct n as [|n]; [injection N as <-; injection N' as <-; cbn; split; intros; congruence|]).
    destruct n; discriminate. }
  split; eexists; (split; [exists 8%nat; vm_compute; reflexivity|vm_compute; reflexivity]).
Qed.
Print Assumptions C29_rewritten_refuted.

(* A checked addition that is worked out when compiling leaves the flag of the
   comparison before it. *)
Theorem C29_checked_refuted : exists f f',
  lvn_pass 3 (fun _ _ => 0) f = Ok f' /\ numbered_code 3 f /\
  answers f (fun _ => 0) 0 /\ answers f' (fun _ => 0) 1.
Proof.
  set (f := [chk J_CMP CC_EQ None (VInt 1) (VInt 1); Ir J_ADD SZ_32 false CC_O (Some 1%nat) (VInt 1) (VInt 2);
             ins J_CSET (Some 2%nat) VInvalid VInvalid; send 0 (VReg 2); ret]).
  exists f. eexists. split; [vm_compute; reflexivity|]. split.
  - numbered.
  - split; eexists; (split; [exists 5%nat; vm_compute; reflexivity|vm_compute; reflexivity]).
Qed.
Print Assumptions C29_checked_refuted.

(* When a register is known to hold two, two to a power becomes a shift of
   register one. *)
Theorem C29_exp_refuted : exists f f' ar,
  lvn_pass 6 (fun _ _ => 0) f = Ok f' /\ answers f ar 8 /\ answers f' ar 24.
Proof.
  set (f := [recv 1 1; ins J_MOV (Some 3%nat) (VInt 2) VInvalid; ins MACRO_EXP (Some 4%nat) (VReg 3) (VReg 1);
             send 0 (VReg 4); ret]).
  exists f. eexists. exists (fun n => match n with 1%nat => 3 | _ => 0 end).
  split; [vm_compute; reflexivity|].
  split; eexists; (split; [exists 5%nat; vm_compute; reflexivity|vm_compute; reflexivity]).
Qed.
Print Assumptions C29_exp_refuted.

(* A slot that was overwritten is still taken to hold what was received from it. *)
Theorem C29_slot_refuted : exists f f' ar,
  lvn_pass 2 (fun _ _ => 0) f = Ok f' /\ left_alone f f' /\ answers f ar 5 /\ answers f' ar 7.
Proof.
  set (f := [recv 1 0; send 0 (VInt 7); send 0 (VReg 1); ret]).
  exists f. eexists. exists (fun _ => 5). split; [vm_compute; reflexivity|]. split.
  { intros n i i' N N'. do 4 (destruct n as [|n]; [injection N as <-; injection N' as <-; cbn; split; intros; congruence|]).
    destruct n; discriminate. }
  split; eexists; (split; [exists 4%nat; vm_compute; reflexivity|vm_compute; reflexivity]).
Qed.
Print Assumptions C29_slot_refuted.

(* ---- the theorem applies ---- *)

(* Two arguments are added twice, the second time the other way round and checked
   against a constant that is worked out when compiling; the jump goes to a jump. *)
Definition demo : prog :=
  [recv 0 0; recv 1 1;
   ins J_ADD (Some 2%nat) (VReg 0) (VReg 1);
   ins J_ADD (Some 3%nat) (VReg 1) (VReg 0);
   ins J_MUL (Some 4%nat) (VInt 6) (VInt 7);
   ins J_SUB (Some 5%nat) (VReg 3) (VReg 4);
   chk J_CMP CC_GT None (VReg 4) (VInt 40);
   chk J_JUMP CC_T None (VLabel 10) VInvalid;
   send 1 (VReg 2);
   ret;
   Ir J_JUMP SZ_UNSPEC true CC_NONE None (VLabel 11) VInvalid;
   Ir J_SEND SZ_UNSPEC true CC_NONE None (VInt 0) (VReg 5);
   ret].

Example demo_code : numbered_code 6 demo.
Proof. numbered. Qed.
Example demo_result : exists f', lvn_pass 6 (fun _ _ => 0) demo = Ok f' /\ left_alone demo f' /\
  nth_error f' 3 = Some (ins J_MOV (Some 3%nat) (VReg 2) VInvalid) /\
  nth_error f' 4 = Some (ins J_MOV (Some 4%nat) (VInt 42) VInvalid) /\
  nth_error f' 7 = Some (chk J_JUMP CC_NONE None (VLabel 11) VInvalid).
Proof.
  eexists. split; [vm_compute; reflexivity|]. split.
  { intros n i i' N N'. do 13 (destruct n as [|n]; [injection N as <-; injection N' as <-; cbn; split; intros; congruence|]).
    destruct n; discriminate. }
  repeat split; vm_compute; reflexivity.
Qed.
Example demo_answers : answers demo (fun n => match n with 0%nat => 30 | _ => 20 end) 8.
Proof. eexists. split; [exists 11%nat; vm_compute; reflexivity|vm_compute; reflexivity]. Qed.
