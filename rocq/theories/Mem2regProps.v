(* C28: the promotion of memory to registers preserves what a function does. *)
From Coq Require Import List ZArith Arith Bool Lia.
From Verif Require Import Base JitModel JitPassModel JitSpec JitNopProofs Mem2regModel Mem2regSpec Mem2regProofs.
Import ListNotations.
Local Open Scope Z_scope.

Section Statement.
Variable W : Type.
Variable cpool_base : Z.
Variable cover_addr : Z -> Z.
Variable prim : opcode -> size -> ccode -> Z -> Z -> Z -> bool -> (nat -> Z) -> W ->
                option (Z * bool * (nat -> Z) * W).
Notation returns := (returns W cpool_base cover_addr prim).
Notation goes_wrong := (goes_wrong W cpool_base cover_addr prim).
Notation diverges := (diverges W cpool_base cover_addr prim).

(* Missing: a run that loads before it stores, stores a value that does not fit, or
   stores the address itself (refuted below); and the new places given to the
   allocations that stay, for which only the layout is proved. *)
Theorem C28_promotion_partial : forall A slot same f f' k alloc n s reg s0,
  nth_error f k = Some alloc -> op alloc = MACRO_SALLOC -> arg2 alloc = VInt n -> slot_size n = Some s ->
  result alloc = Some reg ->
  try_promote f k = Ok (Some f') ->
  wrap A = A ->
  kept f reg ->
  place_ok W prim A slot same s ->
  private W cpool_base cover_addr prim A slot same f k reg s s0 ->
  ~ goes_wrong f s0 ->
  (forall ar w, returns f s0 ar w -> exists w', same w w' /\ returns f' s0 ar w') /\
  (forall ar w', returns f' s0 ar w' -> exists w, same w w' /\ returns f s0 ar w) /\
  (diverges f s0 <-> diverges f' s0) /\ ~ goes_wrong f' s0.
Proof.
  intros A slot same f f' k alloc n s reg s0 AT O A2 SS RES TP WA KEPT PL PR NW.
  assert (X : any_blocks reg s k 0 f = false /\ f' = set_nth (map (promoted reg) f) k (nop_of alloc)).
  { unfold try_promote in TP. rewrite AT, A2, SS, RES in TP. destruct (any_blocks reg s k 0 f); [discriminate|].
    injection TP as <-. now split. }
  destruct X as [NB F'].
  pose proof (promotion W cpool_base cover_addr prim A slot same f f' k reg s s0 alloc AT O RES NB F' KEPT PL PR WA) as SIM.
  split; [|split; [|split; [split|]]].
  - intros ar w [m R]. specialize (SIM m). rewrite R in SIM.
    destruct (run W cpool_base cover_addr prim m f' s0) as [|ar' w'|] eqn:R'; try now destruct SIM.
    destruct SIM as [-> SW]. exists w'. split; [exact SW|]. now exists m.
  - intros ar w' [m R]. specialize (SIM m). rewrite R in SIM.
    destruct (run W cpool_base cover_addr prim m f s0) as [|ar1 w1|] eqn:R'; try now destruct SIM.
    + destruct SIM as [-> SW]. exists w1. split; [exact SW|]. now exists m.
    + exfalso. apply NW. now exists m.
  - intros D m. destruct (D m) as [t T]. specialize (SIM m). rewrite T in SIM.
    destruct (run W cpool_base cover_addr prim m f' s0) as [t'| |]; try now destruct SIM. eauto.
  - intros D m. destruct (D m) as [t T]. specialize (SIM m). rewrite T in SIM.
    destruct (run W cpool_base cover_addr prim m f s0) as [t'| |] eqn:R; try now destruct SIM.
    + eauto.
    + exfalso. apply NW. now exists m.
  - intros [m R]. specialize (SIM m). rewrite R in SIM.
    destruct (run W cpool_base cover_addr prim m f s0) as [t'| |] eqn:R'; try now destruct SIM.
    apply NW. now exists m.
Qed.
End Statement.
Print Assumptions C28_promotion_partial.

(* The allocations that stay are again within the frame, aligned and apart, the frame
   does not grow, and no assertion of the pass fails. *)
Theorem C28_frame : forall f framesz,
  0 <= framesz -> framesz mod 8 = 0 -> laid_out f framesz -> allocs_first f ->
  (forall i, In i f -> op i = MACRO_SALLOC -> result i <> None) ->
  exists f' framesz', mem2reg f framesz = Ok (f', framesz') /\
    laid_out f' framesz' /\ framesz' mod 8 = 0 /\ framesz' <= framesz.
Proof. intros f framesz P F8 L AF AN. exact (mem2reg_layout f framesz P F8 L AN AF). Qed.
Print Assumptions C28_frame.

(* ---- examples: memory as cells, one for each address ---- *)

Definition cells := Z -> Z.
(* The stack frame is at address 1000. *)
Definition cell_prim : opcode -> size -> ccode -> Z -> Z -> Z -> bool -> (nat -> Z) -> cells ->
                       option (Z * bool * (nat -> Z) * cells) :=
  fun o s c a b rv fl ar w =>
    match o with
    | MACRO_SALLOC => Some (1000 + a, fl, ar, w)
    | J_LOAD => Some (w a, fl, ar, w)
    | J_STORE => Some (0, fl, ar, fun p => if p =? b then strunc s a else w p)
    | _ => None
    end.
Notation cell_returns := (returns cells 0 (fun z => z) cell_prim).

Definition salloc (r : nat) (off n : Z) : ir := Ir MACRO_SALLOC SZ_UNSPEC false CC_NONE (Some r) (VInt off) (VInt n).
Definition store (s : size) (v : value) (addr : nat) : ir := Ir J_STORE s false CC_NONE None v (VAddrReg addr 0).
Definition load (s : size) (r addr : nat) : ir := Ir J_LOAD s false CC_NONE (Some r) (VAddrReg addr 0) VInvalid.
Definition send (n : Z) (v : value) : ir := Ir J_SEND SZ_UNSPEC false CC_NONE None (VInt n) v.
Definition ret : ir := Ir J_RET SZ_UNSPEC false CC_NONE None VInvalid VInvalid.
Definition zeros {T} : T -> Z := fun _ => 0.
Definition begin : state cells := start cells zeros false zeros zeros.

(* The answers in the first argument slot. *)
Definition answer (fuel : nat) (f : prog) (s : state cells) : option Z :=
  match run cells 0 (fun z => z) cell_prim fuel f s with Done _ ar _ => Some (ar 0%nat) | _ => None end.

(* A byte stored and loaded, with another access to memory in between. *)
Definition demo : prog :=
  [salloc 0 0 8; salloc 1 8 1; salloc 2 16 32; store SZ_8 (VInt 7) 1; store SZ_64 (VInt 9) 2; load SZ_8 3 1;
   load SZ_64 4 2; Ir J_ADD SZ_UNSPEC false CC_NONE (Some 5%nat) (VReg 3) (VReg 4); send 0 (VReg 5);
   Ir J_LEA SZ_UNSPEC false CC_NONE (Some 6%nat) (VReg 2) VInvalid; ret].
Definition demo_after : prog :=
  [nop_of (salloc 0 0 8); nop_of (salloc 1 8 1); salloc 2 0 32;
   Ir J_MOV SZ_UNSPEC false CC_NONE (Some 1%nat) (VInt 7) VInvalid; store SZ_64 (VInt 9) 2;
   Ir J_MOV SZ_UNSPEC false CC_NONE (Some 3%nat) (VReg 1) VInvalid;
   load SZ_64 4 2; Ir J_ADD SZ_UNSPEC false CC_NONE (Some 5%nat) (VReg 3) (VReg 4); send 0 (VReg 5);
   Ir J_LEA SZ_UNSPEC false CC_NONE (Some 6%nat) (VReg 2) VInvalid; ret].
Example demo_promoted : mem2reg demo 48 = Ok (demo_after, 32).
Proof. reflexivity. Qed.
Example demo_answers : answer 20 demo begin = Some 16 /\ answer 20 demo_after begin = Some 16.
Proof. split; reflexivity. Qed.

(* The hypotheses of the layout hold of it. *)
Example demo_frame : laid_out demo 48 /\ allocs_first demo /\
  (forall i, In i demo -> op i = MACRO_SALLOC -> result i <> None).
Proof.
  split; [split|split].
  - intros n i N O. do 3 (destruct n as [|n]; [injection N as <-; eexists; eexists; split; [split; [reflexivity|split; reflexivity]|]; repeat split; first [reflexivity|lia]|]).
    do 8 (destruct n as [|n]; [injection N as <-; discriminate O|]). now destruct n.

  - intros n m i j oi si oj sj L N M (O1 & A1 & B1) (O2 & A2 & B2).
    do 3 (destruct n as [|n]; [injection N as <-; injection A1 as <-; injection B1 as <-;
      do 3 (destruct m as [|m]; [injection M as <-; injection A2 as <-; injection B2 as <-; lia|]);
      exfalso; do 8 (destruct m as [|m]; [injection M as <-; discriminate|]); now destruct m|]).
    exfalso. do 8 (destruct n as [|n]; [injection N as <-; discriminate|]). now destruct n.
  - intros n m i L T M. do 10 (destruct n as [|n]; [discriminate|]). destruct n as [|n].
    + do 11 (destruct m as [|m]; [lia|]). now destruct m.
    + do 12 (destruct m as [|m]; [lia|]). now destruct m.
  - intros i I O. cbn in I. repeat (destruct I as [<-|I]; [discriminate|]). destruct I.
Qed.

(* A private place: the byte at 1008, when nothing else is at that address. *)
Definition slot8 (w : cells) : Z := w 1008.
Definition but8 (w w' : cells) : Prop := forall p, p <> 1008 -> w' p = w p.
Example demo_place : place_ok cells cell_prim 1008 slot8 but8 SZ_8.
Proof.
  split.
  - intros w p _. reflexivity.
  - intros c v ar w w' H. exists 0, false, ar, (fun p => if p =? 1008 then strunc SZ_8 v else w p). split; [reflexivity|]. split.
    + intros p P. destruct (Z.eqb_spec p 1008); [contradiction|]. now apply H.
    + reflexivity.
  - intros c ar w. now exists false, ar, w.
Qed.
(* An instruction that does not access 1008 is blind to it. *)
Lemma cells_blind f t i : nth_error f (pc cells t) = Some i ->
  (op i = J_LOAD -> fetch 0 (fun z => z) MPtr (regs cells t) (arg1 i) <> Some 1008) ->
  (op i = J_STORE -> fetch 0 (fun z => z) MPtr (regs cells t) (arg2 i) <> Some 1008) ->
  blind cells 0 (fun z => z) cell_prim slot8 but8 f t.
Proof.
  intros N NL NS w' H. unfold step. cbn [pc regs flag args outside]. rewrite N.
  destruct (fetch 0 (fun z => z) (mode1 (op i)) (regs cells t) (arg1 i)) as [a|] eqn:FA; [|exact I].
  destruct (fetch 0 (fun z => z) (mode2 (op i)) (regs cells t) (arg2 i)) as [b|] eqn:FB; [|exact I].
  destruct (if reads_result i then option_map (regs cells t) (result i) else Some 0) as [rv|]; [|exact I].
  assert (X : match exec cells cell_prim (op i) (sz i) (cc i) a b rv (flag cells t) (args cells t) (outside cells t) with
              | None => True
              | Some e => slot8 (e_w cells e) = slot8 (outside cells t) /\
                  exists x, exec cells cell_prim (op i) (sz i) (cc i) a b rv (flag cells t) (args cells t) w' =
                    Some (Effect cells (e_res cells e) (e_flag cells e) (e_args cells e) x (e_jump cells e) (e_done cells e)) /\
                    but8 (e_w cells e) x end).
  { destruct (op i) eqn:O; cbn [exec cell_prim]; try exact I;
      try (split; [reflexivity|]; eexists; split; [reflexivity|]; exact H).
    - (* add *) destruct (checked Z.add (sz i) (cc i) a b) as [[v [fl'|]]|]; try exact I;
        (split; [reflexivity|]; eexists; split; [reflexivity|]; exact H).
    - (* store *) split.
      + unfold slot8. cbn [e_w]. destruct (Z.eqb_spec 1008 b) as [E|_]; [|reflexivity].
        exfalso. apply (NS eq_refl). rewrite E. exact FB.
      + eexists. split; [reflexivity|]. intros p P. cbn [e_w]. destruct (p =? b); [reflexivity|now apply H].
    - destruct (cc i); try exact I; (split; [reflexivity|]; eexists; split; [reflexivity|]; exact H).
    - destruct (checked Z.sub (sz i) (cc i) a b) as [[v [fl'|]]|]; try exact I;
        (split; [reflexivity|]; eexists; split; [reflexivity|]; exact H).
    - destruct (checked Z.mul (sz i) (cc i) a b) as [[v [fl'|]]|]; try exact I;
        (split; [reflexivity|]; eexists; split; [reflexivity|]; exact H).
    - (* load *) split; [reflexivity|]. exists w'. split; [|exact H]. cbn [e_res e_flag e_args e_jump e_done].
      rewrite (H a); [reflexivity|]. intros ->. apply (NL eq_refl). exact FA.
    - destruct ((b =? 0) || ((a =? - M63) && (b =? -1))); [exact I|].
      split; [reflexivity|]; eexists; split; [reflexivity|]; exact H.
    - destruct ((b =? 0) || ((a =? - M63) && (b =? -1))); [exact I|].
      split; [reflexivity|]; eexists; split; [reflexivity|]; exact H.
    - destruct ((0 <=? b) && (b <? 64)); [|exact I]. split; [reflexivity|]; eexists; split; [reflexivity|]; exact H.
    - destruct ((0 <=? b) && (b <? 64)); [|exact I]. split; [reflexivity|]; eexists; split; [reflexivity|]; exact H. }
  destruct (exec cells cell_prim (op i) (sz i) (cc i) a b rv (flag cells t) (args cells t) (outside cells t)) as [e|]; [|exact I].
  destruct X as (SL & x & -> & SX). unfold apply. cbn [e_done e_res e_jump e_flag e_args e_w pc regs].
  destruct (e_done cells e); [eexists; split; [reflexivity|exact SX]|].
  destruct (e_res cells e) as [v|]; [destruct (result i) as [r|]; [|exact I]|];
    (split; [exact SL|]; exists x; split; [reflexivity|exact SX]).
Qed.

(* Where a run of the example is, and what it keeps in the two address registers. *)
Lemma demo_at : forall n t, run cells 0 (fun z => z) cell_prim n demo begin = Next cells t ->
  pc cells t = n /\ ((2 <= n)%nat -> regs cells t 1 = 1008) /\ ((3 <= n)%nat -> regs cells t 2 = 1016).
Proof.
  induction n as [|n IH]; intros t R.
  { cbn in R. injection R as <-. repeat split; lia. }
  replace (S n) with (n + 1)%nat in R by lia. rewrite (run_add cells 0 (fun z => z) cell_prim) in R.
  destruct (run cells 0 (fun z => z) cell_prim n demo begin) as [u| |]; try discriminate.
  destruct (IH u eq_refl) as (P & R1 & R2). clear IH. cbn [run] in R.
  destruct (step cells 0 (fun z => z) cell_prim demo u) as [v| |] eqn:E; try discriminate. injection R as <-.
  unfold step in E. rewrite P in E.
  do 11 (destruct n as [|n]; [cbn in E; try discriminate E; injection E as <-; cbn; rewrite P;
    (split; [reflexivity|split; intros L; try lia; unfold upd; cbn; first [reflexivity|apply R1; lia|apply R2; lia]])|]).
  cbn in E. now destruct n.
Qed.

Lemma fetch_1008 rg r : rg r = 1016 -> fetch 0 (fun z => z) MPtr rg (VAddrReg r 0) <> Some 1008.
Proof. intros R. cbn. rewrite R. vm_compute. discriminate. Qed.

Example demo_private : private cells 0 (fun z => z) cell_prim 1008 slot8 but8 demo 1 1 SZ_8 begin.
Proof.
  intros n t i R N. destruct (demo_at n t R) as (P & R1 & R2).
  assert (E1 : (2 <= n)%nat -> earlier cells 0 (fun z => z) cell_prim demo begin n (fun p _ => p = 1%nat)).
  { intros L. exists 1%nat. eexists. eexists. split; [lia|]. split; [reflexivity|]. split; reflexivity. }
  assert (E3 : (4 <= n)%nat -> earlier cells 0 (fun z => z) cell_prim demo begin n (fun _ j => stores_through 1 j)).
  { intros L. exists 3%nat. eexists. eexists. split; [lia|]. split; [reflexivity|]. split; [reflexivity|].
    split; [reflexivity|now left]. }
  clear R. rewrite P in N. split; [|split; [|split; [|split]]].
  - intros X. apply E1. destruct n as [|[|n]]; [| |lia]; injection N as <-; destruct X as [[X _]|[X _]]; discriminate.
  - intros [X Y]. apply E3. do 4 (destruct n as [|n]; [injection N as <-; discriminate|]). lia.
  - intros [X Y] v V. do 11 (destruct n as [|n]; [injection N as <-; first [discriminate X |
      injection V as <-; unfold fits; cbn; lia | cbn in Y; destruct Y as [Y|[]]; discriminate Y]|]). now destruct n.
  - intros K. rewrite P in K. rewrite K in *. injection N as <-. eexists. split.
    + unfold step. rewrite P. reflexivity.
    + reflexivity.
  - intros K NL NS. apply (cells_blind demo t i); [now rewrite P| |]; intros O.
    + do 11 (destruct n as [|n]; [injection N as <-; first [discriminate O |
        exfalso; apply NL; split; [reflexivity|left; reflexivity] | apply fetch_1008; apply R2; lia]|]). now destruct n.
    + do 11 (destruct n as [|n]; [injection N as <-; first [discriminate O |
        exfalso; apply NS; split; [reflexivity|left; reflexivity] | apply fetch_1008; apply R2; lia]|]). now destruct n.
Qed.

(* ---- what the pass does not preserve ---- *)

(* Storing a value that does not fit: the load that is gone would have cut it to
   eight bits. *)
Definition wide : prog := [salloc 0 0 1; store SZ_8 (VInt 300) 0; load SZ_8 1 0; send 0 (VReg 1); ret].
Theorem C28_wide_refuted : exists f' fs, mem2reg wide 8 = Ok (f', fs) /\
  answer 9 wide begin = Some 44 /\ answer 9 f' begin = Some 300.
Proof. eexists. eexists. split; [reflexivity|]. now split. Qed.

(* A load before any store gives what was in memory, afterwards what was in the
   register. *)
Definition early : prog := [salloc 0 0 8; load SZ_64 1 0; send 0 (VReg 1); store SZ_64 (VInt 1) 0; ret].
Theorem C28_early_refuted : exists f' fs rg w, mem2reg early 8 = Ok (f', fs) /\
  answer 9 early (start cells rg false zeros w) = Some 0 /\ answer 9 f' (start cells rg false zeros w) = Some 5.
Proof. eexists. eexists. exists (fun _ => 5), zeros. split; [reflexivity|]. now split. Qed.

(* The address of an allocation that is stored to memory does not stop the
   promotion: what is then written and read through the stored address is lost. *)
Definition escaped : prog :=
  [salloc 0 0 8; salloc 1 8 16; store SZ_64 (VReg 0) 1; store SZ_64 (VInt 5) 0;
   load SZ_64 2 1; load SZ_64 3 2; send 0 (VReg 3); ret].
Theorem C28_escape_refuted : exists f' fs, mem2reg escaped 24 = Ok (f', fs) /\
  answer 9 escaped begin = Some 5 /\ answer 9 f' begin = Some 0.
Proof. eexists. eexists. split; [reflexivity|]. now split. Qed.
Print Assumptions C28_escape_refuted.
