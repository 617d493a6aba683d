(* C34: Verilog UDP tables. *)
From Coq Require Import List NArith Bool Lia.
From Verif Require Import Base NumberModel NumberSpec UdpModel UdpSpec UdpProofs.
Import ListNotations.
Open Scope N_scope.

(* The full claim: code is made for every table, and it drives the output of the first
   entry that matches, or x when there is none, without delay. *)
Definition C34_full : Prop := forall k n es, Forall (fun e => length (inputs e) = n) es ->
  exists c, vlog_lower_udp k n (map (entry_text k) es) = Ok c /\
    forall e x, seen e x ->
      activate c e = Ok (match chosen k es x (Some X) with Some l => Driven (NumberSpec.code l) 0 | None => Quiet end).

(* Proved: for tables of handled entries (see [handled]: no b, and in each entry something
   is tested) and inputs that are not z, the first entry that matches decides, and when
   there is none a combinational UDP drives x and a sequential one does nothing.  The
   output comes with a delay of 1 fs. *)
Theorem C34_first_match_partial : forall k n es, Forall (handled k n) es ->
  exists c, vlog_lower_udp k n (map (entry_text k) es) = Ok c /\
    forall e x, seen e x -> no_z x ->
      activate c e = Ok (match chosen k es x (match k with Comb => Some X | Seq => None end) with
                         | Some l => Driven (NumberSpec.code l) 1 | None => Quiet end).
Proof.
  intros k n es F.
  set (x0 := Situation (fun _ => X) (fun _ => X) X).
  set (e0 := Env (fun _ => 0) (fun _ => 0) (fun _ => false) 0).
  assert (S0 : seen e0 x0) by (repeat split; intros; reflexivity).
  assert (N0 : no_z x0) by (repeat split; discriminate).
  destruct (udp_ok e0 x0 S0 N0 k n es F) as (c & E & _). exists c. split; [exact E|].
  intros e x S N. destruct (udp_ok e x S N k n es F) as (c' & E' & R).
  rewrite E in E'. injection E' as <-. exact R.
Qed.
Print Assumptions C34_first_match_partial.

(* b stands for 0 and 1 but never matches. *)
Definition b_row := Entry [Level Binary] Any (Out V1).
Definition at_0 := Situation (fun _ => L0) (fun _ => L0) X.
Definition at_0_env := Env (fun _ => 2) (fun _ => 2) (fun _ => false) 0.

Theorem C34_binary_refuted : exists c, vlog_lower_udp Comb 1 [entry_text Comb b_row] = Ok c /\
  seen at_0_env at_0 /\ entry_matches Comb b_row at_0 = true /\
  activate c at_0_env = Ok (Driven (NumberSpec.code X) 1).
Proof.
  eexists. split; [reflexivity|]. split; [repeat split; intros; try reflexivity; discriminate|].
  split; reflexivity.
Qed.
Print Assumptions C34_binary_refuted.

(* An entry that always matches leaves a block without end: running it is a fault. *)
Theorem C34_always_refuted : exists c,
  vlog_lower_udp Comb 1 [entry_text Comb (Entry [Level Any] Any (Out V1))] = Ok c /\
  activate c at_0_env = Fault.
Proof. eexists. split; reflexivity. Qed.
Print Assumptions C34_always_refuted.

(* z inputs do not match x. *)
Theorem C34_z_refuted : exists c e x, seen e x /\
  vlog_lower_udp Comb 1 [entry_text Comb (Entry [Level (LX false)] Any (Out V1))] = Ok c /\
  chosen Comb [Entry [Level (LX false)] Any (Out V1)] x (Some X) = Some L1 /\
  activate c e = Ok (Driven (NumberSpec.code X) 1).
Proof.
  eexists _, (Env (fun _ => 1) (fun _ => 1) (fun _ => false) 0), (Situation (fun _ => Z) (fun _ => Z) X).
  split; [repeat split; intros; try reflexivity; discriminate|]. split; [reflexivity|]. split; reflexivity.
Qed.
Print Assumptions C34_z_refuted.

(* A b in an edge reads memory that was not set, and the other edge symbols end the
   program. *)
Theorem C34_edges_refuted :
  vlog_lower_udp Seq 1 [entry_text Seq (Entry [Edge Binary V1] Any (Out V1))] = Fault /\
  (forall ch, In ch [114; 82; 102; 70; 112; 80; 110; 78; 66] -> vlog_lower_udp Seq 1 [[ch; 58; 63; 58; 49]] = Fault).
Proof.
  split; [reflexivity|]. intros ch I. cbn [In] in I. repeat destruct I as [<-|I]; try contradiction; reflexivity.
Qed.
Print Assumptions C34_edges_refuted.

(* The output of a sequential UDP is kept, not x, when no entry matches; and every output
   is delayed. *)
Theorem C34_unmatched_refuted : exists c es x e, Forall (handled Seq 1) es /\ seen e x /\
  vlog_lower_udp Seq 1 (map (entry_text Seq) es) = Ok c /\ chosen Seq es x (Some X) = Some X /\ activate c e = Ok Quiet.
Proof.
  eexists _, [Entry [Level V1] Any (Out V1)], at_0, at_0_env.
  split.
  - constructor; [|constructor]. split; [reflexivity|]. split; [repeat constructor; discriminate|].
    split; [discriminate|]. split; [split; discriminate|]. left. constructor. discriminate.
  - split; [repeat split; intros; try reflexivity; discriminate|]. split; [reflexivity|]. split; reflexivity.
Qed.
Print Assumptions C34_unmatched_refuted.

Theorem C34_refuted : ~ C34_full.
Proof.
  intros F. destruct (F Comb 1%nat [b_row]) as (c & E & R); [repeat constructor|].
  destruct C34_binary_refuted as (c' & E' & S & _ & A). cbn [map] in E. rewrite E in E'. injection E' as <-.
  specialize (R _ _ S). rewrite A in R. discriminate.
Qed.
Print Assumptions C34_refuted.

(* The D flip-flop of the test suite: a rising edge stores the input. *)
Definition dff : list entry :=
  [Entry [Level Any; Change] Any Same;
   Entry [Edge Any V0; Level Any] Any Same;
   Entry [Edge V1 (LX false); Level Any] Any Same;
   Entry [Edge (LX false) V1; Level V0] V0 (Out V0);
   Entry [Edge (LX false) V1; Level V1] V1 (Out V1);
   Entry [Edge V0 V1; Level V0] Any (Out V0);
   Entry [Edge V0 V1; Level V1] Any (Out V1)].
Definition rising := Situation (fun j => match j with O => L0 | _ => L1 end) (fun _ => L1) L0.

Example C34_example : Forall (handled Seq 2) dff /\ no_z rising /\ chosen Seq dff rising None = Some L1 /\
  exists c, vlog_lower_udp Seq 2 (map (entry_text Seq) dff) = Ok c /\
    activate c (Env (fun _ => 3) (fun j => match j with O => 2 | _ => 0 end)
                    (fun j => match j with O => true | _ => false end) 2) = Ok (Driven 3 1).
Proof.
  split.
  { unfold dff. repeat (constructor; [split; [reflexivity|]; split; [repeat (constructor; [cbn; repeat split; discriminate|]); constructor|];
      split; [discriminate|]; split; [cbn; (reflexivity || (split; discriminate))|];
      left; first [now (constructor; discriminate)|apply Exists_cons_tl; constructor; discriminate]|]). constructor. }
  split. { split; [|discriminate]. intros j. split; [discriminate|]. cbn. destruct j; discriminate. }
  split; [reflexivity|]. eexists. split; [vm_compute; reflexivity|]. vm_compute. reflexivity.
Qed.
