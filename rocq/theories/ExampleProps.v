(** Further examples for theorems on the routing table (C46, C47: TableProps.v,
    LookupProps.v), the peer search (C81: FetchProps.v) and the router (C116:
    SpareProps.v): cases that meet their hypotheses. *)
From Coq Require Import List NArith ZArith Lia Bool Arith.
From Coq Require Import Init.Byte.
From Verif Require Import Base Assoc BitSpec IdModel WireModel TableModel TableSpec TableProofs TableProofs2 TableProps LookupProps
  PeersModel PeersSpec KrpcModel DhtModel DhtMgrModel FetchModel FetchSpec FetchProps SpareModel.
Import ListNotations.
Set Implicit Arguments.

(** Three nodes heard from, one of them in our own half, a fourth one is admitted. *)
Definition ex_three : list touch_ev := [TableProps.ev 0 128 1; TableProps.ev 0 129 2; TableProps.ev 0 1 3].
Example C46_example : exists t t', reachable t /\ wf_id (sid 64 4) /\ ~ TableSpec.known t (sid 64 4) /\ count (fresh 5) (t_nodes t) = 3 /\
  touch_node 5 (sid 64 4) (sad 4) t = Val t' /\ map n_id (t_nodes t') = [sid 128 1; sid 129 2; sid 1 3; sid 64 4].
Proof.
  eexists. eexists. assert (R : run (t_default (sid 0 0)) ex_three = Val _) by (vm_compute; reflexivity).
  split; [eapply reach_run; [| |exact R]; [reflexivity|wfh]|]. split; [reflexivity|]. split; [vm_compute; intuition discriminate|].
  split; [vm_compute; reflexivity|]. split; vm_compute; reflexivity.
Qed.
(** A lookup of a node not known names the three, the two of its half first; a
    lookup of a known one names it alone. *)
Example C47_example : exists t, reachable t /\ wf_id (sid 130 0) /\ ~ TableSpec.known t (sid 130 0) /\ TableSpec.known t (sid 129 2) /\
  (exists l, find_node 5 t (sid 130 0) = Val (Some (Closest l)) /\ map n_id l = [sid 128 1; sid 129 2; sid 1 3]) /\
  exists n, find_node 5 t (sid 129 2) = Val (Some (Exact n)) /\ n_id n = sid 129 2.
Proof.
  eexists. assert (R : run (t_default (sid 0 0)) ex_three = Val _) by (vm_compute; reflexivity).
  split; [eapply reach_run; [| |exact R]; [reflexivity|wfh]|]. split; [reflexivity|]. split; [vm_compute; intuition discriminate|]. split; [vm_compute; auto|]. split.
  - eexists. split; vm_compute; reflexivity.
  - eexists. split; vm_compute; reflexivity.
Qed.
(** In a running round the node asked first names two peers. *)
Example C81_example : exists h s s' o, fruns 1000 w_ih 6881 [w_node 0] [] h s /\ In (w_addr 0) (keys (fs_nodes s)) /\ asked_this_round h = [w_addr 0] /\
  fstep 1000 s (FResp (FGetPeers (w_addr 0) [x01] (VValues [w_addr 5; w_addr 6]))) = Val (s', o) /\ map fst (fs_peers s') = [w_addr 5; w_addr 6].
Proof.
  destruct (frun 1000 (f_start w_ih 6881 [w_node 0] []) [] [FTick]) as [[s h]| |] eqn:R.
  2,3: vm_compute in R; discriminate.
  exists h, s. assert (F : fruns 1000 w_ih 6881 [w_node 0] [] h s) by (eapply frun_runs; [apply fr_nil| |exact R]; repeat constructor).
  vm_compute in R. injection R as <- <-. do 2 eexists. split; [exact F|]. split; [left; reflexivity|]. split; [reflexivity|]. split; vm_compute; reflexivity.
Qed.
(** A router that opens the TCP port and refuses the UDP port. *)
Example C116_example : exists g open', g_local_v4 g = Some true /\ g_found g = true /\ g_tcp g = Some 7000%N /\ g_udp g = None /\
  open_any_port g 0 [] = (None, open') /\ length open' = 1.
Proof. exists (mk_sur (Some true) true (Some 7000%N) None). eexists. repeat split. Qed.
