(** C50 continued: exactly which peers of our own torrent a lookup is answered
    with, and what the lookup does to them. *)
From Coq Require Import List NArith ZArith Lia Bool Arith.
From Coq Require Import Init.Byte.
From Verif Require Import Base Assoc IdModel WireModel TableModel TableSpec TableProps PeersModel PeersSpec PeersProofs PeersProps
  BencodeModel KrpcModel DhtModel DhtMgrModel DhtMgrSpec DhtMgrProps.
Import ListNotations.
Set Implicit Arguments.

Section props.
Variables (info : ID) (m0 : peers) (t0 : table).
Hypothesis W0 : wf_id info.
Hypothesis N0 : NoDup (map fst m0).
Hypothesis R0 : reachable t0.
Notation Runs := (gruns info m0 t0).

(** The answer holds all peers of the table that were not found unreachable, or
    216 of them, connected ones first; no other peer, none twice. The ones handed
    out are marked as connected by that (C80), and no other task's entry changes. *)
Theorem C50_own_exact : forall h s now pick from t, Runs h s ->
  exists s' o v, gstep now pick s (GGetPeers info from t) = Val (s', o) /\
    ((exists w, In (CReply from t (PGetPeers (VValues w))) o) <-> v <> []) /\ (forall w, In (CReply from t (PGetPeers (VValues w))) o -> w = v) /\
    NoDup v /\ (forall p, In p v -> exists st, status_of (g_peers s) p st /\ st <> UnableToConnect) /\
    (length v = 216 \/ length v < 216 /\ forall p st, status_of (g_peers s) p st -> st <> UnableToConnect -> In p v) /\
    (forall p q, In p (map fst (g_peers s)) -> status_of (g_peers s) p Active -> In q v -> ~ status_of (g_peers s) q Active -> In p v) /\
    (forall p, In p v -> status_of (g_peers s') p Active) /\ (forall p st, ~ In p v -> (status_of (g_peers s') p st <-> status_of (g_peers s) p st)) /\
    g_map s' = g_map s /\ g_table s' = g_table s.
Proof.
  intros h s now pick from t H. pose proof (runs_inv N0 R0 H) as G. cbn [gstep]. unfold on_get_peers, find_peers, q_serve.
  rewrite (gi_info G), bytes_eqb_refl. change (DHT_MTU / COMPACT_PEER_LEN) with 216.
  destruct (@C25_good_peers (g_peers s) 216 (gi_nodup G)) as (m' & v & -> & GB). cbn [rbind fst snd].
  assert (RK : forall st r, good_rank st = Some r -> st <> UnableToConnect) by (intros [] r X; discriminate).
  assert (KR : forall st, st <> UnableToConnect -> exists r, good_rank st = Some r) by (intros [] X; try congruence; cbn; eauto).
  assert (E1 : forall p, In p v -> exists st, status_of (g_peers s) p st /\ st <> UnableToConnect).
  { intros p P. destruct (gb_eligible GB p P) as (st & r & A & B). eauto. }
  assert (E2 : length v = 216 \/ length v < 216 /\ forall p st, status_of (g_peers s) p st -> st <> UnableToConnect -> In p v).
  { destruct (Nat.eq_dec (length v) 216) as [L|L]; [left; auto|right]. pose proof (gb_size GB). split; [lia|]. destruct (gb_maximal GB) as [M|M]; [contradiction|].
    intros p st A B. destruct (KR st B) as [r R]. eapply M; eauto. }
  assert (E3 : forall p q, In p (map fst (g_peers s)) -> status_of (g_peers s) p Active -> In q v -> ~ status_of (g_peers s) q Active -> In p v).
  { intros p q _ A Q NA. destruct (in_dec addr_dec p v) as [I|I]; auto. exfalso. destruct (gb_eligible GB q Q) as (st & r & B & C).
    pose proof (@gb_priority _ _ _ _ _ GB q st r p Active 0 Q B C I A eq_refl) as L. destruct st; cbn in C; try discriminate; injection C as <-; try lia. contradiction. }
  destruct v as [|x v].
  - destruct (@find_node_total now _ info (gi_table G) W0) as (o & -> & _). cbn [rmap]. do 2 eexists. exists []. split; [reflexivity|].
    split; [split; [intros [w X]; destruct o; cbn in X; intuition; discriminate|congruence]|]. split; [intros w X; destruct o; cbn in X; intuition; discriminate|].
    split; [constructor|]. split; auto. split; auto. split; auto. split; [intros p []|]. split; [|split; reflexivity]. intros p st I. apply (gb_frame GB); auto.
  - do 2 eexists. exists (x :: v). split; [reflexivity|]. split; [split; [discriminate|intros _; eexists; left; reflexivity]|].
    split; [intros w [X|[]]; injection X as <-; reflexivity|]. split; [apply (gb_nodup GB)|]. split; auto. split; auto. split; auto.
    split; [intros p I; apply (gb_marked GB); auto|]. split; [intros p st I; apply (gb_frame GB); auto|]. split; reflexivity.
Qed.
End props.
(** Two peers known, one of them unreachable. *)
Example C50_own_exact_example : forall now pick from t, exists s',
  gruns ih_own [(crowd_peer 1, Unknown); (crowd_peer 2, UnableToConnect)] nobody [] (g_start ih_own [(crowd_peer 1, Unknown); (crowd_peer 2, UnableToConnect)] nobody) /\
  gstep now pick (g_start ih_own [(crowd_peer 1, Unknown); (crowd_peer 2, UnableToConnect)] nobody) (GGetPeers ih_own from t) = Val (s', [CReply from t (PGetPeers (VValues [crowd_peer 1]))]) /\
  g_peers s' = [(crowd_peer 1, Active); (crowd_peer 2, UnableToConnect)].
Proof. intros. eexists. split; [constructor|]. split; [vm_compute; reflexivity|reflexivity]. Qed.
Print Assumptions C50_own_exact.
