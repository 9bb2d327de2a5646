(** C130: what can end the DHT of a client. *)
From Coq Require Import Strings.String.
From Coq Require Import List NArith ZArith Lia Bool Arith Permutation.
From Coq Require Import Init.Byte.
From Verif Require Import Base Assoc IdModel WireModel TableModel TableSpec TableProofs TableProofs2 TableProps LookupProps PeersModel PeersSpec PeersProofs PeersProps BencodeModel BencodeSpec BencodeProofs KrpcModel Utf8Spec Utf8Proofs KrpcSpec KrpcProofs ReadProps DhtModel DhtSpec DhtMgrModel DhtMgrSpec DhtMgrProps FetchModel TaskModel DhtProps DhtSysModel DhtSysSpec DhtAskSpec DhtAskProps ClientInvProps NetModel NetSpec NetProofs NetProps NetSafeProps.
Import ListNotations.
Set Implicit Arguments.
Local Open Scope list_scope.

(** The generator gives what a refresh of any table asks for: there are at most
    161 buckets. *)
Definition plenty (draws : list (list byte * list bool)) : Prop := 161 <= List.length draws /\ enough draws.
(** Nothing that ends the DHT from outside: no error of the socket, no shutdown,
    somebody left to tell of DHT ports; messages as the decoder gives them. *)
Definition calm (e : yev) : Prop :=
  match e with
  | YIn from m => wf_addr from /\ sized m
  | YSockErr => False
  | YTurn _ _ (SNoPeers | SShutdown) => False
  | YTurn _ _ (STick draws) => plenty draws
  | _ => True
  end.

(** ** the parts cannot fail *)
Definition wf_q (i : gin) : Prop := match i with GFindNode x _ _ | GGetPeers x _ _ => wf_id x | GNewPeer p ih => wf_id ih /\ wf_addr p | _ => False end.
Definition wf_r (r : from_resp) : Prop := match r with FTouch id from => wf_id id /\ wf_addr from | FNewNodes n from id => wf_id id /\ wf_addr from /\ Forall wf_node (nodes_list n) | FGetPeers _ _ _ => True end.
Definition wf_i (i : gin) : Prop := match i with GResp r => wf_r r | GRefresh d => plenty d | GPort _ => True | GShared _ => False | _ => wf_q i end.
Lemma gstep_goes : forall now pick s i, reachable (g_table s) -> NoDup (map fst (g_peers s)) -> wf_i i -> exists s' o, gstep now pick s i = Val (s', o) /\ reachable (g_table s') /\ g_info s' = g_info s.
Proof.
  intros now pick s i R ND W.
  assert (TOUCH : forall id from, wf_id id -> wf_addr from -> exists t, touch_node now id from (g_table s) = Val t /\ reachable t).
  { intros id from W1 W2. destruct (@C44_total_restarts (g_table s) [mk_touch now id from] R) as (t & H & _ & RT); [repeat constructor; auto|]. cbn [run te_now te_id te_addr] in H. destruct (touch_node now id from (g_table s)) as [t'| |]; try discriminate. injection H as ->. eauto. }
  destruct i as [target from t|ih from t|p ih|[id from|n from id|from tk v]|draws|a|o]; cbn [gstep wf_i wf_q wf_r] in *.
  - unfold on_find_node. destruct (@find_node_total now _ target R W) as (o & -> & _). cbn [rmap]. do 2 eexists. split; [reflexivity|]. auto.
  - unfold on_get_peers, find_peers. destruct (q_serve (g_info s) ih) eqn:SV.
    + destruct (@C25_good_peers (g_peers s) (DHT_MTU / COMPACT_PEER_LEN) ND) as (m' & out & -> & _). cbn [rbind fst snd].
      destruct out as [|x out]; [|do 2 eexists; split; [reflexivity|auto]].
      destruct (@find_node_total now _ ih R W) as (o & -> & _). cbn [rmap]. do 2 eexists. split; [reflexivity|]. auto.
    + cbn [rbind fst snd]. destruct (mget bytes_eqb ih (g_map s)) as [l|]; cbn [option_map]; [do 2 eexists; split; [reflexivity|auto]|].
      destruct (@find_node_total now _ ih R W) as (o & -> & _). cbn [rmap]. do 2 eexists. split; [reflexivity|]. auto.
  - do 2 eexists. split; [reflexivity|]. unfold store_new_peer. destruct (q_serve _ _); cbn; auto.
  - destruct W as (W1 & W2). destruct (TOUCH id from W1 W2) as (t & T & RT). unfold on_resp. rewrite T. cbn [rmap]. do 2 eexists. split; [reflexivity|auto].
  - destruct W as (W1 & W2 & W3). destruct (TOUCH id from W1 W2) as (t & T & RT). unfold on_resp. rewrite T. cbn [rbind].
    destruct (@unknown_spec t (nodes_list n) RT W3) as (l & -> & _). cbn [rmap]. do 2 eexists. split; [reflexivity|auto].
  - do 2 eexists. split; [reflexivity|]. auto.
  - destruct W as (W1 & W2). unfold refresh_table. destruct (@iter_ids_spec now _ draws R) as (ids & -> & WI).
    { destruct (C44_structure R) as ((_ & B) & _). lia. }
    { intros d D. unfold enough in W2. rewrite Forall_forall in W2. auto. }
    cbn [rbind]. destruct (@find_nodes_for_spec now _ ids R WI) as (o & ->). cbn [rmap]. do 2 eexists. split; [reflexivity|]. auto.
  - do 2 eexists. split; [reflexivity|]. auto.
  - destruct W.
Qed.
Lemma enough_goes : forall um m, NoDup (map fst m) -> exists m' b, q_enough um m = Val (m', b).
Proof. intros um m N. destruct (@C25_good_peers m um N) as (m' & out & E & _). unfold q_enough. rewrite E. cbn. eauto. Qed.
Lemma fstep_goes : forall um f e, NoDup (map fst (fs_peers f)) -> fstep um f e <> Panic.
Proof.
  intros um f e N. destruct e as [|r| |op]; cbn [fstep].
  - destruct (fs_busy f); discriminate.
  - destruct (fs_busy f); [|destruct r; discriminate]. destruct r as [id fr|n fr id|fr tok v]; try discriminate. destruct (mget addr_eqb fr (fs_nodes f)) as [old|]; [|discriminate].
    assert (X : exists x, on_answer um f old fr tok v = Val x).
    { unfold on_answer. destruct v as [l|n].
      - destruct (_ <=? _); [|eauto]. destruct (@enough_goes um (q_extend (fs_peers f) l)) as (m' & b & ->); [apply extend_keys; exact N|]. cbn. eauto.
      - destruct (_ <=? _); [|eauto]. destruct (@enough_goes um (fs_peers f) N) as (m' & b & ->). cbn. eauto. }
    destruct X as (x & ->). discriminate.
  - destruct (fs_busy f); discriminate.
  - destruct (@step_keys (fs_peers f) op N) as (m' & out & -> & _). discriminate.
Qed.
Lemma tsteps_nodup : forall t t', tsteps t t' -> NoDup (map fst t) -> NoDup (map fst t').
Proof. intros t t' H. induction H as [|t o t1 out t2 Q _ IH]; [auto|]. intro N. apply IH. destruct (@step_keys t o N) as (m' & out' & E & N' & _). rewrite Q in E. injection E as <- <-. exact N'. Qed.

Section life.
Variable sha : bytes -> bytes.
Variable usize_max : nat.
Variable cap : caps.
Variable tcp_port : N.
Notation ystep := (ystep sha usize_max cap tcp_port).
Notation yrun := (yrun sha usize_max cap tcp_port).
(** A search there is whenever something for it is on its way. *)
Definition searching (y : sys) : Prop := y_fet y <> None.
Definition wf_o (s : Prop) (o : out) : Prop :=
  match o with
  | OSend _ _ => True
  | OFindNode x _ _ | OGetPeers x _ _ => wf_id x
  | ONewPeer p ih => wf_id ih /\ wf_addr p
  | OResp req r => wf_r r /\ (req <> DHT -> s)
  end.
Record well (y : sys) : Prop := mk_well {
  w_sock : y_sock y <> None;
  w_dht : y_phase y <> PGone;
  w_tab : reachable (g_table (k_mgr (y_dht y)));
  w_info : wf_id (g_info (k_mgr (y_dht y)));
  w_peers : NoDup (map fst (y_peers y));
  w_qry : Forall wf_q (y_qry y);
  w_rd : Forall wf_r (y_rd y);
  w_outs : Forall (wf_o (searching y)) (y_outs y);
  w_cmd : forall req c, In (req, c) (y_cmd y) -> req <> DHT -> searching y;
  w_pend : forall d t k req, y_sock y = Some d -> In (t, (k, req)) (d_pending d) -> req <> DHT -> searching y }.
Lemma told_wf : forall r from t y, sized (MResp t y r) -> wf_addr from -> wf_r (told r from).
Proof. intros r from t y (_ & S) W. destruct r as [id tok v|id n|id|id]; cbn [told wf_r]; auto; try (destruct S; fail). destruct S as (S1 & S2). split; [exact S1|]. split; [exact W|]. exact S2. Qed.
Lemma mset_in_b : forall V (k : bytes) (v : V) m a x, In (a, x) (mset bytes_eqb k v m) -> (a, x) = (k, v) \/ In (a, x) m.
Proof.
  intros V k v m. induction m as [|(k' & v') m IH]; intros a x H; cbn in H; [destruct H as [H|[]]; left; congruence|].
  destruct (bytes_eqb k k') eqn:E; cbn in H; destruct H as [H|H]; [apply bytes_eqb_eq in E; left; congruence|right; right; exact H|right; left; exact H|].
  destruct (IH _ _ H) as [J|J]; [left; exact J|right; right; exact J].
Qed.
Lemma mdel_in_b : forall V (k : bytes) (m : list (bytes * V)) x, In x (mdel bytes_eqb k m) -> In x m.
Proof. intros V k m. induction m as [|(k' & v') m IH]; intros x H; cbn in H; [exact H|]. destruct (bytes_eqb k k'); [right; exact H|]. destruct H as [H|H]; [left; exact H|right; auto]. Qed.
Lemma wf_o_mono : forall (p q : Prop) l, (p -> q) -> Forall (wf_o p) l -> Forall (wf_o q) l.
Proof. intros p q l M F. apply (Forall_impl _ (P := wf_o p)); [|exact F]. intros o W. destruct o; cbn in *; auto. destruct W. split; auto. Qed.
(** What changes the tasks' ends, the search and the requests under way only by
    appending. *)
Lemma same_well : forall y y', well y -> (y_sock y' = y_sock y) -> y_phase y' <> PGone -> reachable (g_table (k_mgr (y_dht y'))) -> wf_id (g_info (k_mgr (y_dht y'))) -> NoDup (map fst (y_peers y')) ->
  (forall i, In i (y_qry y') -> In i (y_qry y)) -> (forall i, In i (y_rd y') -> In i (y_rd y)) -> y_outs y' = y_outs y -> (forall req c, In (req, c) (y_cmd y') -> req = DHT \/ searching y' \/ In (req, c) (y_cmd y)) -> (searching y -> searching y') -> well y'.
Proof.
  intros y y' W E1 E2 E3 E4 E5 E6 E7 E8 E9 E10. destruct W as [W1 W2 W3 W4 W5 W6 W7 W8 W9 W10]. rewrite Forall_forall in W6, W7. split; auto.
  - congruence.
  - apply Forall_forall. auto.
  - apply Forall_forall. auto.
  - rewrite E8. eapply wf_o_mono; [exact E10|exact W8].
  - intros req c I D. destruct (E9 _ _ I) as [J|[J|J]]; [contradiction|exact J|]. apply E10. eapply W9; eauto.
  - intros d t k req S I D. rewrite E1 in S. apply E10. eapply W10; eauto.
Qed.
Lemma dstep_well : forall y d from m, well y -> y_sock y = Some d -> wf_addr from -> sized m -> exists d' os, DhtModel.dstep sha all_there d (EIn from m) = Val (d', os) /\ Forall (wf_o (searching y)) os /\ (forall x, In x (d_pending d') -> In x (d_pending d)).
Proof.
  intros y d from m W SK A S. destruct m as [t v name a|t v r|t v er].
  - destruct (@dstep_total sha all_there d (EIn from (MQuery t v name a)) eq_refl ltac:(reflexivity)) as (d' & os & E). exists d', os. split; [exact E|]. destruct S as (_ & _ & S). cbn [dstep] in E.
    destruct a; cbn [handle_query] in E; unfold to_listener, send_reply in E; cbn [e_listener all_there] in E.
    + destruct (token_is_valid _ _ _ _); [|injection E as <- <-; split; [repeat constructor|auto]]. cbn in E. injection E as <- <-. split; [|auto]. destruct S as (S1 & S2 & S3). repeat constructor; cbn; auto.
    + injection E as <- <-. destruct S as (S1 & S2). split; [|auto]. repeat constructor; cbn; auto.
    + injection E as <- <-. destruct S as (S1 & S2). split; [|auto]. repeat constructor; cbn; auto.
    + injection E as <- <-. split; [|auto]. repeat constructor.
  - rewrite dstep_resp. destruct (mget bytes_eqb t (d_pending d)) as [[k rq]|] eqn:G; [|exists d, []; repeat split; auto]. destruct (kind_eqb _ _); [|exists d, []; repeat split; auto]. cbn [e_alive all_there].
    eexists. eexists. split; [reflexivity|]. split.
    + constructor; [|constructor]. cbn [wf_o]. split; [eapply told_wf; eauto|]. intro D. apply (mget_in bytes_eqb bytes_eqb_eq) in G. eapply (w_pend W); eauto.
    + cbn [d_pending]. intros x. apply mdel_in_b.
  - exists d, []. repeat split; auto.
Qed.
Lemma ystep_well : forall y e y' o, well y -> calm e -> ystep y e = Some (y', o) -> well y' /\ (searching y -> searching y').
Proof.
  intros y e y' o W C H. pose proof (ystep_peers _ _ _ _ _ _ H) as TP. pose proof (tsteps_nodup TP (w_peers W)) as ND. clear TP.
  assert (SA : sock_alive y = true) by (unfold sock_alive; pose proof (w_sock W); destruct (y_sock y); congruence).
  assert (DA : dht_alive y = true) by (unfold dht_alive; pose proof (w_dht W); destruct (y_phase y); congruence).
  assert (TURN : forall z now pick i, g_table (k_mgr (y_dht z)) = g_table (k_mgr (y_dht y)) -> g_info (k_mgr (y_dht z)) = g_info (k_mgr (y_dht y)) -> y_peers z = y_peers y -> y_sock z = y_sock y -> y_outs z = y_outs y -> y_cmd z = y_cmd y -> y_fet z = y_fet y ->
    (forall i, In i (y_qry z) -> In i (y_qry y)) -> (forall i, In i (y_rd z) -> In i (y_rd y)) -> wf_i i -> NoDup (map fst (y_peers (dht_turn z now pick i))) -> well (dht_turn z now pick i) /\ (searching y -> searching (dht_turn z now pick i))).
  { intros z now pick i E1 E2 E3 E4 E5 E6 E7 E8 E9 WI NN. unfold dht_turn in *.
    destruct (@gstep_goes now pick (mgr_of z) i) as (s & os & G & R & IN); [unfold mgr_of; cbn; rewrite E1; apply (w_tab W)|unfold mgr_of; cbn; rewrite E3; apply (w_peers W)|exact WI|]. rewrite G in *.
    split; [|unfold searching; cbn; rewrite E7; auto]. apply (same_well W); cbn; auto; try discriminate.
    - rewrite IN. unfold mgr_of. cbn. rewrite E2. apply (w_info W).
    - rewrite E6. auto.
    - unfold searching. cbn. rewrite E7. auto. }
  assert (FET : forall z f e', y_fet y = Some f -> y_peers z = y_peers y -> y_fet z = y_fet y -> (forall f0 os p, p = y_peers y' -> well (with_fet z (Some f0) os p)) ->
    match fstep usize_max (mk_fet (fs_info f) (fs_port f) (fs_nodes f) (y_peers z) (fs_busy f)) e' with
    | Val (f', o) => Some (with_fet z (Some f') o (fs_peers f'), [])
    | Fail => None
    | Panic => Some (with_fet z None [] (y_peers z), [])
    end = Some (y', o) -> well y' /\ (searching y -> searching y')).
  { intros z f e' FT E1 E2 WZ G. pose proof (@fstep_goes usize_max (mk_fet (fs_info f) (fs_port f) (fs_nodes f) (y_peers z) (fs_busy f)) e') as NP. cbn [fs_peers] in NP. rewrite E1 in NP. specialize (NP (w_peers W)). rewrite E1 in G.
    destruct (fstep _ _ _) as [[f' os]| |]; [|discriminate|congruence]. injection G as <- <-. split; [apply WZ; reflexivity|]. unfold searching. cbn. discriminate. }
  assert (WF : forall z f0 os p, y_sock z = y_sock y -> y_phase z = y_phase y -> y_dht z = y_dht y -> y_qry z = y_qry y -> y_rd z = y_rd y -> y_outs z = y_outs y -> y_cmd z = y_cmd y -> p = y_peers y' -> well (with_fet z (Some f0) os p)).
  { intros z f0 os p E1 E2 E3 E4 E5 E6 E7 ->. apply (same_well W); cbn; auto; rewrite ?E2, ?E3, ?E4, ?E5, ?E7; auto; [apply (w_dht W)|apply (w_tab W)|apply (w_info W)|]. unfold searching. cbn. discriminate. }
  destruct e as [from m|t| | | |now pick s| |n2 n3| | | | |a|op]; cbn [DhtSysModel.ystep] in H; cbn [calm] in C.
  - destruct (y_sock y) as [d|] eqn:SK; [|discriminate]. destruct (y_outs y) eqn:OU; [|discriminate]. destruct C as (C1 & C2). destruct (@dstep_well _ _ _ _ W SK C1 C2) as (d' & os & E & F & P). rewrite E in H. cbn [after_sock] in H. injection H as <- <-. split; [|auto].
    pose proof W as [W1 W2 W3 W4 W5 W6 W7 W8 W9 W10]. split; cbn; auto; try discriminate. intros d0 t k req S I D. injection S as <-. eapply W10; eauto.
  - destruct (y_sock y) as [d|] eqn:SK; [|discriminate]. destruct (y_outs y) eqn:OU; [|discriminate]. destruct (y_cmd y) as [|[req c] q] eqn:CM; [discriminate|]. pose proof W as [W1 W2 W3 W4 W5 W6 W7 W8 W9 W10].
    assert (X : exists d' os, DhtModel.dstep sha all_there d (match c with CQuery target qu => EQuery req target qu t | CReply target t' r => EReply target t' r end) = Val (d', os) /\ Forall (wf_o (searching y)) os /\ forall t0 k rq, In (t0, (k, rq)) (d_pending d') -> rq <> DHT -> searching y).
    { destruct c as [to qu|to t' r].
      - rewrite dstep_query. do 2 eexists. split; [reflexivity|]. split; [repeat constructor|]. cbn [d_pending]. intros t0 k rq I D. apply mset_in_b in I. destruct I as [I|I]; [|eapply W10; eauto]. injection I as -> -> ->. eapply W9; [rewrite CM; left; reflexivity|exact D].
      - cbn. unfold send_reply. do 2 eexists. split; [reflexivity|]. split; [repeat constructor|]. intros t0 k rq I D. eapply W10; eauto. }
    destruct X as (d' & os & E & F & P). rewrite E in H. cbn [after_sock] in H. injection H as <- <-. split; [|auto]. split; cbn; auto; try discriminate.
    + intros rq c' I D. eapply W9; [rewrite CM; right; exact I|exact D].
    + intros d0 t0 k rq S I D. injection S as <-. eapply P; eauto.
  - destruct (y_sock y) as [d|] eqn:SK; [|discriminate]. destruct (y_outs y) as [|x os] eqn:OU; [discriminate|]. pose proof W as [W1 W2 W3 W4 W5 W6 W7 W8 W9 W10]. rewrite OU in W8. inversion W8 as [|? ? M1 M2]; subst.
    destruct x as [to m|tg fr t|ih fr t|p ih|req r]; cbn [sock_out] in H; unfold hand_over in H; try rewrite DA in H.
    + injection H as <- <-. split; [|auto]. split; cbn; auto; try discriminate; try exact M2; try exact W9; try (intros ? ? ? ? SS ? ?; injection SS as <-; eapply W10; eauto; fail).
    + destruct (_ <? _); [|discriminate]. injection H as <- <-. split; [|auto]. split; cbn; auto; try discriminate; try exact M2; try exact W9; try (intros ? ? ? ? SS ? ?; injection SS as <-; eapply W10; eauto; fail). apply Forall_app. auto.
    + destruct (_ <? _); [|discriminate]. injection H as <- <-. split; [|auto]. split; cbn; auto; try discriminate; try exact M2; try exact W9; try (intros ? ? ? ? SS ? ?; injection SS as <-; eapply W10; eauto; fail). apply Forall_app. auto.
    + destruct (_ <? _); [|discriminate]. injection H as <- <-. split; [|auto]. split; cbn; auto; try discriminate; try exact M2; try exact W9; try (intros ? ? ? ? SS ? ?; injection SS as <-; eapply W10; eauto; fail). apply Forall_app. auto.
    + destruct M1 as (M1 & M3). destruct (req =? DHT) eqn:RQ.
      * destruct (_ <? _); [|discriminate]. injection H as <- <-. split; [|auto]. split; cbn; auto; try discriminate; try exact M2; try exact W9; try (intros ? ? ? ? SS ? ?; injection SS as <-; eapply W10; eauto; fail). apply Forall_app. auto.
      * apply Nat.eqb_neq in RQ. specialize (M3 RQ). unfold searching in M3. destruct (y_fet y) as [f|] eqn:FT; [|congruence]. destruct (_ <? _); [|discriminate]. injection H as <- <-. split; [|auto]. split; cbn; auto; try discriminate; try exact M2; try exact W9; try (intros ? ? ? ? SS ? ?; injection SS as <-; eapply W10; eauto; fail).
  - destruct C.
  - destruct (y_sock y); [|discriminate]. destruct (y_outs y); [|discriminate]. destruct (y_cmd y); [|discriminate]. destruct (y_fet y); [discriminate|]. rewrite DA in H. discriminate.
  - destruct (y_phase y) eqn:PH; try discriminate. destruct s.
    + destruct (y_rd y) as [|r q] eqn:RD; [discriminate|]. injection H as <- <-. apply TURN; cbn; auto. pose proof (w_rd W) as F. rewrite RD in F. inversion F; subst. assumption.
    + destruct (y_qry y) as [|i q] eqn:QR; [rewrite SA in H; discriminate|]. injection H as <- <-. apply TURN; cbn; auto. pose proof (w_qry W) as F. rewrite QR in F. inversion F as [|? ? X Y]; subst. destruct i; cbn in *; auto; destruct X.
    + destruct (y_port y) as [|r q] eqn:RD; [discriminate|]. injection H as <- <-. apply TURN; cbn; auto.
    + destruct C.
    + injection H as <- <-. apply TURN; cbn; auto.
    + destruct C.
  - assert (GO : forall c l p, p <> PGone -> option_map (fun y => (with_phase y p, [])) (send_cmd cap y DHT c) = Some (y', o) -> l = y_cmd y -> well y' /\ (searching y -> searching y')).
    { intros c l p NP G ->. unfold send_cmd in G. destruct (_ <? _); [|discriminate]. injection G as <- <-. split; [|auto]. apply (same_well W); cbn; auto; [apply (w_tab W)|apply (w_info W)|]. intros req c' I. apply in_app_or in I. destruct I as [I|[I|[]]]; [auto|]. injection I as <- <-. auto. }
    assert (ID : forall p, p <> PGone -> with_phase y p = y' -> well y' /\ (searching y -> searching y')).
    { intros p NP <-. split; [|auto]. apply (same_well W); cbn; auto; [apply (w_tab W)|apply (w_info W)]. }
    destruct (y_phase y) as [l| |l|] eqn:PH; try discriminate.
    + destruct l as [|c l]; [injection H as H _; eapply ID; [|exact H]; discriminate|]. rewrite SA in H. eapply GO; [|exact H|reflexivity]. discriminate.
    + destruct l as [|c l]; [discriminate|]. rewrite SA in H. eapply GO; [|exact H|reflexivity]. discriminate.
  - destruct (y_phase y) as [l| |l|]; try discriminate. destruct l; [|discriminate].
    assert (ID : with_phase y PIdle = y' -> well y' /\ (searching y -> searching y')).
    { intros <-. split; [|auto]. apply (same_well W); cbn; auto; [discriminate|apply (w_tab W)|apply (w_info W)]. }
    destruct (_ && _); [|injection H as H _; auto]. unfold spawn_fetcher in H. destruct (@closest_spec n3 _ _ (reachable_inv (w_tab W)) (w_info W)) as (ol & E & _). rewrite E in H. cbn [rmap] in H.
    destruct ol as [l|]; cbn [option_map] in H; [|injection H as H _; auto]. injection H as <- <-. split; [|unfold searching; cbn; discriminate]. apply (same_well W); cbn; auto; try discriminate; [apply (w_tab W)|apply (w_info W)].
  - destruct (y_fet y) as [f|] eqn:FT; [|discriminate]. destruct (y_fout y); [|discriminate]. eapply FET; [| | | |exact H]; auto.
  - destruct (y_fet y) as [f|] eqn:FT; [|discriminate]. destruct (y_fout y); [|discriminate]. destruct (y_rf y) as [|r q]; [discriminate|]. eapply FET; [| | | |exact H]; auto.
  - destruct (y_fet y) as [f|] eqn:FT; [|discriminate]. destruct (y_fout y); [|discriminate]. eapply FET; [| | | |exact H]; auto.
  - destruct (y_fet y) as [f|] eqn:FT; [|discriminate]. destruct (y_fout y) as [|c l]; [discriminate|]. rewrite SA in H. unfold send_cmd in H. destruct (_ <? _); [|discriminate]. injection H as <- <-. split; [|unfold searching; cbn; discriminate].
    apply (same_well W); cbn; auto; try discriminate; [apply (w_dht W)|apply (w_tab W)|apply (w_info W)|intros req c' I; right; left; discriminate].
  - destruct (_ && _); [|discriminate]. injection H as <- <-. split; [|auto]. apply (same_well W); cbn; auto; [apply (w_dht W)|apply (w_tab W)|apply (w_info W)].
  - destruct (q_step _ _) as [[m ot]| |]; try discriminate. injection H as <- <-. split; [|auto]. apply (same_well W); cbn; auto; [apply (w_dht W)|apply (w_tab W)|apply (w_info W)].
Qed.
End life.

(** ** one client *)
Section one.
Variable sha : bytes -> bytes.
Variable usize_max : nat.
Variable cap : caps.
Variable tcp_port : N.
Lemma yrun_well : forall es y y' h, well y -> (forall e, In e es -> calm e) -> yrun sha usize_max cap tcp_port y es = Some (y', h) -> well y' /\ (searching y -> searching y').
Proof.
  induction es as [|e es IH]; intros y y' h W C H; cbn [yrun] in H; [injection H as <- <-; auto|]. destruct (ystep _ _ _ _ y e) as [[y1 o]|] eqn:ST; [|discriminate]. destruct (yrun _ _ _ _ y1 es) as [[y2 h2]|] eqn:R; [|discriminate]. injection H as <- <-.
  destruct (@ystep_well _ _ _ _ _ _ _ _ W (C _ (or_introl eq_refl)) ST) as (W1 & S1). destruct (@IH _ _ _ W1 (fun e I => C e (or_intror I)) R) as (W2 & S2). auto.
Qed.
Lemma start_well : forall own secret info m t, reachable t -> wf_id info -> NoDup (map fst m) -> well (sys_start own secret info m t).
Proof. intros own secret info m t R W N. split; cbn; auto; try discriminate; try (intros ? ? []; fail); try (intros d t0 k req E I; injection E as <-; destruct I; fail). Qed.
End one.
(** As long as the socket works, nobody asks for the end, some connection is left
    and the generator gives enough: whatever messages come, in whatever order the
    tasks run, both tasks of the DHT go on, and so does the search once begun. *)
Theorem C130_goes_on : forall sha usize_max cap tcp_port own secret info m t es1 es2 y1 h1 y2 h2, reachable t -> wf_id info -> NoDup (map fst m) ->
  (forall e, In e (es1 ++ es2) -> calm e) ->
  yrun sha usize_max cap tcp_port (sys_start own secret info m t) es1 = Some (y1, h1) -> yrun sha usize_max cap tcp_port y1 es2 = Some (y2, h2) ->
  y_sock y2 <> None /\ y_phase y2 <> PGone /\ (y_fet y1 <> None -> y_fet y2 <> None).
Proof.
  intros sha um cap tp own secret info m t es1 es2 y1 h1 y2 h2 R W N C R1 R2. destruct (@yrun_well _ _ _ _ _ _ _ _ (@start_well own secret info m t R W N) (fun e I => C e (in_or_app _ _ _ (or_introl I))) R1) as (W1 & _).
  destruct (@yrun_well _ _ _ _ _ _ _ _ W1 (fun e I => C e (in_or_app _ _ _ (or_intror I))) R2) as (W2 & S). split; [apply (w_sock W2)|]. split; [apply (w_dht W2)|exact S].
Qed.

(** ** many clients *)
(** Both tasks of the client at [a] run. *)
Definition working (n : net) (a : addr) : Prop := listening n a /\ y_phase (h_sys (n_hosts n a)) <> PGone.
(** What ends the DHT of the client at [a]: a stranger's datagram that makes
    decoding panic, an error of the client's own socket, no connection left, the
    end of the program. *)
Definition fatal (n : net) (a : addr) (e : nev) : Prop :=
  match e with
  | NStranger _ b dg => b = a /\ kmsg_from_bytes (recv_into (h_buf (n_hosts n a)) dg) = Panic
  | NDo b YSockErr | NDo b (YTurn _ _ (SNoPeers | SShutdown)) => b = a
  | _ => False
  end.
(** Ports of 16 bits, and draws enough for any refresh. *)
Definition proper (e : nev) : Prop :=
  match e with
  | NStranger from _ _ => wf_addr from
  | NDo _ (YTurn _ _ (STick draws)) => plenty draws
  | _ => True
  end.
(** A client as it can be started: a table as [C44] has them, no peer twice. *)
Definition fit (a : addr) (c : client) : Prop := sound c /\ wf_addr a /\ reachable (v_table c) /\ NoDup (map fst (v_peers c)).
Lemma proper_fed : forall e, proper e -> fed e.
Proof. intros e P a now pick draws ->. apply P. Qed.
Section many.
Variable sha : bytes -> bytes.
Variable who : addr -> option client.
Hypothesis FIT : forall a c, who a = Some c -> fit a c.
Lemma fit_sound : forall a c, who a = Some c -> sound c.
Proof. intros a c W. apply (FIT W). Qed.
Definition well_at (n : net) (a : addr) : Prop := well (h_sys (n_hosts n a)).
Definition searching_at (n : net) (a : addr) : Prop := searching (h_sys (n_hosts n a)).
Lemma receive_well : forall c h from dg h', well (h_sys h) -> wf_addr from -> kmsg_from_bytes (recv_into (h_buf h) dg) <> Panic -> receive sha c h from dg = Some h' -> well (h_sys h') /\ (searching (h_sys h) -> searching (h_sys h')).
Proof.
  intros c h from dg h' W A NP H. unfold receive in H. destruct (y_sock (h_sys h)) eqn:SK; [|discriminate]. destruct (y_outs (h_sys h)) eqn:OU; [|discriminate]. destruct (kmsg_from_bytes _) as [m| |] eqn:K; [|injection H as <-; auto|congruence].
  destruct (ystep _ _ _ _ _ _) as [[y o]|] eqn:ST; [|discriminate]. injection H as <-. cbn [h_sys fst]. refine (@ystep_well _ _ _ _ _ _ _ _ W _ ST). split; [exact A|]. eapply C118_sizes. exact K.
Qed.
Lemma nstep_well : forall n e n' a c, nsafe who n -> who a = Some c -> proper e -> well_at n a -> nstep sha who n e = Some n' -> (well_at n' a /\ (searching_at n a -> searching_at n' a)) \/ fatal n a e.
Proof.
  intros n e n' a c N WA P W H. unfold well_at, searching_at.
  assert (AT : forall b h air, n' = put_host n b h air -> (b = a -> (well (h_sys h) /\ (searching (h_sys (n_hosts n a)) -> searching (h_sys h))) \/ fatal n a e) -> (well (h_sys (n_hosts n' a)) /\ (searching (h_sys (n_hosts n a)) -> searching (h_sys (n_hosts n' a)))) \/ fatal n a e).
  { intros b h air -> HB. destruct (addr_eqb a b) eqn:E.
    - apply addr_eqb_spec in E. subst b. rewrite put_same. auto.
    - rewrite put_other; [left; auto|]. intros ->. rewrite (proj2 (addr_eqb_spec b b) eq_refl) in E. discriminate. }
  destruct e as [b e|k|from to dg].
  - cbn [NetModel.nstep] in H. destruct (who b) as [c'|]; [|discriminate]. destruct (is_in e) eqn:I; [discriminate|]. destruct (ystep _ _ _ _ _ _) as [[y o]|] eqn:ST; [|discriminate]. injection H as H. symmetry in H. eapply AT; [exact H|]. intros ->. cbn [h_sys].
    assert (D : calm e \/ fatal n a (NDo a e)).
    { destruct e as [from m|t| | | |now pick s| |n2 n3| | | | |x|op]; cbn in *; auto; try discriminate. destruct s; cbn; auto. }
    destruct D as [D|D]; [left|right; exact D]. exact (@ystep_well _ _ _ _ _ _ _ _ W D ST).
  - cbn [NetModel.nstep] in H. destruct (nth_error (n_air n) k) as [d|] eqn:E; [|discriminate]. apply nth_error_In in E. destruct N as (N1 & N2). destruct (N2 _ E) as (c' & m & W' & D & A). unfold arrive in H. destruct (who (g_to d)) as [c2|] eqn:W2; [|discriminate].
    destruct (receive _ _ _ _ _) as [h|] eqn:R; [|discriminate]. injection H as H. symmetry in H. eapply AT; [exact H|]. intros TO. left. rewrite TO in *. eapply receive_well; [exact W|apply (FIT W')| |exact R].
    intro K. rewrite D in K. destruct (asked_ids (fit_sound W') A) as (I & O). unfold kmsg_bytes in K. rewrite (@read_enc _ _ (proj2 (proj2 (proj1 (N1 _ _ WA)))) O (nest_kmsg m) m (or_intror K)) in K. exact (@safe_kmsg sha [] _ I K).
  - cbn [NetModel.nstep] in H. destruct (who from); [discriminate|]. unfold arrive in H. destruct (who to) as [c2|] eqn:W2; [|discriminate]. destruct (receive _ _ _ _ _) as [h|] eqn:R; [|discriminate]. injection H as H. symmetry in H. eapply AT; [exact H|]. intros ->.
    destruct (kmsg_from_bytes (recv_into (h_buf (n_hosts n a)) dg)) eqn:K; [left|left|right; split; auto]; (refine (@receive_well _ _ _ _ _ W P _ R); congruence).
Qed.
Lemma nrun_well : forall es n n' a c, nsafe who n -> who a = Some c -> (forall e, In e es -> proper e) -> well_at n a -> nrun sha who n es = Some n' ->
  (well_at n' a /\ (searching_at n a -> searching_at n' a)) \/ exists es1 e es2 n1, es = es1 ++ e :: es2 /\ nrun sha who n es1 = Some n1 /\ fatal n1 a e.
Proof.
  induction es as [|e es IH]; intros n n' a c N WA P W H; cbn [nrun] in H; [injection H as <-; auto|]. destruct (nstep sha who n e) as [n1|] eqn:ST; [|discriminate].
  destruct (@nstep_well _ _ _ _ _ N WA (P _ (or_introl eq_refl)) W ST) as [(W1 & S1)|F]; [|right; exists [], e, es, n; auto].
  assert (N1 : nsafe who n1) by (eapply nstep_good; [exact N|exact ST|apply proper_fed; apply P; left; reflexivity]).
  destruct (IH _ _ _ _ N1 WA (fun e I => P e (or_intror I)) W1 H) as [(W2 & S2)|(es1 & e2 & es2 & n2 & -> & R & F)]; [left; auto|].
  right. exists (e :: es1), e2, es2, n2. split; [reflexivity|]. split; [cbn [nrun]; rewrite ST; exact R|exact F].
Qed.
Lemma start_well_at : forall a c, who a = Some c -> well_at (net_start who) a.
Proof. intros a c W. unfold well_at. cbn [net_start n_hosts]. rewrite W. destruct (FIT W) as ((S1 & S2 & S3) & _ & R & N). apply start_well; assumption. Qed.
End many.
(** A client whose socket task or DHT task has ended, or whose search has, was
    ended by one of these four. *)
Theorem C130_causes : forall sha who es1 es2 n1 n2 a c, (forall a c, who a = Some c -> fit a c) -> (forall e, In e (es1 ++ es2) -> proper e) -> who a = Some c ->
  nrun sha who (net_start who) es1 = Some n1 -> nrun sha who n1 es2 = Some n2 ->
  ~ working n2 a \/ (y_fet (h_sys (n_hosts n1 a)) <> None /\ y_fet (h_sys (n_hosts n2 a)) = None) ->
  exists l1 e l2 n, es1 ++ es2 = l1 ++ e :: l2 /\ nrun sha who (net_start who) l1 = Some n /\ fatal n a e.
Proof.
  intros sha who es1 es2 n1 n2 a c FIT P WA R1 R2 D. pose proof (@fit_sound who FIT) as FS.
  destruct (@nrun_well _ _ FIT _ _ _ _ _ (@start_good who FS) WA (fun e I => P e (in_or_app _ _ _ (or_introl I))) (@start_well_at _ FIT _ _ WA) R1) as [(W1 & _)|(l1 & e & l2 & n & -> & R & F)]; [|exists l1, e, (l2 ++ es2), n; rewrite <- app_assoc; auto].
  assert (N1 : nsafe who n1) by (eapply nrun_good; [apply start_good; exact FS|exact R1|intros e I; apply proper_fed; apply P; apply in_or_app; left; exact I]).
  destruct (@nrun_well _ _ FIT _ _ _ _ _ N1 WA (fun e I => P e (in_or_app _ _ _ (or_intror I))) W1 R2) as [(W2 & S2)|(l1 & e & l2 & n & -> & R & F)].
  - exfalso. destruct D as [D|(D1 & D2)]; [apply D; split; [apply (w_sock W2)|apply (w_dht W2)]|]. exact (S2 D1 D2).
  - exists (es1 ++ l1), e, l2, n. split; [rewrite app_assoc; reflexivity|]. split; [|exact F]. clear -R1 R. revert R1. generalize (net_start who) as s. induction es1 as [|x es1 IH]; intros s R1; cbn [nrun app] in *; [injection R1 as ->; exact R|]. destruct (nstep sha who s x); [auto|discriminate].
Qed.
(** Each of the four does end it. *)
Theorem C130_fatal : forall sha who n a e n', fatal n a e -> nstep sha who n e = Some n' -> ~ working n' a.
Proof.
  intros sha who n a e n' F H (L & P). destruct e as [b e|k|from to dg]; cbn [fatal] in F; [| destruct F |].
  - cbn [nstep] in H. destruct (who b) as [c|]; [|discriminate]. destruct (is_in e); [discriminate|]. destruct (ystep _ _ _ _ _ _) as [[y o]|] eqn:ST; [|discriminate]. injection H as <-.
    destruct e as [from m|t| | | |now pick s| |n2 n3| | | | |x|op]; try destruct F; try (destruct s; try destruct F); cbn [ystep] in ST; unfold listening in L; rewrite put_same in *; cbn [h_sys] in *.
    + destruct (y_sock _); [|discriminate]. destruct (y_outs _); [|discriminate]. injection ST as <- <-. apply L. reflexivity.
    + destruct (y_phase _); try discriminate. destruct (y_port _); [|discriminate]. injection ST as <- <-. apply P. reflexivity.
    + destruct (y_phase _); try discriminate. injection ST as <- <-. apply P. reflexivity.
  - destruct F as (-> & K). cbn [nstep] in H. destruct (who from); [discriminate|]. unfold arrive in H. destruct (who a) as [c|]; [|discriminate]. unfold receive in H. destruct (y_sock _); [|discriminate]. destruct (y_outs _); [|discriminate]. rewrite K in H. injection H as <-.
    unfold listening in L. rewrite put_same in L. apply L. reflexivity.
Qed.
(** A node is told of, pinged and answers; the search starts; a question is
    answered and the table is refreshed. *)
Definition ex_own : ID := repeat x11 20.
Definition ex_node : ID := repeat x22 20.
Definition ex_draws : list (list byte * list bool) := repeat (repeat x33 20, repeat true 8) 161.
Definition ex_begin : list yev :=
  [YSend; YPort addr_b; YTurn 0 pk SPort; YSend; YCheck 0 0; YCmd [x61]; YOut; YIn addr_b (MResp [x61] x72 (RPing ex_node)); YOut; YTurn 0 pk SResp; YCheck 0 0].
Definition ex_more : list yev :=
  [YTick; YIn addr_x (MQuery [x62] x71 (str "find_node") (AFindNode ex_node ex_own)); YOut; YTurn 0 pk SQuery; YSend; YCheck 0 0; YTurn 0 pk (STick ex_draws); YSend].
Definition ex_sys : sys := sys_start ex_own [x01] (repeat x44 20) [] (t_default ex_own).
Definition ex_life : bool :=
  match yrun ex_sha 100 CAPS 6881 ex_sys ex_begin with
  | Some (y1, _) => match y_fet y1, yrun ex_sha 100 CAPS 6881 y1 ex_more with Some _, Some _ => true | _, _ => false end
  | None => false
  end.
Example C130_one_example : reachable (t_default ex_own) /\ (forall e, In e (ex_begin ++ ex_more) -> calm e) /\
  exists y1 h1 y2 h2, yrun ex_sha 100 CAPS 6881 ex_sys ex_begin = Some (y1, h1) /\ y_fet y1 <> None /\ yrun ex_sha 100 CAPS 6881 y1 ex_more = Some (y2, h2).
Proof.
  split; [constructor; reflexivity|]. split.
  - intros e I. unfold ex_begin, ex_more in I. cbn [app In] in I.
    repeat (destruct I as [<-|I]; [cbn [calm]; first [exact Logic.I|idtac]|]); [| | |destruct I].
    + split; [reflexivity|]. split; [right; left; reflexivity|reflexivity].
    + split; [reflexivity|]. split; [left; reflexivity|]. split; [apply utf8_ok_iff; vm_compute; reflexivity|split; reflexivity].
    + split; [apply Nat.leb_le; vm_compute; reflexivity|]. apply Forall_forall. intros d D. apply repeat_spec in D. subst d. cbn. lia.
  - assert (X : ex_life = true) by (vm_compute; reflexivity). unfold ex_life in X. destruct (yrun _ _ _ _ _ ex_begin) as [[y1 h1]|]; [|discriminate]. destruct (y_fet y1) eqn:F; [|discriminate]. destruct (yrun _ _ _ _ y1 ex_more) as [[y2 h2]|] eqn:R; [|discriminate].
    exists y1, h1, y2, h2. repeat split; auto. congruence.
Qed.
(** The three clients of [ex_who]: the stranger's ping with an id of one byte
    ends a client. *)
Definition ex_bad : nev := NStranger addr_x addr_b (kmsg_bytes (ping_query [x01] [x61])).
Lemma ex_fit : forall a c, ex_who a = Some c -> fit a c.
Proof.
  intros a c W. split; [eapply ex_sound; exact W|]. unfold ex_who in W.
  repeat (destruct (addr_eqb _ _) eqn:E in W; [apply addr_eqb_spec in E; subst a; injection W as <-; split; [vm_compute; reflexivity|]; split; [constructor; vm_compute; reflexivity|repeat constructor]|clear E]). discriminate.
Qed.
Example C130_many_example : (forall a c, ex_who a = Some c -> fit a c) /\ (forall e, In e (ex_ping ++ [ex_bad]) -> proper e) /\
  exists n1 n2, nrun ex_sha ex_who (net_start ex_who) ex_ping = Some n1 /\ working n1 addr_b /\ nrun ex_sha ex_who n1 [ex_bad] = Some n2 /\ ~ working n2 addr_b /\ fatal n1 addr_b ex_bad.
Proof.
  split; [exact ex_fit|]. split.
  - intros e I. unfold ex_ping, ex_bad in I. cbn [app In] in I. repeat (destruct I as [<-|I]; [first [exact Logic.I|reflexivity]|]). destruct I.
  - destruct (C129_example) as (_ & _ & n & d & n1 & n2 & R & _ & _ & L & _ & _ & ST & D). exists n, n2. fold ex_bad in ST.
    assert (X : exists n, nrun ex_sha ex_who (net_start ex_who) ex_ping = Some n /\ (match y_phase (h_sys (n_hosts n addr_b)) with PGone => false | _ => true end && match kmsg_from_bytes (recv_into (h_buf (n_hosts n addr_b)) (kmsg_bytes (ping_query [x01] [x61]))) with Panic => true | _ => false end) = true) by (apply checked; vm_compute; reflexivity).
    destruct X as (n' & R' & X). rewrite R in R'. injection R' as <-. apply andb_true_iff in X. destruct X as (X1 & X2). split; [exact R|]. split; [split; [exact L|]; intro E; rewrite E in X1; discriminate|].
    split; [cbn [nrun]; rewrite ST; reflexivity|]. split; [intros (Y & _); exact (D Y)|]. split; [reflexivity|]. destruct (kmsg_from_bytes _); congruence.
Qed.

Print Assumptions C130_goes_on.
Print Assumptions C130_causes.
Print Assumptions C130_fatal.
