(** C138: the DHT of the whole client works as long as the download does. *)
From Coq Require Import List NArith ZArith Lia Bool Arith Permutation.
From Coq Require Import Init.Byte.
From Verif Require Import Base Assoc BitmapModel IdModel WireModel TableModel TableSpec PeersModel PeersSpec PeersProofs BencodeModel TrackerModel ManagerModel ManagerSpec ManagerProofs2 ManagerProps
  KrpcModel KrpcSpec DhtModel DhtSpec DhtMgrModel FetchModel TaskModel Utf8Proofs ReadProps DhtLifeProps DhtSysModel DhtSysSpec DhtSysProps ClientModel ClientSpec ClientProps ClientInvProps ClientOriginProps ClientSlotProps.
Import ListNotations.
Set Implicit Arguments.

(** Messages as the decoder gives them, and a generator that gives what a refresh
    asks for. *)
Definition given (e : cev) : Prop :=
  match e with
  | CDht (YIn from m) => wf_addr from /\ sized m
  | CDht (YTurn _ _ (STick draws)) => plenty draws
  | _ => True
  end.
(** Both tasks of the DHT run. *)
Definition dht_works (s : client) : Prop := y_sock (q_dht s) <> None /\ y_phase (q_dht s) <> PGone.
(** The manager has ended and so have all connections. *)
Definition deserted (s : client) : Prop := q_mgr s = None /\ forall x, In x (q_cons s) -> pc_con x = false.

Section client.
Variable sha : bytes -> bytes.
Variable usize_max : nat.
Variable cap : caps.
Variable tcp_port : N.
Variable cfgs : list tracker_cfg.
Variable hashes : list ID.
Notation step := (cstep sha usize_max cap tcp_port cfgs).
Notation run := (crun sha usize_max cap tcp_port cfgs).

Lemma peers_well : forall y m, well y -> NoDup (map fst m) -> well (with_peers y m).
Proof. intros y m [A B C D E F G H I J] N. split; cbn; auto. Qed.
Lemma not_telling : forall s, can_tell s = false -> deserted s.
Proof.
  intros s H. unfold can_tell in H. destruct (q_mgr s) eqn:M; [discriminate|]. split; [exact M|]. intros x I. destruct (pc_con x) eqn:E; [|reflexivity]. rewrite <- H. symmetry. apply existsb_exists. eauto.
Qed.
(** Nobody comes back. *)
Lemma deserted_step : forall s e s' o, deserted s -> step s e = Some (s', o) -> deserted s'.
Proof.
  intros s e s' o (M & C) H.
  assert (U : forall i x, pc_con x = false -> forall y, In y (upd (q_cons s) i x) -> pc_con y = false).
  { intros i x X y I. apply upd_inv in I. destruct I as [->|I]; auto. }
  unfold cstep in H. destruct (q_exit s); [discriminate|].
  destruct e as [sent| |i ok|i m|i|i|i lk|i ix bs|i|e|i now e| | |ks ks'].
  - rewrite M in H. discriminate.
  - rewrite M in H. discriminate.
  - destruct (nth_error (q_cons s) i) as [x|] eqn:N; [|discriminate]. rewrite (C x) in H by (eapply nth_error_In; eauto). discriminate.
  - destruct (nth_error (q_cons s) i) as [x|] eqn:N; [|discriminate]. rewrite (C x) in H by (eapply nth_error_In; eauto). discriminate.
  - destruct (nth_error (q_cons s) i) as [x|] eqn:N; [|discriminate]. rewrite (C x) in H by (eapply nth_error_In; eauto). discriminate.
  - destruct (nth_error (q_cons s) i) as [x|] eqn:N; [|discriminate]. destruct (_ && _); [|discriminate]. injection H as <- <-. split; [exact M|]. cbn [with_cons q_cons]. apply U. cbn. apply C. eapply nth_error_In; eauto.
  - destruct (nth_error (q_cons s) i) as [x|] eqn:N; [|discriminate]. destruct (pc_dl x); [|discriminate]. injection H as <- <-. split; [exact M|]. cbn [with_poison with_cons q_cons]. apply U. cbn. apply C. eapply nth_error_In; eauto.
  - destruct (nth_error (q_cons s) i) as [x|] eqn:N; [|discriminate]. destruct (pc_dl x); [|discriminate]. unfold tell_mgr in H. rewrite M in H. injection H as <- <-. split; auto.
  - destruct (nth_error (q_cons s) i) as [x|] eqn:N; [|discriminate]. rewrite M in H. rewrite (C x) in H by (eapply nth_error_In; eauto). discriminate.
  - destruct (dht_ok s e); [|discriminate]. destruct (ystep _ _ _ _ _ _) as [[y o']|]; [|discriminate]. injection H as <- <-. split; auto.
  - destruct (nth_error cfgs i) as [c|]; [|discriminate]. destruct (nth_error (q_trk s) i) as [t|]; [|discriminate]. destruct (trk_ok s e); [|discriminate]. destruct (session_step _ _ _ _ _) as [[t' o']|]; [|discriminate]. injection H as <- <-. split; auto.
  - destruct (q_sig s); [discriminate|]. injection H as <- <-. split; auto.
  - destruct (_ && _); [|discriminate]. injection H as <- <-. split; auto.
  - injection H as <- <-. split; [cbn; rewrite M; reflexivity|exact C].
Qed.
Lemma deserted_run : forall es s s' h, deserted s -> run s es = Some (s', h) -> deserted s'.
Proof.
  induction es as [|e es IH]; intros s s' h D R; cbn [crun] in R; [injection R as <- <-; exact D|]. destruct (step s e) as [[s1 o]|] eqn:S; [|discriminate]. destruct (run s1 es) as [[s2 h']|] eqn:E; [|discriminate]. injection R as <- <-.
  eapply IH; [eapply deserted_step; eauto|exact E].
Qed.

Lemma port_well : forall y a y' o, well y -> ystep sha usize_max cap tcp_port y (YPort a) = Some (y', o) -> well y' /\ (searching y -> searching y').
Proof. intros y a y' o W H. eapply ystep_well; [exact W| |exact H]. exact I. Qed.
Lemma cstep_well : forall s e s' o, step s e = Some (s', o) -> given e -> e <> CDht YSockErr -> q_sig s = false -> well (q_dht s) -> NoDup (map fst (y_peers (q_dht s'))) ->
  (well (q_dht s') /\ (searching (q_dht s) -> searching (q_dht s'))) \/ deserted s.
Proof.
  intros s e s' o H G NE SG W ND.
  assert (P : forall y m, y = with_peers (q_dht s) m -> NoDup (map fst (y_peers y)) -> (well y /\ (searching (q_dht s) -> searching y)) \/ deserted s).
  { intros y m -> N. left. split; [apply peers_well; auto|auto]. }
  assert (Q : q_dht s' = q_dht s -> (well (q_dht s') /\ (searching (q_dht s) -> searching (q_dht s'))) \/ deserted s) by (intros ->; auto).
  assert (T : forall z p c z', tell_mgr z p c = Some z' -> q_dht z' = q_dht z). { intros z p c z' T. unfold tell_mgr in T. destruct (q_mgr z); [|injection T as <-; reflexivity]. destruct (_ <? _); [|discriminate]. injection T as <-. reflexivity. }
  unfold cstep in H. destruct (q_exit s); [discriminate|].
  destruct e as [sent| |i ok|i m|i|i|i lk|i ix bs|i|e|i now e| | |ks ks'].
  - destruct (q_mgr s) as [m|]; [|discriminate]. destruct (m_refresh _ _) as [[[m1 tab] o1]| |]; [destruct (m_assign m1 sent) as [[m2 o2]| |]| |]; injection H as <- <-; cbn [with_mgr with_sys q_dht] in *; auto; eapply P; eauto.
  - destruct (q_mgr s); [|discriminate]. destruct (q_rec s) as [|[p c] q]; [discriminate|]. injection H as <- <-. auto.
  - destruct (nth_error (q_cons s) i) as [x|]; [|discriminate]. destruct (_ && _); [|discriminate]. destruct ok; [injection H as <- <-; auto|]. destruct (tell_mgr s _ _) as [s1|] eqn:E; [|discriminate]. injection H as <- <-. apply Q. cbn. eapply T; eauto.
  - destruct (nth_error (q_cons s) i) as [x|]; [|discriminate]. destruct (_ && _); [|discriminate]. destruct (deliver_all _ _ _ _ _ _) as [s1|] eqn:D; [|discriminate]. cbn [option_map] in H. injection H as <- <-.
    destruct m; cbn [WireModel.handle_message con_of_message deliver_all deliver] in D;
      try (injection D as <-; auto; fail); try (destruct (tell_mgr s _ _) as [s2|] eqn:E; [|discriminate]; injection D as <-; apply Q; eapply T; eauto; fail).
    destruct (dht_alive (q_dht s)); [|injection D as <-; auto]. destruct (ystep _ _ _ _ _ _) as [[y o']|] eqn:Y; [|discriminate]. cbn [option_map fst] in D. injection D as <-. left. eapply port_well; eauto.
  - destruct (nth_error (q_cons s) i) as [x|]; [|discriminate]. destruct (_ && _); [|discriminate]. injection H as <- <-. auto.
  - destruct (nth_error (q_cons s) i) as [x|]; [|discriminate]. destruct (_ && _); [|discriminate]. injection H as <- <-. auto.
  - destruct (nth_error (q_cons s) i) as [x|]; [|discriminate]. destruct (pc_dl x); [|discriminate]. injection H as <- <-. auto.
  - destruct (nth_error (q_cons s) i) as [x|]; [|discriminate]. destruct (pc_dl x); [|discriminate]. destruct (tell_mgr s _ _) as [s1|] eqn:E; [|discriminate]. injection H as <- <-. apply Q. eapply T; eauto.
  - destruct (nth_error (q_cons s) i) as [x|]; [|discriminate]. destruct (q_mgr s); [discriminate|]. destruct (_ && _); [|discriminate]. injection H as <- <-. auto.
  - destruct (dht_ok s e) eqn:OK; [|discriminate]. destruct (ystep _ _ _ _ _ _) as [[y o']|] eqn:Y; [|discriminate]. cbn [option_map fst snd] in H. injection H as <- <-. cbn [with_sys q_dht] in *.
    assert (C : calm e \/ deserted s).
    { destruct e as [from m|t'| | | |now pick sr| |now2 now3| | | | |ad|q]; cbn [calm given dht_ok] in *; auto; try congruence. destruct sr; auto; [right; apply not_telling; destruct (can_tell s); [discriminate|reflexivity]|congruence]. }
    destruct C as [C|C]; [left|right; exact C]. exact (@ystep_well sha usize_max cap tcp_port _ _ _ _ W C Y).
  - destruct (nth_error cfgs i) as [c|]; [|discriminate]. destruct (nth_error (q_trk s) i) as [t|]; [|discriminate]. destruct (trk_ok s e); [|discriminate]. destruct (session_step _ _ _ _ _) as [[t' o']|]; [|discriminate]. cbn [option_map fst snd] in H. injection H as <- <-. cbn [with_sys q_dht] in *. eapply P; eauto.
  - rewrite SG in H. injection H as <- <-. auto.
  - destruct (_ && _); [|discriminate]. injection H as <- <-. auto.
  - injection H as <- <-. cbn [with_sys q_dht] in *. eapply P; eauto.
Qed.
Lemma step_sig : forall s e s' o, step s e = Some (s', o) -> q_sig s = false -> e <> CSignal -> q_sig s' = false.
Proof.
  intros s e s' o H SG NE.
  assert (T : forall z p c z', tell_mgr z p c = Some z' -> q_sig z' = q_sig z). { intros z p c z' T. unfold tell_mgr in T. destruct (q_mgr z); [|injection T as <-; reflexivity]. destruct (_ <? _); [|discriminate]. injection T as <-. reflexivity. }
  unfold cstep in H. destruct (q_exit s); [discriminate|].
  destruct e as [sent| |i ok|i m|i|i|i lk|i ix bs|i|e|i now e| | |ks ks'].
  - destruct (q_mgr s) as [m|]; [|discriminate]. destruct (m_refresh _ _) as [[[m1 tab] o1]| |]; [destruct (m_assign m1 sent) as [[m2 o2]| |]| |]; injection H as <- <-; exact SG.
  - destruct (q_mgr s); [|discriminate]. destruct (q_rec s) as [|[p c] q]; [discriminate|]. injection H as <- <-. exact SG.
  - destruct (nth_error (q_cons s) i) as [x|]; [|discriminate]. destruct (_ && _); [|discriminate]. destruct ok; [injection H as <- <-; exact SG|]. destruct (tell_mgr s _ _) as [s1|] eqn:E; [|discriminate]. injection H as <- <-. cbn. rewrite (T _ _ _ _ E). exact SG.
  - destruct (nth_error (q_cons s) i) as [x|]; [|discriminate]. destruct (_ && _); [|discriminate]. destruct (deliver_all _ _ _ _ _ _) as [s1|] eqn:D; [|discriminate]. cbn [option_map] in H. injection H as <- <-.
    destruct m; cbn [WireModel.handle_message con_of_message deliver_all deliver] in D;
      try (injection D as <-; exact SG); try (destruct (tell_mgr s _ _) as [s2|] eqn:E; [|discriminate]; injection D as <-; rewrite (T _ _ _ _ E); exact SG).
    destruct (dht_alive (q_dht s)); [|injection D as <-; exact SG]. destruct (ystep _ _ _ _ _ _) as [[y o']|] eqn:Y; [|discriminate]. cbn [option_map fst] in D. injection D as <-. exact SG.
  - destruct (nth_error (q_cons s) i) as [x|]; [|discriminate]. destruct (_ && _); [|discriminate]. injection H as <- <-. exact SG.
  - destruct (nth_error (q_cons s) i) as [x|]; [|discriminate]. destruct (_ && _); [|discriminate]. injection H as <- <-. exact SG.
  - destruct (nth_error (q_cons s) i) as [x|]; [|discriminate]. destruct (pc_dl x); [|discriminate]. injection H as <- <-. exact SG.
  - destruct (nth_error (q_cons s) i) as [x|]; [|discriminate]. destruct (pc_dl x); [|discriminate]. destruct (tell_mgr s _ _) as [s1|] eqn:E; [|discriminate]. injection H as <- <-. rewrite (T _ _ _ _ E). exact SG.
  - destruct (nth_error (q_cons s) i) as [x|]; [|discriminate]. destruct (q_mgr s); [discriminate|]. destruct (_ && _); [|discriminate]. injection H as <- <-. exact SG.
  - destruct (dht_ok s e) eqn:OK; [|discriminate]. destruct (ystep _ _ _ _ _ _) as [[y o']|] eqn:Y; [|discriminate]. injection H as <- <-. exact SG.
  - destruct (nth_error cfgs i) as [c|]; [|discriminate]. destruct (nth_error (q_trk s) i) as [t|]; [|discriminate]. destruct (trk_ok s e); [|discriminate]. destruct (session_step _ _ _ _ _) as [[t' o']|]; [|discriminate]. injection H as <- <-. exact SG.
  - congruence.
  - rewrite SG in H. discriminate.
  - injection H as <- <-. exact SG.
Qed.
(** From any state a run can reach. *)
Lemma goes_on : forall secret info own fs_ok t now es2 es1 s0 s1 h1 s2 h2, s0 = client_start cfgs own secret info hashes fs_ok t now -> run s0 es1 = Some (s1, h1) -> run s1 es2 = Some (s2, h2) ->
  (forall e, In e es2 -> given e) -> ~ In (CDht YSockErr) es2 -> ~ In CSignal es2 -> q_sig s1 = false -> well (q_dht s1) ->
  (well (q_dht s2) /\ q_sig s2 = false /\ (searching (q_dht s1) -> searching (q_dht s2))) \/ deserted s2.
Proof.
  intros secret info own fs_ok t now es2. induction es2 as [|e es2 IH]; intros es1 s0 s1 h1 s2 h2 -> R1 R2 GV NE NS SG W; cbn [crun] in R2; [injection R2 as <- <-; left; auto|].
  destruct (step s1 e) as [[sa o]|] eqn:S; [|discriminate]. destruct (run sa es2) as [[sb h']|] eqn:R; [|discriminate]. injection R2 as <- <-.
  assert (RA : run (client_start cfgs own secret info hashes fs_ok t now) (es1 ++ [e]) = Some (sa, h1 ++ [(e, o)])). { eapply crun_app; [exact R1|]. apply crun_one. exact S. }
  destruct (@cstep_well _ _ _ _ S (GV _ (or_introl eq_refl))) as [(WA & SA)|D].
  - intros ->. apply NE. left. reflexivity.
  - exact SG.
  - exact W.
  - exact (sr_nodup (oi_src (@oinv_run sha usize_max cap tcp_port cfgs hashes secret info own fs_ok t now _ _ _ RA))).
  - destruct (@IH _ _ _ _ _ _ eq_refl RA R) as [(A & B & C)|D]; [| | | |exact WA|left; split; [exact A|]; split; [exact B|]; intro Z; apply C; apply SA; exact Z|right; exact D].
    + intros x I. apply GV. right. exact I.
    + intro I. apply NE. right. exact I.
    + intro I. apply NS. right. exact I.
    + apply (@step_sig s1 e sa o); auto. intros ->. apply NS. left. reflexivity.
  - right. eapply deserted_run; [eapply deserted_step; [exact D|exact S]|exact R].
Qed.

(** ** C138 *)
(** In the whole client - manager, connections, downloaders, trackers, DHT - as
    long as the manager or a connection is there, the socket works and nobody
    presses Ctrl-C, both tasks of the DHT go on, and so does the peer search once
    it has begun, whatever peers, trackers and nodes send. *)
Theorem C138_goes_on : forall own secret info fs_ok t now es1 es2 s1 h1 s2 h2, reachable t -> wf_id info ->
  run (client_start cfgs own secret info hashes fs_ok t now) es1 = Some (s1, h1) -> run s1 es2 = Some (s2, h2) ->
  (forall e, In e (es1 ++ es2) -> given e) -> ~ In (CDht YSockErr) (es1 ++ es2) -> ~ In CSignal (es1 ++ es2) ->
  q_mgr s2 <> None \/ (exists x, In x (q_cons s2) /\ pc_con x = true) ->
  dht_works s2 /\ (y_fet (q_dht s1) <> None -> y_fet (q_dht s2) <> None).
Proof.
  intros own secret info fs_ok t now es1 es2 s1 h1 s2 h2 RT WI R1 R2 G NE NS A.
  assert (ND : ~ deserted s2). { intros (M & C). destruct A as [A|(x & I & A)]; [auto|]. rewrite (C _ I) in A. discriminate. }
  destruct (@goes_on secret info own fs_ok t now es1 [] _ _ _ _ _ eq_refl eq_refl R1) as [(W1 & G1 & _)|D].
  - intros e I. apply G. apply in_or_app. auto.
  - intro I. apply NE. apply in_or_app. auto.
  - intro I. apply NS. apply in_or_app. auto.
  - reflexivity.
  - cbn [client_start q_dht]. apply start_well; auto. constructor.
  - destruct (@goes_on secret info own fs_ok t now es2 es1 _ _ _ _ _ eq_refl R1 R2) as [(W2 & _ & S2)|D]; auto.
    + intros e I. apply G. apply in_or_app. auto.
    + intro I. apply NE. apply in_or_app. auto.
    + intro I. apply NS. apply in_or_app. auto.
    + split; [split; [apply (w_sock W2)|apply (w_dht W2)]|exact S2].
    + destruct (ND D).
  - destruct ND. eapply deserted_run; eauto.
Qed.
(** So a run in which no peer sends what ends the manager (C94), nothing fails
    and nobody presses Ctrl-C keeps manager, DHT and search running. *)
Theorem C138_harmless : forall own secret info fs_ok t now es1 es2 s1 h1 s2 h2, reachable t -> wf_id info -> let s0 := client_start cfgs own secret info hashes fs_ok t now in
  q_mgr s0 <> None -> run s0 es1 = Some (s1, h1) -> run s1 es2 = Some (s2, h2) ->
  (forall e, In e (es1 ++ es2) -> given e) -> ~ In (CDht YSockErr) (es1 ++ es2) -> ~ In CSignal (es1 ++ es2) ->
  forallb (harmless (length hashes)) (es1 ++ es2) = true -> (N.of_nat (length (filter tells_pieces (es1 ++ es2))) < 65535)%N ->
  q_mgr s2 <> None /\ dht_works s2 /\ (y_fet (q_dht s1) <> None -> y_fet (q_dht s2) <> None).
Proof.
  intros own secret info fs_ok t now es1 es2 s1 h1 s2 h2 RT WI s0 M0 R1 R2 G NE NS HA TE.
  assert (M : q_mgr s2 <> None). { eapply (@C94_survives_partial sha usize_max cap tcp_port cfgs hashes own secret info fs_ok t now (es1 ++ es2) s2 (h1 ++ h2)); auto. eapply crun_app; [exact R1|exact R2]. }
  split; [exact M|]. eapply C138_goes_on; eauto.
Qed.
End client.

(** A connected peer tells its DHT port, is pinged there and answers; the search
    starts; then a question comes and the connection is lost. *)
Definition ex_node_at : addr := mk_addr x01 x02 x03 x04 6882.
Definition ex_started : list cev := ex_meet ++
  [CRecv 0 (Port 6882); CDht (YTurn 0 ex_pick SPort); CDht YSend; CDht (YCheck 0 0); CDht (YCmd [x61]); CDht YOut; CDht (YIn ex_node_at (MResp [x61] x72 (RPing ex_node))); CDht YOut; CDht (YTurn 0 ex_pick SResp); CDht (YCheck 0 0)].
Definition ex_goes : list cev :=
  [CRecv 0 (Have 0); CTake; CDht (YIn ex_peer (MQuery [x62] x71 [] (AFindNode ex_node ex_own))); CDht YOut; CDht (YTurn 0 ex_pick SQuery); CDht YSend; CDht (YCheck 0 0); CLost 0].
Definition ex_both : bool :=
  match crun (fun x => x) 100 CAPS 6881 [ex_cfg] (ex_client ex_own) ex_started with
  | Some (s1, _) => match y_fet (q_dht s1), crun (fun x => x) 100 CAPS 6881 [ex_cfg] s1 ex_goes with Some _, Some (s2, _) => match q_mgr s2 with Some _ => true | None => false end | _, _ => false end
  | None => false
  end.
Example C138_example : reachable (t_default ex_own) /\ wf_id ex_info /\ (forall e, In e (ex_started ++ ex_goes) -> given e) /\ ~ In (CDht YSockErr) (ex_started ++ ex_goes) /\ ~ In CSignal (ex_started ++ ex_goes) /\
  forallb (harmless 1) (ex_started ++ ex_goes) = true /\ length (filter tells_pieces (ex_started ++ ex_goes)) = 1 /\ q_mgr (ex_client ex_own) <> None /\
  exists s1 h1 s2 h2, crun (fun x => x) 100 CAPS 6881 [ex_cfg] (ex_client ex_own) ex_started = Some (s1, h1) /\ y_fet (q_dht s1) <> None /\
    crun (fun x => x) 100 CAPS 6881 [ex_cfg] s1 ex_goes = Some (s2, h2) /\ q_mgr s2 <> None.
Proof.
  split; [constructor; reflexivity|]. split; [reflexivity|]. split; [|split; [|split]].
  - intros e I. unfold ex_started, ex_goes, ex_meet in I. cbn [app In] in I.
    repeat (destruct I as [<-|I]; [cbn [given]; first [exact Logic.I|idtac]|]); [| |destruct I].
    + split; [reflexivity|]. split; [right; left; reflexivity|reflexivity].
    + split; [reflexivity|]. split; [left; reflexivity|]. split; [apply utf8_ok_iff; vm_compute; reflexivity|split; reflexivity].
  - intro I. unfold ex_started, ex_goes, ex_meet in I. cbn [app In] in I. repeat (destruct I as [I|I]; [discriminate|]). destruct I.
  - intro I. unfold ex_started, ex_goes, ex_meet in I. cbn [app In] in I. repeat (destruct I as [I|I]; [discriminate|]). destruct I.
  - split; [vm_compute; reflexivity|]. split; [vm_compute; reflexivity|]. split; [vm_compute; discriminate|].
    assert (X : ex_both = true) by (vm_compute; reflexivity). unfold ex_both in X. destruct (crun _ _ _ _ _ _ ex_started) as [[s1 h1]|]; [|discriminate]. destruct (y_fet (q_dht s1)) eqn:F; [|discriminate]. destruct (crun _ _ _ _ _ s1 ex_goes) as [[s2 h2]|] eqn:R; [|discriminate].
    exists s1, h1, s2, h2. split; [reflexivity|]. split; [congruence|]. split; [exact R|]. destruct (q_mgr s2); discriminate.
Qed.

Print Assumptions C138_goes_on.
Print Assumptions C138_harmless.
