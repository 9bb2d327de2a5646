(** C95, the end itself: [main] returns only after everything that was told to
    shut down has ended, and nothing shuts down before Ctrl-C. C99: peers that
    are named get connected to. *)
From Coq Require Import List NArith ZArith Lia Bool Arith Permutation.
From Coq Require Import Init.Byte.
From Verif Require Import Base Assoc BitmapModel BitmapProofs IdModel WireModel TableModel PeersModel PeersSpec PeersProofs PeersProps BencodeModel TrackerModel ManagerModel ManagerSpec ManagerProofs ManagerProofs2 ManagerProps
  KrpcModel DhtModel DhtSpec DhtMgrModel FetchModel TaskModel DhtSysModel DhtSysSpec DhtSysProps ClientModel ClientSpec ClientProps ClientInvProps ClientSlotProps.
Import ListNotations.
Set Implicit Arguments.

Section client.
Variable sha : bytes -> bytes.
Variable usize_max : nat.
Variable cap : caps.
Variable tcp_port : N.
Variable cfgs : list tracker_cfg.
Variable hashes : list ID.
Notation step := (cstep sha usize_max cap tcp_port cfgs).
Notation run := (crun sha usize_max cap tcp_port cfgs).

(** Nothing the DHT does before the signal stores the table. *)
Lemma ystep_stored : forall y e y' o, ystep sha usize_max cap tcp_port y e = Some (y', o) -> (forall now pick, e <> YTurn now pick SShutdown) -> y_stored y' = y_stored y.
Proof.
  intros y e y' o H NS. destruct e as [from m|t'| | | |now pick sr| |now2 now3| | | | |ad|q]; cbn [ystep] in H.
  - inv_step H. match goal with |- y_stored (after_sock ?z ?r) = _ => rewrite (proj1 (after_frame z r)) end. reflexivity.
  - inv_step H. match goal with |- y_stored (after_sock ?z ?r) = _ => rewrite (proj1 (after_frame z r)) end. reflexivity.
  - destruct (y_sock y) as [d|]; [|discriminate]. destruct (y_outs y) as [|x os]; [discriminate|]. apply out_frame in H. apply H.
  - inv_step H. reflexivity.
  - inv_step H. reflexivity.
  - destruct (y_phase y); try discriminate.
    assert (T : forall z i, y_stored (dht_turn z now pick i) = y_stored z). { intros z i. unfold dht_turn. destruct (gstep _ _ _ _) as [[? ?]| |]; reflexivity. }
    destruct sr; inv_step H; rewrite ?T; try reflexivity. destruct (NS now pick). reflexivity.
  - inv_step H; try match goal with E : send_cmd _ _ _ _ = Some _ |- _ => unfold send_cmd in E; destruct (_ <? _); [|discriminate]; injection E as <- end; reflexivity.
  - inv_step H; reflexivity.
  - inv_step H; reflexivity.
  - inv_step H; reflexivity.
  - inv_step H; reflexivity.
  - inv_step H; try match goal with E : send_cmd _ _ _ _ = Some _ |- _ => unfold send_cmd in E; destruct (_ <? _); [|discriminate]; injection E as <- end; reflexivity.
  - inv_step H; reflexivity.
  - inv_step H; reflexivity.
Qed.

Definition quiet (h : list (cev * list cout)) (s : client) : Prop :=
  (q_sig s = true -> In CSignal (map fst h)) /\
  (q_sig s = false -> q_exit s = false /\ y_stored (q_dht s) = None /\ (forall a, In (CGet a) (seen h) -> a_event a <> Some Stopped) /\ forall t, In t (q_trk s) -> a_event (t_ann t) <> Some Stopped) /\
  (q_exit s = true -> q_sig s = true /\ dht_alive (q_dht s) = false /\ forall t, In t (q_trk s) -> t_phase t = Ended \/ t_phase t = Crashed).
Lemma session_quiet : forall c t now d e t' o, session_step c t now d e = Some (t', o) -> e <> Shutdown -> a_event (t_ann t) <> Some Stopped ->
  a_event (t_ann t') <> Some Stopped /\ forall a, In (Get a) o -> a_event a <> Some Stopped.
Proof.
  intros c t now d e t' o H NS A.
  assert (AG : forall u ev, ev <> Some Stopped -> announce_again c t now d u ev = (t', o) -> a_event (t_ann t') <> Some Stopped /\ forall a, In (Get a) o -> a_event a <> Some Stopped).
  { intros u ev NE G. unfold announce_again in G. destruct (left_bytes c d); injection G as <- <-; cbn; (split; [auto|]); intros b IN; try destruct IN as [IN|[]]; try (injection IN as <-); cbn; auto; destruct IN. }
  unfold session_step in H. destruct e, (t_phase t); try discriminate; try (injection H as <- <-; cbn; split; [auto|]; intros b IN; try destruct IN as [IN|[]]; try discriminate; try destruct IN; fail); try congruence.
  - injection H as <- <-. cbn. split; [destruct (a_tracker_id (t_ann t)), (r_tracker_id r); auto|]. intros b [IN|[]]. discriminate.
  - destruct (_ <=? _)%N; [|discriminate]. injection H as <- <-. cbn. split; [auto|]. intros b [IN|[]]. injection IN as <-. auto.
  - destruct (_ <=? _)%N; [|discriminate]. injection H as H. eapply AG; [|exact H]. discriminate.
  - destruct (_ =? _); [discriminate|]. destruct (_ <? _).
    + injection H as <- <-. cbn. split; [auto|]. intros a [].
    + injection H as H. eapply AG; [|exact H]. discriminate.
Qed.
Lemma seen_app : forall h e o, seen (h ++ [(e, o)]) = seen h ++ o.
Proof. intros. unfold seen. rewrite flat_map_app. cbn. rewrite app_nil_r. reflexivity. Qed.
Lemma deliver_more : forall p m s s', deliver_all sha usize_max cap tcp_port s (WireModel.handle_message p m) = Some s' ->
  q_sig s' = q_sig s /\ q_exit s' = q_exit s /\ q_trk s' = q_trk s /\ y_stored (q_dht s') = y_stored (q_dht s) /\ y_phase (q_dht s') = y_phase (q_dht s).
Proof.
  intros p m s s' H.
  assert (T : forall c, tell_mgr s p c = Some s' -> q_sig s' = q_sig s /\ q_exit s' = q_exit s /\ q_trk s' = q_trk s /\ y_stored (q_dht s') = y_stored (q_dht s) /\ y_phase (q_dht s') = y_phase (q_dht s)).
  { intros c T. unfold tell_mgr in T. destruct (q_mgr s); [|injection T as <-; auto]. destruct (_ <? _); [|discriminate]. injection T as <-. cbn. auto. }
  destruct m; cbn [WireModel.handle_message con_of_message deliver_all deliver] in H;
    try (injection H as <-; auto; fail); try (destruct (tell_mgr s p _) as [s1|] eqn:E; [|discriminate]; injection H as <-; eapply T; eauto; fail).
  destruct (dht_alive (q_dht s)); [|injection H as <-; auto]. destruct (ystep _ _ _ _ _ _) as [[y o]|] eqn:Y; [|discriminate]. cbn [option_map fst] in H. injection H as <-. cbn [with_sys q_sig q_exit q_trk q_dht].
  sp; auto; [eapply ystep_stored; [exact Y|discriminate]|]. cbn [ystep] in Y. destruct (_ && _); [|discriminate]. injection Y as <- _. reflexivity.
Qed.
Lemma quiet_step : forall h s e s' o, quiet h s -> step s e = Some (s', o) -> quiet (h ++ [(e, o)]) s'.
Proof.
  intros h s e s' o (SG & NS & EX) H.
  assert (F : forall z, q_exit s = false -> q_sig z = q_sig s -> q_exit z = false -> q_trk z = q_trk s -> y_stored (q_dht z) = y_stored (q_dht s) -> (forall a, ~ In (CGet a) o) -> quiet (h ++ [(e, o)]) z).
  { intros z X A B C D G. rewrite <- X in B. split; [|split].
    - rewrite A. intro Z. rewrite map_app. apply in_or_app. left. auto.
    - rewrite A, B, C, D. intro Z. destruct (NS Z) as (N1 & N2 & N3 & N4). sp; auto. intros a IN. rewrite seen_app in IN. apply in_app_or in IN. destruct IN as [IN|IN]; [auto|]. destruct (G _ IN).
    - rewrite B, X. discriminate. }
  unfold cstep in H. destruct (q_exit s) eqn:X; [discriminate|].
  destruct e as [sent| |i ok|i m|i|i|i lk|i ix bs|i|e|i now e| | |ks ks'].
  - destruct (q_mgr s) as [m|]; [|discriminate].
    assert (T : forall l a, ~ In (CGet a) (flat_map told l)). { induction l as [|x l IH]; intros a IN; [destruct IN|]. cbn in IN. apply in_app_or in IN. destruct IN as [IN|IN]; [|eapply IH; eauto]. destruct x; cbn in IN; [destruct IN as [IN|[]]; discriminate|destruct IN]. }
    destruct (m_refresh _ _) as [[[m1 tab] o1]| |]; [destruct (m_assign m1 sent) as [[m2 o2]| |]| |]; injection H as <- <-; apply F; auto.
  - destruct (q_mgr s); [|discriminate]. destruct (q_rec s) as [|[p c] q]; [discriminate|]. injection H as <- <-. apply F; auto.
  - destruct (nth_error (q_cons s) i) as [x|]; [|discriminate]. destruct (_ && _); [|discriminate]. destruct ok; [injection H as <- <-; apply F; auto|].
    unfold tell_mgr in H. destruct (q_mgr s); [destruct (_ <? _); [|discriminate]|]; cbn [option_map] in H; injection H as <- <-; apply F; auto.
  - destruct (nth_error (q_cons s) i) as [x|]; [|discriminate]. destruct (_ && _); [|discriminate]. destruct (deliver_all _ _ _ _ _ _) as [s1|] eqn:D; [|discriminate]. cbn [option_map] in H. injection H as <- <-. destruct (deliver_more _ _ _ D) as (A & B & C & E & _). apply F; auto. congruence.
  - destruct (nth_error (q_cons s) i) as [x|]; [|discriminate]. destruct (_ && _); [|discriminate]. injection H as <- <-. apply F; auto.
  - destruct (nth_error (q_cons s) i) as [x|]; [|discriminate]. destruct (_ && _); [|discriminate]. injection H as <- <-. apply F; auto.
  - destruct (nth_error (q_cons s) i) as [x|]; [|discriminate]. destruct (pc_dl x); [|discriminate]. injection H as <- <-. apply F; auto.
  - destruct (nth_error (q_cons s) i) as [x|]; [|discriminate]. destruct (pc_dl x); [|discriminate]. unfold tell_mgr in H. destruct (q_mgr s); [destruct (_ <? _); [|discriminate]|]; cbn [option_map] in H; injection H as <- <-; apply F; auto.
  - destruct (nth_error (q_cons s) i) as [x|]; [|discriminate]. destruct (q_mgr s); [discriminate|]. destruct (_ && _); [|discriminate]. injection H as <- <-. apply F; auto.
  - destruct (dht_ok s e) eqn:OK; [|discriminate]. destruct (ystep _ _ _ _ _ _) as [[y o']|] eqn:Y; [|discriminate]. cbn [option_map fst snd] in H. injection H as <- <-. split; [|split].
    + intro Z. rewrite map_app. apply in_or_app. left. auto.
    + intro Z. cbn in Z. destruct (NS Z) as (N1 & N2 & N3 & N4). cbn [with_sys q_dht q_exit q_trk]. sp; auto.
      * rewrite <- N2. eapply ystep_stored; [exact Y|]. intros now pick ->. cbn in OK. congruence.
      * intros a IN. rewrite seen_app in IN. apply in_app_or in IN. destruct IN as [IN|IN]; [auto|]. apply in_map_iff in IN. destruct IN as (? & ? & _). discriminate.
    + cbn. rewrite X. discriminate.
  - destruct (nth_error cfgs i) as [c|]; [|discriminate]. destruct (nth_error (q_trk s) i) as [t|] eqn:N; [|discriminate]. destruct (trk_ok s e) eqn:OK; [|discriminate]. destruct (session_step _ _ _ _ _) as [[t' o']|] eqn:SS; [|discriminate]. cbn [option_map fst snd] in H. injection H as <- <-. split; [|split].
    + intro Z. rewrite map_app. apply in_or_app. left. auto.
    + intro Z. cbn in Z. destruct (NS Z) as (N1 & N2 & N3 & N4). cbn [with_sys with_trk with_peers q_dht q_exit q_trk y_stored].
      destruct (@session_quiet _ _ _ _ _ _ _ SS) as (Q1 & Q2); [intros ->; cbn in OK; congruence|apply N4; eapply nth_error_In; eauto|]. sp; auto.
      * intros a IN. rewrite seen_app in IN. apply in_app_or in IN. destruct IN as [IN|IN]; [auto|]. apply in_flat_map in IN. destruct IN as (x & IN & Y). destruct x; cbn in Y; [destruct Y as [Y|[]]; injection Y as ->; auto|destruct Y].
      * intros u U. apply upd_inv in U. destruct U as [->|U]; auto.
    + cbn. rewrite X. discriminate.
  - destruct (q_sig s) eqn:G; [discriminate|]. injection H as <- <-. split; [|split].
    + intros _. rewrite map_app. apply in_or_app. right. left. reflexivity.
    + discriminate.
    + cbn. discriminate.
  - destruct (q_sig s && negb (dht_alive (q_dht s)) && forallb trk_over (q_trk s)) eqn:G; [|discriminate]. injection H as <- <-. apply andb_true_iff in G. destruct G as (G & G3). apply andb_true_iff in G. destruct G as (G1 & G2). split; [|split].
    + intros _. rewrite map_app. apply in_or_app. left. auto.
    + discriminate.
    + intros _. cbn [q_sig q_dht q_trk]. split; [reflexivity|]. split; [apply negb_true_iff; exact G2|]. intros t T. rewrite forallb_forall in G3. specialize (G3 _ T). unfold trk_over in G3. destruct (t_phase t); auto; discriminate.
  - injection H as <- <-. apply F; auto.
Qed.
Lemma quiet_run : forall own secret info fs_ok t now es s h, run (client_start cfgs own secret info hashes fs_ok t now) es = Some (s, h) -> quiet h s.
Proof.
  intros own secret info fs_ok t now es s h R. refine (@crun_inv sha usize_max cap tcp_port cfgs quiet _ _ _ es s h R); [clear R|intros; eapply quiet_step; eauto].
  split; [discriminate|]. split; [|discriminate]. intros _. cbn [client_start q_exit q_dht q_trk]. sp; auto. intros u U. apply in_map_iff in U. destruct U as (c & <- & _). unfold open_trk, open_session. destruct (left_bytes _ _); cbn; discriminate.
Qed.

(** ** C95 *)
(** When [main] returns, Ctrl-C was pressed, the DHT task and all tracker sessions
    have ended, and nothing happens any more. *)
Theorem C95_end_orderly : forall own secret info fs_ok t now es s h, run (client_start cfgs own secret info hashes fs_ok t now) es = Some (s, h) -> q_exit s = true ->
  In CSignal es /\ y_phase (q_dht s) = PGone /\ (forall u, In u (q_trk s) -> t_phase u = Ended \/ t_phase u = Crashed) /\ forall e, step s e = None.
Proof.
  intros own secret info fs_ok t now es s h R X. destruct (quiet_run _ _ _ _ _ _ _ R) as (SG & _ & EX). destruct (EX X) as (G & D & T). rewrite <- (crun_events _ _ _ _ _ _ _ R). sp; auto.
  - unfold dht_alive in D. destruct (y_phase (q_dht s)); try discriminate. reflexivity.
  - intro e. unfold cstep. rewrite X. reflexivity.
Qed.
(** Before Ctrl-C no tracker is told that the client stops, the routing table is
    not stored and [main] does not return. *)
Theorem C95_nothing_early : forall own secret info fs_ok t now es s h, run (client_start cfgs own secret info hashes fs_ok t now) es = Some (s, h) -> ~ In CSignal es ->
  q_exit s = false /\ y_stored (q_dht s) = None /\ forall a, In (CGet a) (seen h) -> a_event a <> Some Stopped.
Proof.
  intros own secret info fs_ok t now es s h R X. destruct (quiet_run _ _ _ _ _ _ _ R) as (SG & NS & _). rewrite (crun_events _ _ _ _ _ _ _ R) in SG. destruct (q_sig s) eqn:G; [destruct (X (SG eq_refl))|]. destruct (NS eq_refl) as (A & B & C & _). auto.
Qed.

(** ** C99 *)
(** When there are places for all peers that wait, each of them that was not tried
    before is connected to at the manager's next look. *)
Theorem C99_waiting_connected_partial : forall own secret info fs_ok t now es s h m q sent, run (client_start cfgs own secret info hashes fs_ok t now) es = Some (s, h) ->
  q_exit s = false -> q_mgr s = Some m -> In q (waiting (y_peers (q_dht s))) -> ~ In q (connects h) ->
  length (waiting (y_peers (q_dht s))) + length (m_active m) <= 10 ->
  exists s' o, step s (CTick sent) = Some (s', o) /\ In (CConnect q) o.
Proof.
  intros own secret info fs_ok t now es s h m q sent R X M W F L. destruct (@jinv_run sha usize_max cap tcp_port cfgs hashes own secret info fs_ok t now es s h R) as (I & J).
  pose proof (reach_inv_m (ci_reach I M)) as [INV ND]. cbn [fst snd] in INV, ND. set (tab := y_peers (q_dht s)) in *.
  assert (WU : forall p, In p (waiting tab) <-> status_of tab p Unknown).
  { intro p. unfold waiting, status_of. rewrite in_map_iff. split.
    - intros ((p', st) & <- & Z). apply filter_In in Z. cbn [fst snd] in *. destruct Z as (Z & E). destruct st; try discriminate. exact Z.
    - intro Z. exists (p, Unknown). split; [reflexivity|]. apply filter_In. auto. }
  assert (LQ : 0 < length (waiting tab)) by (destruct (waiting tab); [destruct W|cbn; lia]).
  destruct (@C25_batch tab (m_inactive m) (10 - length (m_active m)) ND) as (t1 & t' & ps & B & N1 & ST & G).
  assert (U1 : forall p, status_of t1 p Unknown -> In p (waiting tab)).
  { intros p P. apply WU. apply ST in P. destruct (last_returned (m_inactive m) p) as [st|] eqn:LR; [|exact P]. subst st. apply last_returned_in in LR. discriminate (j_unr J _ _ M LR). }
  assert (Q1 : status_of t1 q Unknown).
  { apply ST. destruct (last_returned (m_inactive m) q) as [st|] eqn:LR; [|apply WU; exact W]. apply last_returned_in in LR. destruct F. apply (j_sub J q M). right. apply in_map_iff. exists (q, st). auto. }
  assert (PQ : In q ps).
  { destruct (in_dec addr_dec q ps) as [Y|Y]; [exact Y|]. exfalso. destruct (gb_maximal G) as [LP|LP]; [|destruct Y; eapply LP; [exact Q1|reflexivity]].
    assert (Z : length (q :: ps) <= length (waiting tab)); [|cbn [length] in Z; lia]. apply NoDup_incl_length; [constructor; [exact Y|apply (gb_nodup G)]|].
    intros p [<-|P]; [exact W|]. destruct (gb_eligible G p P) as (st & r & S1 & S2). pose proof (gb_priority G p st q Unknown P S1 S2 Y Q1 eq_refl) as LE. destruct st; cbn in S2; try discriminate; injection S2 as <-; try lia. apply U1. exact S1. }
  destruct (@refresh_spec _ m _ INV ND) as (m3 & tb & o1 & RF & INV3 & _ & _ & SP). fold tab in RF.
  assert (K : In q (map fst (m_active m3))).
  { destruct SP as [SP|(ps' & B' & _ & _ & K & _)].
    - exfalso. unfold m_refresh, MAX_ACTIVE_PEERS in RF. destruct (Nat.ltb_spec 10 (length (m_active m))); [lia|]. destruct (Nat.eqb_spec (10 - length (m_active m)) 0); [lia|]. rewrite B in RF. cbn [rbind fst snd] in RF.
      destruct (add_peers_spec ps (inv_inactive [] INV)) as (m4 & o4 & E' & _ & _ & K' & _). { cbn [with_inactive m_active]. pose proof (gb_size G). lia. }
      rewrite E' in RF. cbn [rmap fst snd] in RF. injection RF as -> -> ->. injection SP as -> -> ->. assert (Z : In q (map fst (m_active m))) by (apply K'; auto). apply F. apply (j_sub J q M). auto.
    - fold tab in B'. rewrite B in B'. injection B' as <- <-. apply K. auto. }
  assert (NA : ~ In q (map fst (m_active m))). { intro Z. apply F. apply (j_sub J q M). auto. }
  assert (NC : ~ In q (m_conn m)). { intro Z. apply F. rewrite (ci_hist I), (ci_conn I M). apply in_rev in Z. exact Z. }
  assert (SPN : In (OSpawn q) o1). { eapply (@C66_new_peers_contacted_partial hashes (m, tab) (m3, tb)); [exact (ci_reach I M)|cbn [sys_step fst snd]; rewrite RF; reflexivity|exact K|exact NA|exact NC]. }
  destruct (@m_assign_spec _ m3 sent INV3) as (m4 & o2 & AS & _). do 2 eexists. split; [unfold cstep; rewrite X, M; fold tab; rewrite RF, AS; reflexivity|].
  apply in_flat_map. exists (OSpawn q). split; [exact SPN|left; reflexivity].
Qed.
(** In particular the peers in a tracker's answer. *)
Theorem C99_tracker_connected_partial : forall own secret info fs_ok t now es s h m i c u at_ r q sent, run (client_start cfgs own secret info hashes fs_ok t now) es = Some (s, h) ->
  q_exit s = false -> q_mgr s = Some m -> nth_error cfgs i = Some c -> nth_error (q_trk s) i = Some u -> t_phase u = Asking ->
  In q (r_peers r) -> ~ In q (connects h) -> length (waiting (q_extend (y_peers (q_dht s)) (r_peers r))) + length (m_active m) <= 10 ->
  exists s' h', run s [CTrk i at_ (Answer r); CTick sent] = Some (s', h') /\ In q (connects h').
Proof.
  intros own secret info fs_ok t now es s h m i c u at_ r q sent R X M CI UI AS Q F L.
  assert (E1 : exists u', step s (CTrk i at_ (Answer r)) = Some (with_sys (with_trk s (upd (q_trk s) i u')) (with_peers (q_dht s) (q_extend (y_peers (q_dht s)) (r_peers r))), [])).
  { unfold cstep, session_step. rewrite X, CI, UI, AS. cbn [trk_ok option_map fst snd fold_left trk_found flat_map trk_out app]. eexists. reflexivity. }
  destruct E1 as (u' & E1). match type of E1 with _ = Some (?z, _) => set (s1 := z) in * end.
  pose proof (cinv_run sha usize_max cap tcp_port cfgs hashes own secret info fs_ok t now es R) as I.
  pose proof (reach_inv_m (ci_reach I M)) as [_ ND]. cbn [snd] in ND.
  assert (R1 : run (client_start cfgs own secret info hashes fs_ok t now) (es ++ [CTrk i at_ (Answer r)]) = Some (s1, h ++ [(CTrk i at_ (Answer r), [])])).
  { eapply crun_app; [exact R|]. cbn [crun]. rewrite E1. reflexivity. }
  destruct (@C99_waiting_connected_partial own secret info fs_ok t now _ s1 _ m q sent R1 X M) as (s2 & o & E2 & O).
  - destruct (@C25_learnt_available (y_peers (q_dht s)) (r_peers r) ND) as (m' & QS & ST). cbn [q_step] in QS. injection QS as <-. cbn [s1 with_sys q_dht with_peers y_peers].
    destruct (ST q Unknown) as (S1 & _). unfold waiting. apply in_map_iff. exists (q, Unknown). split; [reflexivity|]. apply filter_In. split; [|reflexivity]. apply S1; auto.
  - rewrite connects_app. cbn. rewrite app_nil_r. exact F.
  - exact L.
  - exists s2. eexists. split; [cbn [crun]; rewrite E1, E2; reflexivity|]. unfold connects, seen. cbn [flat_map snd app]. rewrite app_nil_r. apply in_flat_map. exists (CConnect q). split; [exact O|left; reflexivity].
Qed.
End client.

(** The full statement: a peer just named by a tracker is connected to before the
    manager has looked twice, if there are places for all that wait. *)
Definition C99_named_connected_always (sha : bytes -> bytes) (usize_max : nat) (cap : caps) (tcp_port : N) (cfgs : list tracker_cfg) (s0 : client) : Prop :=
  forall es i now r es' sent s h q m, crun sha usize_max cap tcp_port cfgs s0 (es ++ CTrk i now (Answer r) :: es' ++ [CTick sent]) = Some (s, h) ->
  q_mgr s = Some m -> In q (r_peers r) -> length (y_peers (q_dht s)) <= 10 -> In q (connects h).
(** A DHT node that asks for peers of the torrent in between takes the peer away. *)
Definition ex_asked : list cev :=
  [CDht YSend; CTrk 0 1 (Answer (mk_response None 1800 None None 1 0 [ex_peer]));
   CDht (YIn (ex_peer_n 9) (get_peers_query ex_node ex_info [])); CDht YOut; CDht (YTurn 0 ex_pick SQuery); CTick (fun _ => true)].
Theorem C99_named_connected_refuted : forall sha usize_max tcp_port secret, ~ C99_named_connected_always sha usize_max CAPS tcp_port [ex_cfg] (ex_client secret).
Proof.
  intros sha um tp secret A.
  assert (W : exists s h m, crun sha um CAPS tp [ex_cfg] (ex_client secret) ex_asked = Some (s, h) /\ q_mgr s = Some m /\ length (y_peers (q_dht s)) <= 10 /\ connects h = []).
  { eexists _, _, _. split; [vm_compute; reflexivity|]. split; [reflexivity|]. split; [cbn; lia|reflexivity]. }
  destruct W as (s & h & m & R & M & L & C). pose proof (A [CDht YSend] _ _ _ [CDht (YIn (ex_peer_n 9) (get_peers_query ex_node ex_info [])); CDht YOut; CDht (YTurn 0 ex_pick SQuery)] _ s h ex_peer m R M (or_introl eq_refl) L) as X.
  rewrite C in X. destruct X.
Qed.
Example C99_example : exists m u r s' h', q_mgr (ex_client ex_own) = Some m /\ nth_error (q_trk (ex_client ex_own)) 0 = Some u /\ t_phase u = Asking /\ r_peers r = map ex_peer_n [1; 2; 3]%N /\
  length (waiting (q_extend (y_peers (q_dht (ex_client ex_own))) (r_peers r))) + length (m_active m) <= 10 /\
  crun (fun x => x) 100 CAPS 6881 [ex_cfg] (ex_client ex_own) [CTrk 0 1 (Answer r); CTick (fun _ => true)] = Some (s', h') /\ connects h' = map ex_peer_n [1; 2; 3]%N.
Proof. eexists _, _, (mk_response None 1800 None None 1 0 (map ex_peer_n [1; 2; 3]%N)), _, _. split; [vm_compute; reflexivity|]. split; [reflexivity|]. split; [reflexivity|]. split; [reflexivity|]. split; [cbn; lia|]. split; [vm_compute; reflexivity|reflexivity]. Qed.
Example C95_end_example : exists s h, crun (fun x => x) 100 CAPS 6881 [ex_cfg] (ex_client ex_own) (ex_meet ++ [CSignal; CDht (YTurn 0 ex_pick SShutdown); CTrk 0 5 Shutdown; CExit]) = Some (s, h) /\ q_exit s = true /\
  exists a, In (CGet a) (seen h) /\ a_event a = Some Stopped.
Proof. eexists _, _. split; [vm_compute; reflexivity|]. split; [reflexivity|]. eexists. split; [right; left; reflexivity|reflexivity]. Qed.

Print Assumptions C95_end_orderly.
Print Assumptions C95_nothing_early.
Print Assumptions C99_waiting_connected_partial.
Print Assumptions C99_tracker_connected_partial.
Print Assumptions C99_named_connected_refuted.
