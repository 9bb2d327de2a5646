(** C133, C134: a peer search among clients finds what there is, and is found. *)
From Coq Require Import Strings.String.
From Coq Require Import List NArith ZArith Lia Bool Arith Permutation.
From Coq Require Import Init.Byte.
From Verif Require Import Base Assoc IdModel WireModel TableModel TableSpec TableProofs TableProofs2 TableProps LookupProps PeersModel PeersSpec PeersProofs PeersProps BencodeModel BencodeSpec BencodeProofs KrpcModel Utf8Spec Utf8Proofs KrpcSpec KrpcProofs KrpcProps ReadProps DhtModel DhtSpec DhtMgrModel DhtMgrSpec DhtMgrProps FetchModel TaskModel DhtProps DhtSysModel DhtSysSpec DhtAskSpec DhtAskProps ClientInvProps NetModel NetSpec NetProofs NetProps NetSafeProps DhtLifeProps NetMeetProps.
Import ListNotations.
Set Implicit Arguments.
Local Open Scope list_scope.

(** Nothing under way at [b], and no query waiting. *)
Definition idle (n : net) (b : addr) : Prop := at_rest n b /\ y_qry (h_sys (n_hosts n b)) = [].
(** The search of the client at [a] waits for its next round. *)
Definition search_idle (n : net) (a : addr) (f : fetcher) : Prop :=
  let y := h_sys (n_hosts n a) in y_fet y = Some f /\ fs_busy f = false /\ y_fout y = [] /\ y_rf y = [].
(** The channels of the client hold something. *)
Definition all_room (c : client) : Prop := 0 < c_cmd (v_caps c) /\ 0 < c_qry (v_caps c) /\ 0 < c_rd (v_caps c) /\ 0 < c_rf (v_caps c) /\ 0 < c_port (v_caps c).
(** A peer of the client's torrent. *)
Definition has_peer (n : net) (a p : addr) : Prop := In p (map fst (y_peers (h_sys (n_hosts n a)))).
(** Where the client at [a] takes connections. *)
Definition tcp_at (a : addr) (c : client) : addr := mk_addr (ip0 a) (ip1 a) (ip2 a) (ip3 a) (v_tcp c).

(** ** what is remembered for other torrents *)
Definition gmap (y : sys) : peer_map := g_map (k_mgr (y_dht y)).
Definition map_ok (y : sys) : Prop := NoDup (keys (gmap y)) /\ forall ih l p, In (ih, l) (gmap y) -> In p l -> ih = g_info (k_mgr (y_dht y)) \/ wf_addr p.
Lemma gstep_map : forall now pick s i s' o, gstep now pick s i = Val (s', o) -> wf_i i -> NoDup (keys (g_map s)) -> (forall ih l p, In (ih, l) (g_map s) -> In p l -> ih = g_info s \/ wf_addr p) ->
  NoDup (keys (g_map s')) /\ g_info s' = g_info s /\ (forall ih l p, In (ih, l) (g_map s') -> In p l -> ih = g_info s \/ wf_addr p).
Proof.
  intros now pick s i s' o H W N M. destruct i as [tg fr t|ih fr t|p ih|r|dr|a|op]; cbn [gstep] in H.
  - unfold on_find_node in H. destruct (find_node _ _ _); try discriminate. injection H as <- _. auto.
  - unfold on_get_peers in H. destruct (find_peers pick s ih) as [[m r]| |]; try discriminate. cbn [rbind fst snd] in H.
    destruct r as [l|]; [injection H as <- _; auto|]. destruct (find_node _ _ _); try discriminate. injection H as <- _. auto.
  - injection H as <- _. unfold store_new_peer. destruct (q_serve _ _) eqn:Q; cbn [g_info g_map]; [auto|]. split; [apply NoDup_mset; [exact bytes_eqb_eq|exact N]|]. split; [reflexivity|]. cbn [wf_i wf_q] in W.
    intros ih' l p' I J. apply DhtLifeProps.mset_in_b in I. destruct I as [I|I]; [|eapply M; eauto]. injection I as -> ->. destruct (mget bytes_eqb ih (g_map s)) as [l|] eqn:E.
    + unfold set_add in J. destruct (existsb _ l); [eapply M; [eapply mget_in; [exact bytes_eqb_eq|exact E]|exact J]|]. destruct J as [<-|J]; [right; apply W|]. eapply M; [eapply mget_in; [exact bytes_eqb_eq|exact E]|exact J].
    + destruct J as [<-|[]]. right. apply W.
  - unfold on_resp in H. destruct r as [id fr|n fr id|fr tok v].
    + destruct (touch_node _ _ _ _) as [t| |] eqn:TN; try discriminate. injection H as <- _. cbn. auto.
    + destruct (touch_node _ _ _ _) as [t| |] eqn:TN; try discriminate. cbn [rbind] in H. destruct (unknown_addrs _ _); try discriminate. injection H as <- _. cbn. auto.
    + injection H as <- _. auto.
  - unfold refresh_table in H. destruct (iter_over_ids _ _ _); try discriminate. cbn [rbind] in H. destruct (find_nodes_for _ _ _); try discriminate. injection H as <- _. auto.
  - injection H as <- _. auto.
  - destruct (q_step _ _); try discriminate. injection H as <- _. auto.
Qed.
Lemma turn_map : forall y now pick i, wf_i i -> map_ok y -> map_ok (dht_turn y now pick i).
Proof.
  intros y now pick i W (N & M). unfold dht_turn. destruct (gstep now pick (mgr_of y) i) as [[s o]| |] eqn:G; try (split; auto; fail).
  destruct (@gstep_map _ _ _ _ _ _ G W N M) as (A & B & C). split; [exact A|]. unfold gmap. cbn [with_dht y_dht k_mgr]. rewrite B. exact C.
Qed.
Lemma step_map : forall sha um cap tp y e y' o, ystep sha um cap tp y e = Some (y', o) -> well y -> (forall n p d, e = YTurn n p (STick d) -> plenty d) -> map_ok y -> map_ok y'.
Proof.
  intros sha um cap tp y e y' o H W D M.
  assert (SAME : forall z, y_dht z = y_dht y -> map_ok z) by (intros z E; unfold map_ok, gmap in *; rewrite E; exact M).
  destruct e as [from m|t| | | |now pick s| |n2 n3| | | | |x|op]; cbn [ystep] in H.
  - crunch H. injection H as <- _. apply SAME. match goal with |- context [after_sock _ ?r] => destruct r as [[? ?]| |] end; reflexivity.
  - crunch H. all: injection H as <- _; apply SAME; match goal with |- context [after_sock _ ?r] => destruct r as [[? ?]| |] end; reflexivity.
  - destruct (y_sock y) as [d|]; [|discriminate]. destruct (y_outs y) as [|u os]; [discriminate|]. unfold sock_out, hand_over in H. destruct u; crunch H; repeat match goal with E : (if _ then _ else _) = Some _ |- _ => crunch E end; repeat match goal with E : Some _ = Some _ |- _ => injection E as E; try subst end; apply SAME; try reflexivity.
    all: repeat match goal with X : _ = ?v |- _ = _ => is_var v; rewrite <- X; clear X end; reflexivity.
  - crunch H. injection H as <- _. apply SAME. reflexivity.
  - crunch H. injection H as <- _. apply SAME. reflexivity.
  - destruct (y_phase y) eqn:P; try discriminate. pose proof (w_qry W) as WQ. pose proof (w_rd W) as WR. destruct s.
    + destruct (y_rd y) as [|r q]; [discriminate|]. injection H as <- _. inversion WR; subst. apply turn_map; [assumption|]. apply SAME. reflexivity.
    + destruct (y_qry y) as [|i q]; [crunch H; injection H as <- _; apply SAME; reflexivity|]. injection H as <- _. inversion WQ as [|? ? W1 W2]; subst. apply turn_map; [|apply SAME; reflexivity]. destruct i; cbn in *; auto; destruct W1.
    + destruct (y_port y) as [|r q]; [discriminate|]. injection H as <- _. apply turn_map; [exact I|]. apply SAME. reflexivity.
    + crunch H. injection H as <- _. apply SAME. reflexivity.
    + injection H as <- _. apply turn_map; [eapply D; reflexivity|exact M].
    + injection H as <- _. apply SAME. reflexivity.
  - crunch H; unfold send_cmd in *; repeat match goal with E : (if _ then _ else _) = Some _ |- _ => crunch E end; repeat match goal with E : Some _ = Some _ |- _ => injection E as E; try subst end; apply SAME; try reflexivity.
    all: repeat match goal with X : _ = ?v |- _ = _ => is_var v; rewrite <- X; clear X end; reflexivity.
  - destruct (y_phase y) as [l| |l|]; try discriminate. destruct l; [|discriminate]. crunch H. all: injection H as <- _; try (apply SAME; reflexivity). all: destruct M as (M1 & M2); split; [exact M1|exact M2].
  - destruct (y_fet y); [|discriminate]. destruct (y_fout y); [|discriminate]. destruct (fstep _ _ _) as [[? ?]| |]; try discriminate; injection H as <- _; apply SAME; reflexivity.
  - destruct (y_fet y); [|discriminate]. destruct (y_fout y); [|discriminate]. destruct (y_rf y); [discriminate|]. destruct (fstep _ _ _) as [[? ?]| |]; try discriminate; injection H as <- _; apply SAME; reflexivity.
  - destruct (y_fet y); [|discriminate]. destruct (y_fout y); [|discriminate]. destruct (fstep _ _ _) as [[? ?]| |]; try discriminate; injection H as <- _; apply SAME; reflexivity.
  - crunch H; unfold send_cmd in *; repeat match goal with E : (if _ then _ else _) = Some _ |- _ => crunch E end; repeat match goal with E : Some _ = Some _ |- _ => injection E as E; try subst end; apply SAME; try reflexivity.
    all: repeat match goal with X : _ = ?v |- _ = _ => is_var v; rewrite <- X; clear X end; reflexivity.
  - crunch H. injection H as <- _. apply SAME. reflexivity.
  - crunch H. injection H as <- _. apply SAME. reflexivity.
Qed.
Section lift.
Variable sha : bytes -> bytes.
Variable who : addr -> option client.
Hypothesis FIT : forall a c, who a = Some c -> fit a c.
Lemma start_map : forall b c, who b = Some c -> map_ok (h_sys (n_hosts (net_start who) b)).
Proof. intros b c W. cbn [net_start n_hosts]. rewrite W. split; cbn; [repeat constructor; intros []|]. intros ih l p [E|[]] _. injection E as <- _. auto. Qed.
Lemma nstep_map : forall n e n' b, nstep sha who n e = Some n' -> proper e -> well (h_sys (n_hosts n b)) -> map_ok (h_sys (n_hosts n b)) -> map_ok (h_sys (n_hosts n' b)).
Proof.
  intros n e n' b H P W M.
  assert (AT : forall x h air, n' = put_host n x h air -> (x = b -> map_ok (h_sys h)) -> map_ok (h_sys (n_hosts n' b))).
  { intros x h air -> HB. destruct (dec_addr x b) as [->|E]; [rewrite put_same; auto|]. rewrite put_other by congruence. exact M. }
  assert (RC : forall from to dg, arrive sha who n from to dg = Some n' -> map_ok (h_sys (n_hosts n' b))).
  { intros from to dg A. unfold arrive in A. destruct (who to) as [c|]; [|discriminate]. destruct (receive _ _ _ _ _) as [h|] eqn:R; [|discriminate]. injection A as A. symmetry in A. eapply AT; [exact A|]. intros ->.
    unfold receive in R. destruct (y_sock _) eqn:S; [|discriminate]. destruct (y_outs _) eqn:O; [|discriminate]. destruct (kmsg_from_bytes _).
    - destruct (ystep _ _ _ _ _ _) as [[y o]|] eqn:ST; [|discriminate]. injection R as <-. cbn [h_sys fst]. eapply step_map; [exact ST|exact W|discriminate|exact M].
    - injection R as <-. exact M.
    - injection R as <-. exact M. }
  destruct e as [x e|k|from to dg]; cbn [nstep] in H.
  - destruct (who x) as [c|]; [|discriminate]. destruct (is_in e); [discriminate|]. destruct (ystep _ _ _ _ _ _) as [[y o]|] eqn:ST; [|discriminate]. injection H as H. symmetry in H. eapply AT; [exact H|]. intros ->. cbn [h_sys]. eapply step_map; [exact ST|exact W| |exact M]. intros nw pk d ->. exact P.
  - destruct (nth_error _ _); [|discriminate]. eapply RC; exact H.
  - destruct (who from); [discriminate|]. eapply RC; exact H.
Qed.
Lemma working_map : forall es n b c, (forall e, In e es -> proper e) -> who b = Some c -> nrun sha who (net_start who) es = Some n -> working n b -> map_ok (h_sys (n_hosts n b)).
Proof.
  intros es. induction es as [|e es IH] using rev_ind; intros n b c P WB R WK.
  - injection R as <-. eapply start_map; exact WB.
  - rewrite nrun_app in R. destruct (nrun sha who (net_start who) es) as [n1|] eqn:R1; [|discriminate]. cbn [nrun] in R. destruct (nstep sha who n1 e) as [n2|] eqn:S; [|discriminate]. injection R as <-.
    assert (P1 : forall e, In e es -> proper e) by (intros x I; apply P; apply in_or_app; left; exact I).
    assert (WK1 : working n1 b).
    { unfold working, listening. split; intro E; revert WK; (eapply gone_nstep; [exact S|]); intros (L & Q); [exact (L E)|exact (Q E)]. }
    eapply nstep_map; [exact S|apply P; apply in_or_app; right; left; reflexivity|exact (@working_well sha who es n1 b c FIT P1 WB R1 WK1)|]. eapply IH; eauto.
Qed.
End lift.

(** ** one client on its own *)
Section one.
Variable sha : bytes -> bytes.
Variable um : nat.
Variable cap : caps.
Variable tp : N.
Notation yrun := (yrun sha um cap tp).
Notation ystep := (ystep sha um cap tp).
Lemma yrun_app : forall es1 es2 y, yrun y (es1 ++ es2) = match yrun y es1 with Some (y1, h1) => match yrun y1 es2 with Some (y2, h2) => Some (y2, h1 ++ h2) | None => None end | None => None end.
Proof.
  induction es1 as [|e es1 IH]; intros es2 y; cbn [DhtSysModel.yrun app]; [destruct (yrun y es2) as [[? ?]|]; reflexivity|]. destruct (ystep y e) as [[y1 o]|]; [|reflexivity]. rewrite IH. destruct (yrun y1 es1) as [[y2 h2]|]; [|reflexivity]. destruct (yrun y2 es2) as [[? ?]|]; reflexivity.
Qed.
(** The search sends what it has to send, one command after the other. *)
Definition flush (tid : addr -> bytes) (l : list (addr * to_query)) : list yev := flat_map (fun x => [YFetSend; YCmd (tid (fst x)); YOut]) l.
Definition cmds (l : list (addr * to_query)) : list to_con := map (fun x => CQuery (fst x) (snd x)) l.
Definition kind_asked (q : to_query) : kind := match q with QPing => KPing | QFindNode _ => KFindNode | QGetPeers _ => KGetPeers | QAnnounce _ _ _ => KAnnounce end.
Definition pend_all (tid : addr -> bytes) (l : list (addr * to_query)) (p : pending) : pending := fold_left (fun p x => pend_insert p (tid (fst x)) (kind_asked (snd x)) FETCHER) l p.
(** What stays. *)
Definition same (y y' : sys) : Prop := y_dht y' = y_dht y /\ y_qry y' = y_qry y /\ y_rf y' = y_rf y /\ y_fet y' = y_fet y /\ y_peers y' = y_peers y.
Lemma flush_run : forall tid l y d f, rest y d -> y_fet y = Some f -> y_fout y = cmds l -> 0 < c_cmd cap ->
  exists y' h, yrun y (flush tid l) = Some (y', h) /\ flat_map snd h = map (fun x => (fst x, query_message (d_own d) (tid (fst x)) (snd x))) l /\
  rest y' (mk_dcon (d_own d) (d_secret d) (pend_all tid l (d_pending d))) /\ same y y' /\ y_fout y' = [].
Proof.
  intros tid. induction l as [|[x q] l IH]; intros y d f RS F FO L; cbn [flush flat_map cmds map fst snd] in *.
  - exists y, []. split; [reflexivity|]. split; [reflexivity|]. split; [destruct d; exact RS|]. split; [repeat split|exact FO].
  - destruct RS as (S & P & O & C & RD & PT).
    set (y1 := with_fet (with_cmd y [(FETCHER, CQuery x q)]) (Some f) (cmds l) (y_peers y)).
    assert (E1 : ystep y YFetSend = Some (y1, [])).
    { cbn [DhtSysModel.ystep]. unfold sock_alive, send_cmd. rewrite F, FO, S, C. cbn [length]. destruct (0 <? c_cmd cap) eqn:X; [reflexivity|apply Nat.ltb_ge in X; lia]. }
    set (d1 := mk_dcon (d_own d) (d_secret d) (pend_insert (d_pending d) (tid x) (kind_asked q) FETCHER)).
    set (y2 := with_sock (with_cmd y1 []) (Some d1) [OSend x (query_message (d_own d) (tid x) q)]).
    assert (E2 : ystep y1 (YCmd (tid x)) = Some (y2, [])).
    { assert (Q1 : y_sock y1 = Some d) by exact S. assert (Q2 : y_outs y1 = []) by exact O. assert (Q3 : y_cmd y1 = [(FETCHER, CQuery x q)]) by reflexivity.
      cbn [DhtSysModel.ystep]. rewrite Q1, Q2, Q3. destruct q; reflexivity. }
    set (y3 := with_sock y2 (Some d1) []).
    assert (E3 : ystep y2 YOut = Some (y3, [(x, query_message (d_own d) (tid x) q)])) by reflexivity.
    destruct (IH y3 d1 f) as (y' & h & R & H1 & H2 & H3 & H4); [repeat split; cbn; auto|reflexivity|reflexivity|exact L|].
    exists y', ((YFetSend, []) :: (YCmd (tid x), []) :: (YOut, [(x, query_message (d_own d) (tid x) q)]) :: h).
    split; [cbn [app DhtSysModel.yrun]; rewrite E1, E2, E3; fold (flush tid l); rewrite R; reflexivity|]. split; [cbn [flat_map snd app]; rewrite H1; reflexivity|]. split; [exact H2|]. split; [|exact H4].
    destruct H3 as (A1 & A2 & A3 & A4 & A5). unfold same. rewrite A1, A2, A3, A4, A5. unfold y3, y2, y1. cbn. rewrite F. auto.
Qed.
(** The request that the answer will be for. *)
Lemma pend_all_get : forall tid b k l p, (forall x, tid x = tid b -> x = b) -> (forall q, In (b, q) l -> kind_asked q = k) ->
  In b (map fst l) \/ mget bytes_eqb (tid b) p = Some (k, FETCHER) -> mget bytes_eqb (tid b) (pend_all tid l p) = Some (k, FETCHER).
Proof. clear.
  intros tid b k. induction l as [|[x q] l IH]; intros p T K [I|I]; cbn [pend_all fold_left fst snd map] in *; [destruct I|exact I| |].
  - destruct I as [->|I]; [|apply IH; [exact T|intros; apply K; right; assumption|left; exact I]]. apply IH; [exact T|intros; apply K; right; assumption|right]. unfold pend_insert. rewrite (mget_mset_same _ bytes_eqb_eq). rewrite (K q (or_introl eq_refl)). reflexivity.
  - apply IH; [exact T|intros; apply K; right; assumption|right]. unfold pend_insert. destruct (dec_addr x b) as [->|D].
    + rewrite (mget_mset_same _ bytes_eqb_eq). rewrite (K q (or_introl eq_refl)). reflexivity.
    + rewrite (mget_mset_other _ bytes_eqb_eq); [exact I|]. intro E. apply D. apply T. congruence.
Qed.
Definition first_ones : picker := fun k l => firstn k l.
Lemma check_more : forall y now now3 d, y_sock y = Some d -> y_phase y = PSend [] -> y_outs y = [] -> y_rd y = [] -> y_port y = [] -> rich y ->
  exists y', ystep y (YCheck now now3) = Some (y', []) /\ y_sock y' = Some d /\ y_phase y' = PIdle /\ y_outs y' = [] /\ y_cmd y' = y_cmd y /\ y_rd y' = [] /\ y_port y' = [] /\ k_mgr (y_dht y') = k_mgr (y_dht y) /\ rich y' /\ y_qry y' = y_qry y.
Proof.
  intros y now now3 d S P O RD PT (R1 & R2). cbn [DhtSysModel.ystep]. rewrite P.
  assert (Z : forall y', y' = with_phase y PIdle \/ (exists f, y' = with_fet (with_dht y (mk_task (k_mgr (y_dht y)) false) PIdle (y_peers y)) (Some f) [] (y_peers y)) ->
    y_sock y' = Some d /\ y_phase y' = PIdle /\ y_outs y' = [] /\ y_cmd y' = y_cmd y /\ y_rd y' = [] /\ y_port y' = [] /\ k_mgr (y_dht y') = k_mgr (y_dht y) /\ rich y' /\ y_qry y' = y_qry y).
  { intros y' [->|(f & ->)]; unfold rich, tab; cbn; auto 14. }
  destruct (_ && _); [|eexists; split; [reflexivity|]; apply Z; auto].
  unfold spawn_fetcher. destruct (@closest_spec now3 _ _ (reachable_inv R1) R2) as (ol & E & _). unfold tab in *. rewrite E. cbn [rmap]. destruct ol as [l|]; cbn [option_map]; eexists; (split; [reflexivity|]); apply Z; eauto.
Qed.
Definition answer_for (now : N) (y : sys) (ih : ID) (v : von) : Prop :=
  match mget bytes_eqb ih (gmap y) with
  | Some l => v = VValues (firstn 216 l)
  | None => exists nd, v = VNodes nd /\ wf_nodes nd /\ length (nodes_list nd) <= 15 /\ find_node now (tab y) ih = Val (Some nd)
  end.
Lemma serve_run : forall y d ih a t now, y_sock y = Some d -> y_phase y = PIdle -> y_outs y = [OGetPeers ih a t] -> y_cmd y = [] -> y_rd y = [] -> y_port y = [] -> y_qry y = [] -> rich y ->
  wf_id ih -> ih <> g_info (k_mgr (y_dht y)) -> mget bytes_eqb ih (gmap y) <> None \/ 0 < count (fresh now) (t_nodes (tab y)) -> 0 < c_cmd cap -> 0 < c_qry cap ->
  exists v y' h, yrun y [YOut; YTurn now first_ones SQuery; YSend; YCheck now now; YCmd []; YOut] = Some (y', h) /\ flat_map snd h = [(a, get_peers_resp (d_own d) (token_for sha d a) v t)] /\ answer_for now y ih v /\
    rest y' d /\ y_qry y' = [] /\ gmap y' = gmap y /\ tab y' = tab y /\ rich y' /\ g_info (k_mgr (y_dht y')) = g_info (k_mgr (y_dht y)).
Proof.
  intros y d ih a t now S P O C RD PT QR (R1 & R2) WI NE SOME L1 L2.
  set (y1 := with_qry (with_sock y (Some d) []) [GGetPeers ih a t]).
  assert (E1 : ystep y YOut = Some (y1, [])).
  { cbn [DhtSysModel.ystep]. rewrite S, O. unfold sock_out, hand_over, dht_alive. rewrite P, QR. cbn [length]. destruct (0 <? c_qry cap) eqn:X; [reflexivity|apply Nat.ltb_ge in X; lia]. }
  assert (G : exists v, gstep now first_ones (mgr_of y) (GGetPeers ih a t) = Val (mgr_of y, [CReply a t (PGetPeers v)]) /\ answer_for now y ih v).
  { assert (SV : q_serve (g_info (mgr_of y)) ih = false) by (unfold q_serve; destruct (bytes_eqb ih (g_info (mgr_of y))) eqn:E; [apply bytes_eqb_eq in E; contradiction|reflexivity]).
    cbn [gstep]. unfold on_get_peers, find_peers. rewrite SV. change (g_map (mgr_of y)) with (gmap y). change (DHT_MTU / COMPACT_PEER_LEN) with 216. unfold answer_for. destruct (mget bytes_eqb ih (gmap y)) as [l|] eqn:M; cbn [option_map rbind fst snd].
    - eexists. split; [reflexivity|reflexivity].
    - destruct SOME as [X|X]; [congruence|]. destruct (@find_node_total now (tab y) ih R1 WI) as (o & FN & OK). change (g_table (mgr_of y)) with (tab y). rewrite FN. destruct o as [nd|]; [|lia]. cbn [rmap]. eexists. split; [reflexivity|]. exists nd. split; [reflexivity|]. split; [|split; [apply OK|first [exact FN|reflexivity]]].
      destruct OK as (_ & OK). unfold wf_nodes. change (nodes_of nd) with (nodes_list nd). eapply Forall_impl; [|exact OK]. intros x X2. split; [|apply (reachable_addrs R1); exact X2].
      apply in_nodes in X2. destruct X2 as (j & b & X2 & X3). destruct (i_bkt (reachable_inv R1) _ X2) as (_ & _ & Q5). apply (Q5 x X3). }
  destruct G as (v & G & AV). exists v.
  set (y2 := with_dht (with_qry y1 []) (mk_task (mgr_of y) (k_wait (y_dht y))) (PSend [CReply a t (PGetPeers v)]) (y_peers y)).
  assert (E2 : ystep y1 (YTurn now first_ones SQuery) = Some (y2, [])).
  { assert (Q1 : y_phase y1 = PIdle) by exact P. assert (Q2 : y_qry y1 = [GGetPeers ih a t]) by reflexivity.
    cbn [DhtSysModel.ystep]. rewrite Q1, Q2. unfold dht_turn. change (mgr_of (with_qry y1 [])) with (mgr_of y). rewrite G. reflexivity. }
  set (y3 := with_phase (with_cmd y2 [(DHT, CReply a t (PGetPeers v))]) (PSend [])).
  assert (E3 : ystep y2 YSend = Some (y3, [])).
  { assert (Q1 : y_phase y2 = PSend [CReply a t (PGetPeers v)]) by reflexivity. assert (Q2 : y_sock y2 = Some d) by reflexivity. assert (Q3 : y_cmd y2 = []) by exact C.
    cbn [DhtSysModel.ystep]. unfold sock_alive, send_cmd. rewrite Q1, Q2, Q3. cbn [length]. destruct (0 <? c_cmd cap) eqn:X; [|apply Nat.ltb_ge in X; lia]. reflexivity. }
  destruct (@check_more y3 now now d) as (y4 & E4 & A1 & A2 & A3 & A4 & A5 & A6 & A7 & A8 & A9); try (unfold y3, y2, y1, rich, tab; cbn; auto; fail).
  set (m := get_peers_resp (d_own d) (token_for sha d a) v t).
  set (y5 := with_sock (with_cmd y4 []) (Some d) [OSend a m]).
  assert (E5 : ystep y4 (YCmd []) = Some (y5, [])).
  { cbn [DhtSysModel.ystep]. rewrite A1, A3, A4. reflexivity. }
  set (y6 := with_sock y5 (Some d) []).
  assert (E6 : ystep y5 YOut = Some (y6, [(a, m)])) by reflexivity.
  do 2 eexists. split; [cbn [DhtSysModel.yrun]; rewrite E1, E2, E3, E4, E5, E6; reflexivity|]. split; [reflexivity|]. split; [exact AV|].
  assert (MG : k_mgr (y_dht y6) = mgr_of y) by exact A7.
  split; [unfold rest, y6, y5; cbn; auto 8|]. split; [unfold y6, y5; cbn; rewrite A9; reflexivity|]. unfold gmap, tab. rewrite MG. split; [reflexivity|]. split; [reflexivity|]. split; [exact A8|reflexivity].
Qed.
Lemma store_run : forall y d p ih a m now, y_sock y = Some d -> y_phase y = PIdle -> y_outs y = [ONewPeer p ih; OSend a m] -> y_cmd y = [] -> y_rd y = [] -> y_port y = [] -> y_qry y = [] -> rich y ->
  ih <> g_info (k_mgr (y_dht y)) -> 0 < c_qry cap ->
  exists y' h, yrun y [YOut; YOut; YTurn now first_ones SQuery; YCheck now now] = Some (y', h) /\ rest y' d /\ y_qry y' = [] /\ tab y' = tab y /\ rich y' /\ g_info (k_mgr (y_dht y')) = g_info (k_mgr (y_dht y)) /\
    gmap y' = mset bytes_eqb ih (match mget bytes_eqb ih (gmap y) with Some l => set_add p l | None => [p] end) (gmap y).
Proof.
  intros y d p ih a m now S P O C RD PT QR (R1 & R2) NE L2.
  set (y1 := with_qry (with_sock y (Some d) [OSend a m]) [GNewPeer p ih]).
  assert (E1 : ystep y YOut = Some (y1, [])).
  { cbn [DhtSysModel.ystep]. rewrite S, O. unfold sock_out, hand_over, dht_alive. rewrite P, QR. cbn [length]. destruct (0 <? c_qry cap) eqn:X; [reflexivity|apply Nat.ltb_ge in X; lia]. }
  set (y2 := with_sock y1 (Some d) []).
  assert (E2 : ystep y1 YOut = Some (y2, [(a, m)])) by reflexivity.
  assert (SV : q_serve (g_info (mgr_of y)) ih = false) by (unfold q_serve; destruct (bytes_eqb ih (g_info (mgr_of y))) eqn:E; [apply bytes_eqb_eq in E; contradiction|reflexivity]).
  set (s := store_new_peer (mgr_of y) p ih).
  assert (MS : s = mk_dmgr (g_info (k_mgr (y_dht y))) (y_peers y) (mset bytes_eqb ih (match mget bytes_eqb ih (gmap y) with Some l => set_add p l | None => [p] end) (gmap y)) (tab y)) by (unfold s, store_new_peer; rewrite SV; reflexivity).
  set (y3 := with_dht (with_qry y2 []) (mk_task s (k_wait (y_dht y))) (PSend []) (g_peers s)).
  assert (E3 : ystep y2 (YTurn now first_ones SQuery) = Some (y3, [])).
  { assert (Q1 : y_phase y2 = PIdle) by exact P. assert (Q2 : y_qry y2 = [GNewPeer p ih]) by reflexivity.
    cbn [DhtSysModel.ystep]. rewrite Q1, Q2. unfold dht_turn. reflexivity. }
  assert (K3 : k_mgr (y_dht y3) = s) by reflexivity.
  destruct (@check_more y3 now now d) as (y4 & E4 & A1 & A2 & A3 & A4 & A5 & A6 & A7 & A8 & A9); try (unfold y3, y2, y1; cbn; auto; fail).
  { unfold rich, tab. rewrite K3, MS. cbn. auto. }
  do 2 eexists. split; [cbn [DhtSysModel.yrun]; rewrite E1, E2, E3, E4; reflexivity|]. rewrite K3, MS in A7.
  split; [unfold rest; rewrite A4; unfold y3, y2, y1; cbn; auto 8|]. split; [rewrite A9; reflexivity|]. unfold gmap, tab. rewrite A7. cbn. auto.
Qed.
(** ** the search *)
Lemma new_nodes_keep : forall ih l m x v, mget addr_eqb x m = Some v -> mget addr_eqb x (fst (new_nodes ih l m)) = Some v.
Proof.
  intros ih. induction l as [|n l IH]; intros m x v H; cbn [new_nodes]; [exact H|]. destruct (mhas addr_eqb (n_addr n) m) eqn:E; [auto|]. cbn [fst]. apply IH. rewrite (mget_mset_other _ addr_eqb_spec); [exact H|].
  intros ->. unfold mhas in E. rewrite H in E. discriminate.
Qed.
Definition toks (m : node_map) : list (addr * bytes) := flat_map (fun e => match f_token (snd e) with Some t => [(fst e, t)] | None => [] end) m.
Lemma toks_new : forall ih l m, length (toks (fst (new_nodes ih l m))) = length (toks m).
Proof.
  intros ih. induction l as [|n l IH]; intros m; cbn [new_nodes]; [reflexivity|]. destruct (mhas addr_eqb (n_addr n) m) eqn:E; [auto|]. cbn [fst]. rewrite IH. clear IH. unfold mhas in E. induction m as [|[k w] m IH]; cbn [mset]; [reflexivity|].
  cbn [mget] in E. destruct (addr_eqb (n_addr n) k) eqn:K; [discriminate|]. unfold toks in *. cbn [flat_map]. rewrite !app_length, IH by exact E. reflexivity.
Qed.
Lemma toks_le : forall m, length (toks m) <= length m.
Proof. clear. induction m as [|[k w] m IH]; cbn; [lia|]. rewrite app_length. destruct (f_token w); cbn; unfold toks in IH; lia. Qed.
Lemma new_nodes_len : forall ih l m, length (fst (new_nodes ih l m)) <= length m + length l.
Proof. clear.
  intros ih. induction l as [|n l IH]; intros m; cbn [new_nodes length]; [cbn; lia|]. destruct (mhas addr_eqb (n_addr n) m) eqn:E; [specialize (IH m); lia|]. cbn [fst]. specialize (IH (mset addr_eqb (n_addr n) (FUnknown (n_id n)) m)). rewrite length_mset, E in IH. lia.
Qed.
Lemma new_nodes_cmds : forall ih l m, exists q, snd (new_nodes ih l m) = cmds q.
Proof. clear.
  intros ih. induction l as [|n l IH]; intros m; cbn [new_nodes]; [exists []; reflexivity|]. destruct (mhas addr_eqb (n_addr n) m) eqn:E; [auto|]. cbn [snd]. destruct (IH (mset addr_eqb (n_addr n) (FUnknown (n_id n)) m)) as (q & ->). exists ((n_addr n, QGetPeers ih) :: q). reflexivity.
Qed.
Lemma announce_in : forall port ih m b v t, length (toks m) <= 16 -> mget addr_eqb b m = Some v -> f_token v = Some t ->
  exists q, announce_peer port ih m = cmds q /\ In (b, QAnnounce ih port t) q.
Proof. clear.
  intros port ih m b v t L M T. unfold announce_peer, get_sorted_nodes, ANNOUNCE_TO_N_TOP_NODES. fold (toks (sort_by (f_cmp ih) m)).
  assert (PM : Permutation (toks (sort_by (f_cmp ih) m)) (toks m)) by (unfold toks; apply Permutation_flat_map; apply sort_perm).
  rewrite firstn_all2 by (rewrite (Permutation_length PM); exact L).
  exists (map (fun x => (fst x, QAnnounce ih port (snd x))) (toks (sort_by (f_cmp ih) m))). split; [unfold cmds; rewrite map_map; reflexivity|]. apply in_map_iff. exists (b, t). split; [reflexivity|].
  eapply Permutation_in; [apply Permutation_sym; exact PM|]. unfold toks. apply in_flat_map. exists (b, v). split; [eapply mget_in; [exact addr_eqb_spec|exact M]|]. cbn [snd fst]. rewrite T. left. reflexivity.
Qed.
Definition heard (v : von) (m m' : peers) : Prop := match v with VValues l => m' = q_extend m l | VNodes _ => m' = m end.
Lemma toks_again : forall m b v t w, mget addr_eqb b m = Some v -> f_token v = Some t -> length (toks (mset addr_eqb b w m)) <= length (toks m).
Proof. clear.
  induction m as [|[k u] m IH]; intros b v t w M T; cbn [mget] in M; [discriminate|]. cbn [mset]. destruct (addr_eqb b k) eqn:E; unfold toks in *; cbn [flat_map]; rewrite !app_length; cbn [snd fst].
  - injection M as ->. rewrite T. destruct (f_token w); cbn; lia.
  - specialize (IH b v t w M T). lia.
Qed.
(** The nodes of the search after an answer. *)
Definition after (ih : ID) (m : node_map) (old : fnode) (b : addr) (token : bytes) (v : von) : node_map :=
  match v with
  | VValues _ => mset addr_eqb b (FHasPeers (f_id old) token) m
  | VNodes nd => fst (new_nodes ih (nodes_list nd) (mset addr_eqb b (FPeerless (f_id old) token) m))
  end.
(** Small enough not to be cut down, with or without [b] as a holder of a token. *)
Definition small (b : addr) (f : fetcher) : Prop := length (fs_nodes f) <= 511 /\ forall w, length (toks (mset addr_eqb b w (fs_nodes f))) <= 16.
Lemma hear_search : forall y d f b token v old, y_sock y = Some d -> y_phase y = PIdle -> y_outs y = [OResp FETCHER (FGetPeers b token v)] -> y_cmd y = [] -> y_rd y = [] -> y_port y = [] -> y_rf y = [] ->
  y_fet y = Some f -> y_fout y = [] -> fs_busy f = true -> mget addr_eqb b (fs_nodes f) = Some old -> small b f -> (forall nd, v = VNodes nd -> length (fs_nodes f) + length (nodes_list nd) <= 511) -> 0 < c_rf cap ->
  exists y' h f' q nv, yrun y [YOut; YAnswer] = Some (y', h) /\ flat_map snd h = [] /\ rest y' d /\ y_rf y' = [] /\ y_fet y' = Some f' /\ y_fout y' = cmds q /\ fs_busy f' = true /\ fs_info f' = fs_info f /\ fs_port f' = fs_port f /\
    mget addr_eqb b (fs_nodes f') = Some nv /\ f_token nv = Some token /\ length (toks (fs_nodes f')) <= 16 /\ heard v (y_peers y) (y_peers y') /\ y_dht y' = y_dht y /\ y_qry y' = y_qry y /\ length (fs_nodes f') <= 511 /\ fs_nodes f' = after (fs_info f) (fs_nodes f) old b token v.
Proof.
  intros y d f b token v old S P O C RD PT RF F FO BZ M (L & LT) LV LC.
  set (y1 := with_rf (with_sock y (Some d) []) [FGetPeers b token v]).
  assert (E1 : ystep y YOut = Some (y1, [])).
  { cbn [DhtSysModel.ystep]. rewrite S, O. unfold sock_out, hand_over. cbn [Nat.eqb DHT FETCHER]. rewrite F, RF. cbn [length]. destruct (0 <? c_rf cap) eqn:X; [reflexivity|apply Nat.ltb_ge in X; lia]. }
  set (f0 := mk_fet (fs_info f) (fs_port f) (fs_nodes f) (y_peers y) (fs_busy f)).
  assert (LM : forall w, length (mset addr_eqb b w (fs_nodes f)) = length (fs_nodes f)) by (intro w; rewrite length_mset; unfold mhas; rewrite M; reflexivity).
  assert (Z : exists f' q nv, fstep um f0 (FResp (FGetPeers b token v)) = Val (f', cmds q) /\ fs_busy f' = true /\ fs_info f' = fs_info f /\ fs_port f' = fs_port f /\
    mget addr_eqb b (fs_nodes f') = Some nv /\ f_token nv = Some token /\ length (toks (fs_nodes f')) <= 16 /\ heard v (y_peers y) (fs_peers f') /\ length (fs_nodes f') <= 511 /\ fs_nodes f' = after (fs_info f) (fs_nodes f) old b token v).
  { unfold f0. cbn [fstep fs_busy fs_nodes]. rewrite BZ, M. unfold on_answer. cbn [fs_info fs_port fs_nodes fs_peers]. destruct v as [l|nd].
    - assert (X : (ACTIVE_CLOSE_NODES_CAP_HIGH <=? length (mset addr_eqb b (FHasPeers (f_id old) token) (fs_nodes f))) = false) by (apply Nat.leb_gt; specialize (LM (FHasPeers (f_id old) token)); unfold ACTIVE_CLOSE_NODES_CAP_HIGH; lia).
      cbv beta iota zeta. rewrite X. cbn [rmap]. do 3 eexists. split; [exact (eq_refl (Val (_, cmds [])))|]. cbn. split; [reflexivity|]. split; [reflexivity|]. split; [reflexivity|]. split; [apply (mget_mset_same _ addr_eqb_spec)|]. split; [reflexivity|]. split; [apply LT|]. split; [reflexivity|]. split; [rewrite LM; exact L|reflexivity].
    - set (m1 := mset addr_eqb b (FPeerless (f_id old) token) (fs_nodes f)).
      assert (X : (ACTIVE_CLOSE_NODES_CAP_HIGH <=? length (fst (new_nodes (fs_info f) (nodes_list nd) m1))) = false).
      { apply Nat.leb_gt. pose proof (new_nodes_len (fs_info f) (nodes_list nd) m1). specialize (LM (FPeerless (f_id old) token)). specialize (LV _ eq_refl). fold m1 in LM. unfold ACTIVE_CLOSE_NODES_CAP_HIGH. lia. }
      cbv beta iota zeta. rewrite X. cbn [rmap]. destruct (new_nodes_cmds (fs_info f) (nodes_list nd) m1) as (q & Q). rewrite Q. do 3 eexists. split; [reflexivity|]. cbn. split; [reflexivity|]. split; [reflexivity|]. split; [reflexivity|]. split; [apply new_nodes_keep; apply (mget_mset_same _ addr_eqb_spec)|]. split; [reflexivity|]. split; [rewrite toks_new; apply LT|]. split; [reflexivity|]. split; [apply Nat.leb_gt in X; unfold ACTIVE_CLOSE_NODES_CAP_HIGH in X; apply Nat.lt_succ_r; exact X|reflexivity]. }
  destruct Z as (f' & q & nv & ST & B1 & B2 & B3 & B4 & B5 & B6 & B7 & B8 & B9).
  set (y2 := with_fet (with_rf y1 []) (Some f') (cmds q) (fs_peers f')).
  assert (E2 : ystep y1 YAnswer = Some (y2, [])).
  { assert (Q1 : y_fet y1 = Some f) by exact F. assert (Q2 : y_fout y1 = []) by exact FO. assert (Q3 : y_rf y1 = [FGetPeers b token v]) by reflexivity.
    cbn [DhtSysModel.ystep]. rewrite Q1, Q2, Q3. change (y_peers (with_rf y1 [])) with (y_peers y). fold f0. rewrite ST. reflexivity. }
  exists y2. do 4 eexists. split; [cbn [DhtSysModel.yrun]; rewrite E1, E2; reflexivity|]. split; [reflexivity|]. split; [unfold rest, y2, y1; cbn; auto 8|]. unfold y2, y1. cbn. split; [reflexivity|]. split; [reflexivity|]. split; [reflexivity|]. eauto 15.
Qed.
End one.

(** ** what is read *)
Lemma query_read : forall buf id t q, wf_id id -> length t <= 64 -> wf_query q -> (forall ih p tok, q = QAnnounce ih p tok -> length tok = 20) -> kmsg_from_bytes (recv_into buf (kmsg_bytes (query_message id t q))) = Val (query_message id t q).
Proof.
  intros buf id t q W T WQ TK. assert (WK : wf_kmsg (query_message id t q)).
  { destruct q; cbn [query_message]; (split; [reflexivity|]; split; [apply utf8_ok_iff; reflexivity|]); cbn [wf_args wf_query] in *; auto. }
  rewrite recv_short; [rewrite round_trip by exact WK; destruct q; reflexivity|]. rewrite (proj1 (@C73_sent id t W) q WQ).
  pose proof (@ostr_len t 2 ltac:(change (10 ^ N.of_nat 2)%N with 100%N; lia) ltac:(lia)) as LT. unfold wf_id in W. change ID_LEN with 20 in W.
  destruct q as [|g|ih|ih p tok]; cbn [bep5_query wf_query] in *.
  - rewrite !app_length, W. unfold BUF_LEN. cbn. lia.
  - unfold wf_id in WQ. change ID_LEN with 20 in WQ. rewrite !app_length, W, WQ. unfold BUF_LEN. cbn. lia.
  - unfold wf_id in WQ. change ID_LEN with 20 in WQ. rewrite !app_length, W, WQ. unfold BUF_LEN. cbn. lia.
  - destruct WQ as (WQ & WP). unfold wf_id in WQ. change ID_LEN with 20 in WQ. pose proof (TK _ _ _ eq_refl) as K. pose proof (@ostr_len tok 2 ltac:(change (10 ^ N.of_nat 2)%N with 100%N; lia) ltac:(lia)) as LK.
    assert (LP : length (enc_num p) <= 5) by (apply enc_num_len; [change (10 ^ N.of_nat 5)%N with 100000%N; lia|lia]).
    rewrite !app_length, W, WQ. unfold BUF_LEN. cbn. lia.
Qed.
Definition seen_von (v : von) : von := match v with VValues l => VValues l | VNodes n => VNodes (seen_nodes n) end.
Lemma answer_read : forall buf id t tok v, wf_id id -> length t <= 64 -> length tok = 20 -> wf_von v -> match v with VValues l => length l <= 216 | VNodes n => length (nodes_list n) <= 15 end ->
  kmsg_from_bytes (recv_into buf (kmsg_bytes (get_peers_resp id tok v t))) = Val (get_peers_resp id tok (seen_von v) t).
Proof.
  intros buf id t tok v W T K WV L. assert (WK : wf_kmsg (get_peers_resp id tok v t)) by (split; [reflexivity|]; split; [exact W|exact WV]).
  rewrite recv_short; [rewrite round_trip by exact WK; destruct v; reflexivity|]. change (get_peers_resp id tok v t) with (resp_message id t tok (PGetPeers v)). rewrite (proj2 (@C73_sent id t W) tok (PGetPeers v) WV).
  pose proof (@ostr_len t 2 ltac:(change (10 ^ N.of_nat 2)%N with 100%N; lia) ltac:(lia)) as LT. pose proof (@ostr_len tok 2 ltac:(change (10 ^ N.of_nat 2)%N with 100%N; lia) ltac:(lia)) as LK. unfold wf_id in W. change ID_LEN with 20 in W.
  destruct v as [l|n]; cbn [bep5_answer].
  - rewrite !app_length, values_len, W. unfold BUF_LEN. cbn. lia.
  - assert (FL : length (flat_map compact_node (nodes_of n)) = 26 * length (nodes_of n)).
    { apply compact_nodes_len. eapply Forall_impl; [|exact WV]. intros x (X & _). exact X. }
    change (nodes_list n) with (nodes_of n) in L. pose proof (@ostr_len (flat_map compact_node (nodes_of n)) 3 ltac:(change (10 ^ N.of_nat 3)%N with 1000%N; lia) ltac:(lia)).
    rewrite !app_length, W. unfold BUF_LEN. cbn. lia.
Qed.
Lemma seen_nodes_len : forall n, length (nodes_list (seen_nodes n)) = length (nodes_list n).
Proof. intros n. unfold seen_nodes. change (nodes_list n) with (nodes_of n). destruct (nodes_of n) as [|x [|y l]]; cbn; rewrite ?map_length; reflexivity. Qed.

(** ** a round of the search *)
Section net.
Variable sha : bytes -> bytes.
Variable who : addr -> option client.
Notation nstep := (nstep sha who).
Notation nrun := (nrun sha who).
Lemma get_in : forall n from to m m' c d ds os, In (mk_dgram from to (kmsg_bytes m)) (n_air n) -> who to = Some c -> y_sock (h_sys (n_hosts n to)) = Some d -> y_outs (h_sys (n_hosts n to)) = [] ->
  kmsg_from_bytes (recv_into (h_buf (n_hosts n to)) (kmsg_bytes m)) = Val m' -> DhtModel.dstep sha all_there d (EIn from m') = Val (ds, os) ->
  exists k n', nstep n (NGet k) = Some n' /\ h_sys (n_hosts n' to) = with_sock (h_sys (n_hosts n to)) (Some ds) os /\ (forall x, x <> to -> n_hosts n' x = n_hosts n x) /\ n_air n' = n_air n.
Proof.
  intros n from to m m' c d ds os I W S O R D. apply In_nth_error in I. destruct I as (k & K). exists k. cbn [NetModel.nstep]. rewrite K. cbn [g_from g_to g_data]. unfold arrive, receive. rewrite W, S, O, R. cbn [ystep]. rewrite S, O, D. cbn [option_map fst after_sock].
  eexists. split; [reflexivity|]. split; [rewrite put_same; reflexivity|]. split; [intros x X; rewrite put_other by exact X; reflexivity|]. cbn. rewrite app_nil_r. reflexivity.
Qed.
Hypothesis FIT : forall a c, who a = Some c -> fit a c.
Hypothesis SHA : forall s, length (sha s) = 20.
Lemma flush_out : forall tid l, Forall (fun e => is_in e = false) (flush tid l).
Proof. intros tid l. unfold flush. apply Forall_forall. intros e I. apply in_flat_map in I. destruct I as (x & _ & [<-|[<-|[<-|[]]]]); reflexivity. Qed.
Lemma do_between : forall a b es e, In e (map (NDo a) es) -> (forall x, In x es -> match x with YTurn _ _ (STick _) => False | _ => True end) -> proper e /\ between a b e.
Proof. intros a b es e I Q. apply in_map_iff in I. destruct I as (x & <- & I). specialize (Q _ I). split; [|left; reflexivity]. destruct x; cbn; auto. destruct s; cbn; auto. destruct Q. Qed.
Lemma flush_quiet : forall tid l x, In x (flush tid l) -> match x with YTurn _ _ (STick _) => False | _ => True end.
Proof. intros tid l x I. unfold flush in I. apply in_flat_map in I. destruct I as (u & _ & [<-|[<-|[<-|[]]]]); exact Logic.I. Qed.
Lemma round_run : forall es n a ca b cb f now, (forall e, In e es -> proper e) -> nrun (net_start who) es = Some n -> who a = Some ca -> who b = Some cb -> a <> b -> all_room ca -> all_room cb ->
  at_rest n a -> search_idle n a f -> In b (keys (fs_nodes f)) -> small b f -> idle n b -> v_info ca <> v_info cb -> (v_tcp ca < 65536)%N ->
  (exists p, remembers n b (v_info ca) p) \/ (length (fs_nodes f) <= 496 /\ 0 < count (fresh now) (t_nodes (table_at n b))) ->
  exists es' n' f', nrun n es' = Some n' /\ (forall e, In e es' -> proper e /\ between a b e) /\
    (forall l p, In (v_info ca, l) (gmap (h_sys (n_hosts n b))) -> In p (firstn 216 l) -> has_peer n' a p) /\ (forall p, has_peer n a p -> has_peer n' a p) /\
    gmap (h_sys (n_hosts n' b)) = mset bytes_eqb (v_info ca) (match mget bytes_eqb (v_info ca) (gmap (h_sys (n_hosts n b))) with Some l => set_add (tcp_at a ca) l | None => [tcp_at a ca] end) (gmap (h_sys (n_hosts n b))) /\
    at_rest n' a /\ search_idle n' a f' /\ In b (keys (fs_nodes f')) /\ small b f' /\ idle n' b /\ table_at n' a = table_at n a /\ table_at n' b = table_at n b /\ (forall x, x <> a -> x <> b -> n_hosts n' x = n_hosts n x) /\
    exists old tok v, mget addr_eqb b (fs_nodes f) = Some old /\ fs_nodes f' = after (fs_info f) (fs_nodes f) old b tok (seen_von v) /\ answer_for now (h_sys (n_hosts n b)) (v_info ca) v.
Proof.
  intros es n a ca b cb f now P R WA WB NE (LA1 & LA2 & LA3 & LA4 & LA5) (LB1 & LB2 & LB3 & LB4 & LB5) (LA & PA & OA & CA & RA & TA) (F & BZ & FO & RF) IB LN ((LB & PB & OB & CB & RB & TB) & QB) NI TP SOME.
  assert (WKA : working n a) by (split; [exact LA|]; rewrite PA; discriminate). assert (WKB : working n b) by (split; [exact LB|]; rewrite PB; discriminate).
  pose proof (@working_well sha who es n a ca FIT P WA R WKA) as WLA. pose proof (@working_well sha who es n b cb FIT P WB R WKB) as WLB.
  destruct (@working_map sha who FIT es n b cb P WB R WKB) as (ND & MW).
  pose proof (@nrun_good sha who es _ _ (@start_good who (@fit_sound who FIT)) R (fun e I => proper_fed (P e I))) as (N1 & _).
  unfold listening in LA, LB. destruct (y_sock (h_sys (n_hosts n a))) as [da|] eqn:SA; [|congruence]. destruct (y_sock (h_sys (n_hosts n b))) as [db|] eqn:SB; [|congruence].
  destruct (N1 _ _ WA) as ((TRA & ASA & _) & _). destruct (N1 _ _ WB) as ((TRB & _ & _) & _).
  pose proof (tr_own TRA SA) as OWA. pose proof (tr_own TRB SB) as OWB. pose proof (tr_info TRB) as INB. destruct (as_fet ASA F) as (FI & FP & _).
  destruct (FIT WA) as ((IA1 & IA2 & _) & AA & _). destruct (FIT WB) as ((IB1 & IB2 & _) & AB & _).
  set (tb := [x61; x61]). set (tid := fun x => if addr_eqb x b then tb else [x62; x62]).
  assert (TB1 : tid b = tb) by (unfold tid; rewrite (proj2 (addr_eqb_spec b b) eq_refl); reflexivity).
  assert (TB2 : forall x, tid x = tid b -> x = b) by (intros x; rewrite TB1; unfold tid; destruct (addr_eqb x b) eqn:E; [intros _; apply addr_eqb_spec; exact E|discriminate]).
  (* the search asks *)
  set (l1 := map (fun x => (x, QGetPeers (fs_info f))) (keys (fs_nodes f))).
  set (f1 := mk_fet (fs_info f) (fs_port f) (fs_nodes f) (y_peers (h_sys (n_hosts n a))) true).
  set (y0 := with_fet (h_sys (n_hosts n a)) (Some f1) (cmds l1) (y_peers (h_sys (n_hosts n a)))).
  assert (E0 : ystep sha (v_max ca) (v_caps ca) (v_tcp ca) (h_sys (n_hosts n a)) YTick = Some (y0, [])).
  { cbn [ystep]. rewrite F, FO. unfold fstep. cbn [fs_busy]. rewrite BZ. cbn [fs_info fs_port fs_nodes fs_peers]. unfold y0, cmds, l1. rewrite map_map. reflexivity. }
  destruct (@flush_run sha (v_max ca) (v_caps ca) (v_tcp ca) tid l1 y0 da f1) as (y1 & h1 & Y1 & S1 & Q1 & (A1 & A2 & A3 & A4 & A5) & A6); [repeat split; assumption|reflexivity|reflexivity|exact LA1|].
  destruct (fun H => @nrun_do sha who (YTick :: flush tid l1) n a ca y1 ((YTick, []) :: h1) WA H) as (n1 & E1 & H1 & X1 & R1).
  { constructor; [reflexivity|apply flush_out]. } { cbn [yrun]. rewrite E0, Y1. reflexivity. }
  cbn [flat_map snd app] in R1. rewrite S1 in R1.
  set (m1 := query_message (d_own da) tb (QGetPeers (v_info ca))).
  assert (I1 : In (mk_dgram a b (kmsg_bytes m1)) (n_air n1)).
  { rewrite R1. apply in_or_app. right. unfold dgrams, l1. rewrite !map_map. apply in_map_iff. exists b. split; [|exact IB]. cbn [fst snd]. rewrite TB1, FI. reflexivity. }
  (* it arrives *)
  destruct (@get_in n1 a b m1 m1 cb db db [OGetPeers (v_info ca) a tb] I1 WB) as (k1 & n2 & E2 & H2 & X2 & R2).
  { rewrite X1 by congruence. exact SB. } { rewrite X1 by congruence. exact OB. } { apply query_read; [rewrite OWA; exact IA1|cbn; lia|exact IA2|discriminate]. } { reflexivity. }
  rewrite X1 in H2 by congruence.
  assert (AN : mget bytes_eqb (v_info ca) (gmap (h_sys (n_hosts n b))) <> None \/ 0 < count (fresh now) (t_nodes (tab (h_sys (n_hosts n b))))).
  { destruct SOME as [(p & l & J & _)|(_ & X)]; [left|right; exact X]. fold (gmap (h_sys (n_hosts n b))) in J. rewrite (@in_mget _ _ _ bytes_eqb_eq _ _ _ ND J). discriminate. }
  destruct (@serve_run sha (v_max cb) (v_caps cb) (v_tcp cb) (h_sys (n_hosts n2 b)) db (v_info ca) a tb now) as (v & y3 & h3 & Y3 & S3 & AV & Q3 & B1 & B2 & B3 & B4 & B5); try (rewrite H2; cbn; auto; fail).
  all: try assumption. all: try (rewrite H2; unfold rich, tab, gmap; cbn; first [split; [apply (w_tab WLB)|apply (w_info WLB)]|rewrite INB; exact NI|exact AN]).
  destruct (fun H => @nrun_do sha who _ n2 b cb y3 h3 WB H Y3) as (n3 & E3 & H3 & X3 & R3); [repeat constructor|]. rewrite S3 in R3.
  set (tok := token_for sha db a) in *. set (m2 := get_peers_resp (d_own db) tok v tb) in *.
  assert (G2 : gmap (h_sys (n_hosts n2 b)) = gmap (h_sys (n_hosts n b))) by (rewrite H2; reflexivity).
  assert (G2t : tab (h_sys (n_hosts n2 b)) = tab (h_sys (n_hosts n b))) by (rewrite H2; reflexivity).
  assert (G2i : g_info (k_mgr (y_dht (h_sys (n_hosts n2 b)))) = v_info cb) by (rewrite H2; exact INB).
  unfold answer_for in AV. rewrite G2 in AV. rewrite G2 in B2. rewrite G2t in B3. rewrite G2i in B5.
  assert (VW : wf_von v /\ match v with VValues l => length l <= 216 | VNodes nd => length (nodes_list nd) <= 15 end).
  { destruct (mget bytes_eqb (v_info ca) (gmap (h_sys (n_hosts n b)))) as [l|] eqn:MG.
    - subst v. split; [|rewrite firstn_length; lia]. apply Forall_forall. intros p J. assert (J' : In p l) by (rewrite <- (firstn_skipn 216 l); apply in_or_app; left; exact J). destruct (MW _ _ _ (@mget_in _ _ _ bytes_eqb_eq _ _ _ MG) J') as [X|X]; [rewrite INB in X; contradiction|exact X].
    - destruct AV as (nd & -> & V1 & V2 & _). split; assumption. }
  destruct VW as (VW & VL).
  (* the answer arrives *)
  assert (I2 : In (mk_dgram b a (kmsg_bytes m2)) (n_air n3)) by (rewrite R3; apply in_or_app; right; left; reflexivity).
  assert (HA3 : n_hosts n3 a = n_hosts n1 a) by (rewrite X3, X2 by congruence; reflexivity).
  destruct Q1 as (Q11 & Q12 & Q13 & Q14 & Q15 & Q16).
  assert (PG : mget bytes_eqb tb (pend_all tid l1 (d_pending da)) = Some (KGetPeers, FETCHER)).
  { rewrite <- TB1. apply pend_all_get; [exact TB2| |left].
    - intros q J. unfold l1 in J. apply in_map_iff in J. destruct J as (x & E & _). injection E as _ <-. reflexivity.
    - unfold l1. rewrite map_map. rewrite map_id. exact IB. }
  set (d2 := mk_dcon (d_own da) (d_secret da) (mdel bytes_eqb tb (pend_all tid l1 (d_pending da)))).
  destruct (@get_in n3 b a m2 (get_peers_resp (d_own db) tok (seen_von v) tb) ca (mk_dcon (d_own da) (d_secret da) (pend_all tid l1 (d_pending da))) d2 [OResp FETCHER (FGetPeers b tok (seen_von v))] I2 WA) as (k2 & n4 & E4 & H4 & X4 & R4).
  { rewrite HA3, H1. exact Q11. } { rewrite HA3, H1. exact Q13. } { apply answer_read; [rewrite OWB; exact IB1|cbn; lia|apply SHA|exact VW|exact VL]. }
  { unfold get_peers_resp. cbn [DhtModel.dstep]. unfold handle_resp. cbn [kind_of_resp payload d_pending]. unfold pend_get. rewrite PG. reflexivity. }
  rewrite HA3, H1 in H4. cbn [h_sys] in H4.
  destruct (@key_mget _ _ _ addr_eqb_spec _ _ IB) as (old & OLD).
  assert (VL' : forall nd, seen_von v = VNodes nd -> length (fs_nodes f1) + length (nodes_list nd) <= 511).
  { intros nd E. destruct v as [l|nd']; [discriminate|]. injection E as <-. rewrite seen_nodes_len. cbn [f1 fs_nodes]. destruct SOME as [(p & l & J & _)|(X & _)]; [|lia].
    fold (gmap (h_sys (n_hosts n b))) in J. rewrite (@in_mget _ _ _ bytes_eqb_eq _ _ _ ND J) in AV. discriminate. }
  destruct (@hear_search sha (v_max ca) (v_caps ca) (v_tcp ca) (h_sys (n_hosts n4 a)) d2 f1 b tok (seen_von v) old) as (y5 & h5 & f5 & q5 & nv & Y5 & S5 & Q5 & C1 & C2 & C3 & C4 & C5 & C6 & C7 & C8 & C9 & C10 & C11 & C12 & C13 & C14);
    try (rewrite H4; cbn; auto; fail); try assumption; try reflexivity; try (rewrite H4; cbn; rewrite ?A3, ?A4, ?A6; auto; fail).
  (* the rest of the round *)
  destruct (@flush_run sha (v_max ca) (v_caps ca) (v_tcp ca) tid q5 y5 d2 f5 Q5 C2 C3 LA1) as (y6 & h6 & Y6 & S6 & Q6 & (D1 & D2 & D3 & D4 & D5) & D6).
  set (f6 := mk_fet (fs_info f5) (fs_port f5) (fs_nodes f5) (y_peers y6) false).
  destruct (@announce_in (fs_port f5) (fs_info f5) (fs_nodes f5) b nv tok C9 C7 C8) as (q7 & AQ & AI).
  set (y7 := with_fet y6 (Some f6) (cmds q7) (y_peers y6)).
  assert (E7 : ystep sha (v_max ca) (v_caps ca) (v_tcp ca) y6 YQuiet = Some (y7, [])).
  { cbn [ystep]. rewrite D4, C2, D6. unfold fstep. cbn [fs_busy]. rewrite C4. unfold end_round. cbn [fs_info fs_port fs_nodes fs_peers]. rewrite AQ. reflexivity. }
  destruct Q6 as (Q61 & Q62 & Q63 & Q64 & Q65 & Q66).
  set (d6 := mk_dcon (d_own d2) (d_secret d2) (pend_all tid q5 (d_pending d2))) in *.
  destruct (@flush_run sha (v_max ca) (v_caps ca) (v_tcp ca) tid q7 y7 d6 f6) as (y8 & h8 & Y8 & S8 & Q8 & (G1 & G3 & G4 & G5 & G6) & G7); [repeat split; assumption|reflexivity|reflexivity|exact LA1|].
  destruct (fun H => @nrun_do sha who ([YOut; YAnswer] ++ flush tid q5 ++ [YQuiet] ++ flush tid q7) n4 a ca y8 (h5 ++ h6 ++ [(YQuiet, [])] ++ h8) WA H) as (n5 & E5 & H5 & X5 & R5).
  { repeat (apply Forall_app; split); try apply flush_out; repeat constructor. } { rewrite yrun_app, Y5, yrun_app, Y6, yrun_app. cbn [yrun]. rewrite E7, Y8. reflexivity. }
  rewrite !flat_map_app, S5, S6, S8 in R5. cbn [flat_map snd app] in R5.
  set (m3 := query_message (d_own da) tb (QAnnounce (v_info ca) (v_tcp ca) tok)).
  assert (I3 : In (mk_dgram a b (kmsg_bytes m3)) (n_air n5)).
  { rewrite R5. apply in_or_app. right. unfold dgrams. rewrite map_app. apply in_or_app. right. rewrite map_map. apply in_map_iff. exists (b, QAnnounce (fs_info f5) (fs_port f5) tok). split; [|exact AI]. cbn [fst snd]. rewrite TB1, C5, C6. cbn [f1 fs_info fs_port]. rewrite FI, FP. reflexivity. }
  assert (HB5 : n_hosts n5 b = n_hosts n3 b) by (rewrite X5, X4 by congruence; reflexivity). destruct Q3 as (Q31 & Q32 & Q33 & Q34 & Q35 & Q36).
  (* it announces itself *)
  destruct (@get_in n5 a b m3 m3 cb db db [ONewPeer (tcp_at a ca) (v_info ca); OSend a (announce_peer_resp (d_own db) tb)] I3 WB) as (k3 & n6 & E6 & H6 & X6 & R6).
  { rewrite HB5, H3. exact Q31. } { rewrite HB5, H3. exact Q33. } { apply query_read; [rewrite OWA; exact IA1|cbn; lia|split; [exact IA2|exact TP]|]. intros ih p tk E. injection E as <- <- <-. apply SHA. }
  { unfold m3. cbn [query_message announce_peer_query DhtModel.dstep handle_query]. unfold token_is_valid. fold tok. rewrite bytes_eqb_refl. reflexivity. }
  rewrite HB5, H3 in H6. cbn [h_sys] in H6.
  destruct (@store_run sha (v_max cb) (v_caps cb) (v_tcp cb) (h_sys (n_hosts n6 b)) db (tcp_at a ca) (v_info ca) a (announce_peer_resp (d_own db) tb) now) as (y9 & h9 & Y9 & Q9 & K1 & K2 & K3 & K4 & K5);
    try (rewrite H6; cbn; auto; fail); try assumption.
  { rewrite H6. cbn. rewrite B5. exact NI. }
  destruct (fun H => @nrun_do sha who _ n6 b cb y9 h9 WB H Y9) as (n7 & E9 & H9 & X9 & R9); [repeat constructor|].
  assert (HA7 : n_hosts n7 a = n_hosts n5 a) by (rewrite X9, X6 by congruence; reflexivity).
  exists (map (NDo a) (YTick :: flush tid l1) ++ [NGet k1] ++ map (NDo b) [YOut; YTurn now first_ones SQuery; YSend; YCheck now now; YCmd []; YOut] ++ [NGet k2] ++ map (NDo a) ([YOut; YAnswer] ++ flush tid q5 ++ [YQuiet] ++ flush tid q7) ++ [NGet k3] ++ map (NDo b) [YOut; YOut; YTurn now first_ones SQuery; YCheck now now]), n7, f6.
  split. { rewrite nrun_app, E1, nrun_app. cbn [NetModel.nrun]. rewrite E2, nrun_app, E3, nrun_app. cbn [NetModel.nrun]. rewrite E4, nrun_app, E5, nrun_app. cbn [NetModel.nrun]. rewrite E6. exact E9. }
  split.
  { assert (SW : forall e, between b a e -> between a b e) by (intros []; cbn; tauto).
    intros e J. repeat (apply in_app_or in J; destruct J as [J|J]).
    - eapply do_between; [exact J|]. intros x [<-|I]; [exact Logic.I|eapply flush_quiet; exact I].
    - destruct J as [<-|[]]. split; exact Logic.I.
    - destruct (@do_between b a _ e J) as (Z1 & Z2); [|split; [exact Z1|apply SW; exact Z2]]. intros x I. cbn [In] in I. repeat (destruct I as [<-|I]; [exact Logic.I|]). destruct I.
    - destruct J as [<-|[]]. split; exact Logic.I.
    - eapply do_between; [exact J|]. intros x I. repeat (apply in_app_or in I; destruct I as [I|I]); try (eapply flush_quiet; exact I). all: cbn [In] in I; repeat (destruct I as [<-|I]; [exact Logic.I|]); destruct I.
    - destruct J as [<-|[]]. split; exact Logic.I.
    - destruct (@do_between b a _ e J) as (Z1 & Z2); [|split; [exact Z1|apply SW; exact Z2]]. intros x I. cbn [In] in I. repeat (destruct I as [<-|I]; [exact Logic.I|]). destruct I. }
  assert (YP : heard (seen_von v) (y_peers (h_sys (n_hosts n a))) (y_peers (h_sys (n_hosts n7 a)))).
  { rewrite HA7, H5. cbn [h_sys]. rewrite G6. cbn [y7 with_fet y_peers]. rewrite D5. rewrite H4 in C10. cbn [with_sock y_peers] in C10. rewrite A5 in C10. exact C10. }
  split.
  { intros l p J JP. unfold has_peer. fold (gmap (h_sys (n_hosts n b))) in J. rewrite (@in_mget _ _ _ bytes_eqb_eq _ _ _ ND J) in AV. subst v. cbn [seen_von heard] in YP. rewrite YP. apply extend_keys; [apply (w_peers WLA)|]. left. exact JP. }
  split.
  { intros p J. unfold has_peer in *. destruct v as [l|nd]; cbn [seen_von heard] in YP; rewrite YP; [|exact J]. apply extend_keys; [apply (w_peers WLA)|]. right. exact J. }
  split. { rewrite H9. cbn [h_sys]. rewrite K5. rewrite H6. change (gmap (with_sock y3 (Some db) [ONewPeer (tcp_at a ca) (v_info ca); OSend a (announce_peer_resp (d_own db) tb)])) with (gmap y3). rewrite B2. reflexivity. }
  destruct Q8 as (Q81 & Q82). destruct Q9 as (Q91 & Q92).
  split. { unfold at_rest, listening. rewrite HA7, H5. cbn [h_sys]. rewrite Q81. split; [discriminate|exact Q82]. }
  split. { unfold search_idle. rewrite HA7, H5. cbn [h_sys]. rewrite G5, G4. cbn [y7 with_fet y_fet y_rf]. split; [reflexivity|]. split; [reflexivity|]. split; [exact G7|]. rewrite D3. exact C1. }
  split. { unfold f6. cbn [fs_nodes]. eapply (@mget_some_key _ _ _ addr_eqb_spec). exact C7. }
  split. { unfold small, f6. cbn [fs_nodes]. split; [exact C13|]. intro w. eapply Nat.le_trans; [eapply toks_again; eauto|exact C9]. }
  split. { unfold idle, at_rest, listening. rewrite H9. cbn [h_sys]. rewrite Q91. split; [split; [discriminate|exact Q92]|exact K1]. }
  split. { unfold table_at. rewrite HA7, H5. cbn [h_sys]. rewrite G1. cbn [y7 with_fet y_dht]. rewrite D1, C11, H4. cbn [with_sock y_dht]. rewrite A1. reflexivity. }
  split. { unfold table_at. rewrite H9. cbn [h_sys]. fold (tab y9). rewrite K2, H6. change (tab (with_sock y3 (Some db) [ONewPeer (tcp_at a ca) (v_info ca); OSend a (announce_peer_resp (d_own db) tb)])) with (tab y3). rewrite B3. reflexivity. }
  split. { intros x Xa Xb. rewrite X9, X6, X5, X4, X3, X2, X1 by congruence. reflexivity. }
  exists old, tok, v. split; [exact OLD|]. split; [exact C14|]. unfold answer_for. rewrite G2t in AV. exact AV.
Qed.
End net.

(** ** the theorems *)
(** The client at [b] remembers at most [k] peers of the torrent. *)
Definition few_peers (n : net) (b : addr) (ih : ID) (k : nat) : Prop := forall l, In (ih, l) (g_map (k_mgr (y_dht (h_sys (n_hosts n b))))) -> length l <= k.
(** It has something to answer with. *)
Definition has_answer (n : net) (b : addr) (ih : ID) (now : N) : Prop := (exists p, remembers n b ih p) \/ 0 < count (fresh now) (t_nodes (table_at n b)).
(** The search knows [b], not too many nodes, and at most fifteen that gave it a token. *)
Definition searches (n : net) (a b : addr) : Prop :=
  exists f, search_idle n a f /\ In b (keys (fs_nodes f)) /\ length (fs_nodes f) <= 496 /\ length (filter (fun e => match f_token (snd e) with Some _ => true | None => false end) (fs_nodes f)) <= 15.

Lemma toks_filter : forall m, length (filter (fun e => match f_token (snd e) with Some _ => true | None => false end) m) = length (toks m).
Proof. induction m as [|[k u] m IH]; cbn; [reflexivity|]. rewrite app_length. unfold toks in IH. cbn in IH. destruct (f_token u); cbn; rewrite IH; reflexivity. Qed.
Lemma toks_one : forall b w m, length (toks (mset addr_eqb b w m)) <= S (length (toks m)).
Proof.
  induction m as [|[k u] m IH]; cbn [mset]; [cbn; destruct (f_token w); cbn; lia|]. destruct (addr_eqb b k); unfold toks in *; cbn [flat_map]; rewrite !app_length; cbn [snd fst].
  - destruct (f_token w), (f_token u); cbn; lia.
  - lia.
Qed.
Lemma searches_small : forall n a b, searches n a b -> exists f, search_idle n a f /\ In b (keys (fs_nodes f)) /\ length (fs_nodes f) <= 496 /\ small b f.
Proof. intros n a b (f & S & I & L & T). exists f. rewrite toks_filter in T. repeat split; try assumption; try apply S. - lia. - intro w. pose proof (toks_one b w (fs_nodes f)). lia. Qed.
Lemma set_add_in : forall p l, In p (set_add p l).
Proof. intros p l. unfold set_add. destruct (existsb _ l) eqn:E; [|left; reflexivity]. apply existsb_exists in E. destruct E as (x & I & E). apply addr_eqb_spec in E. subst x. exact I. Qed.
Lemma set_add_len : forall p l, length (set_add p l) <= S (length l).
Proof. intros p l. unfold set_add. destruct (existsb _ l); cbn; lia. Qed.
Lemma set_add_old : forall p q l, In q l -> In q (set_add p l).
Proof. intros p q l I. unfold set_add. destruct (existsb _ l); [exact I|right; exact I]. Qed.
(** What follows from the equation for what is remembered. *)
Lemma stored : forall (m : peer_map) ih p, NoDup (keys m) -> let m' := mset bytes_eqb ih (match mget bytes_eqb ih m with Some l => set_add p l | None => [p] end) m in
  (exists l, In (ih, l) m' /\ In p l) /\ (forall i q, (exists l, In (i, l) m /\ In q l) -> exists l, In (i, l) m' /\ In q l) /\
  (forall k, 0 < k -> (forall l, In (ih, l) m -> length l < k) -> forall l, In (ih, l) m' -> length l <= k).
Proof.
  intros m ih p ND m'. assert (G : forall i, mget bytes_eqb i m' = if bytes_eqb i ih then Some (match mget bytes_eqb ih m with Some l => set_add p l | None => [p] end) else mget bytes_eqb i m).
  { intro i. unfold m'. destruct (bytes_eqb i ih) eqn:E; [apply bytes_eqb_eq in E; subst i; apply (mget_mset_same _ bytes_eqb_eq)|]. apply (mget_mset_other _ bytes_eqb_eq). intros ->. rewrite bytes_eqb_refl in E. discriminate. }
  assert (ND' : NoDup (keys m')) by (apply NoDup_mset; [exact bytes_eqb_eq|exact ND]).
  split; [|split].
  - pose proof (G ih) as E. rewrite bytes_eqb_refl in E. eexists. split; [eapply (@mget_in _ _ _ bytes_eqb_eq); exact E|]. destruct (mget bytes_eqb ih m); [apply set_add_in|left; reflexivity].
  - intros i q (l & I & J). pose proof (@in_mget _ _ _ bytes_eqb_eq _ _ _ ND I) as E. pose proof (G i) as E'. destruct (bytes_eqb i ih) eqn:X.
    + apply bytes_eqb_eq in X. subst i. rewrite E in E'. eexists. split; [eapply (@mget_in _ _ _ bytes_eqb_eq); exact E'|]. apply set_add_old. exact J.
    + rewrite E in E'. exists l. split; [eapply (@mget_in _ _ _ bytes_eqb_eq); exact E'|exact J].
  - intros k K F l I. pose proof (@in_mget _ _ _ bytes_eqb_eq _ _ _ ND' I) as E. rewrite G, bytes_eqb_refl in E. injection E as <-. destruct (mget bytes_eqb ih m) as [l|] eqn:M; [|cbn; lia].
    pose proof (set_add_len p l). pose proof (F _ (@mget_in _ _ _ bytes_eqb_eq _ _ _ M)). lia.
Qed.

(** A search that is between two rounds can always go through the next one: of a
    client of another torrent it has among its nodes it gets the peers that client
    remembers for its torrent, the first 216 (what an answer holds), and
    that client remembers the searching client as such a peer afterwards. Nobody
    loses anything. *)
Theorem C133_round : forall sha who es n a ca b cb now, (forall a c, who a = Some c -> fit a c) -> (forall s, length (sha s) = 20) -> (forall e, In e es -> proper e) -> nrun sha who (net_start who) es = Some n ->
  who a = Some ca -> who b = Some cb -> a <> b -> all_room ca -> all_room cb -> at_rest n a -> searches n a b -> idle n b -> v_info ca <> v_info cb -> (v_tcp ca < 65536)%N ->
  has_answer n b (v_info ca) now ->
  exists es' n', nrun sha who n es' = Some n' /\ (forall e, In e es' -> proper e /\ between a b e) /\
    (forall l p, In (v_info ca, l) (g_map (k_mgr (y_dht (h_sys (n_hosts n b))))) -> In p (firstn 216 l) -> has_peer n' a p) /\ remembers n' b (v_info ca) (tcp_at a ca) /\
    (forall p, has_peer n a p -> has_peer n' a p) /\ (forall ih p, remembers n b ih p -> remembers n' b ih p) /\
    at_rest n' a /\ idle n' b /\ table_at n' a = table_at n a /\ table_at n' b = table_at n b /\ (forall x, x <> a -> x <> b -> n_hosts n' x = n_hosts n x).
Proof.
  intros sha who es n a ca b cb now FIT SHA P R WA WB NE LA LB RA SE RB NI TP HA.
  destruct (searches_small SE) as (f & SF & IB & LN & SM).
  destruct (@round_run sha who FIT SHA es n a ca b cb f now P R WA WB NE LA LB RA SF IB SM RB NI TP) as (es' & n' & f' & H1 & H2 & H3 & H4 & H5 & H6 & _ & _ & _ & H7 & H8 & H9 & H10 & _).
  { destruct HA as [X|X]; [left; exact X|right; split; [exact LN|exact X]]. }
  assert (WKB : working n b) by (destruct RB as ((L & PB & _) & _); split; [exact L|]; rewrite PB; discriminate).
  destruct (@working_map sha who FIT es n b cb P WB R WKB) as (ND & _).
  destruct (@stored (gmap (h_sys (n_hosts n b))) (v_info ca) (tcp_at a ca) ND) as (S1 & S2 & _). rewrite <- H5 in S1, S2.
  exists es', n'. split; [exact H1|]. split; [exact H2|]. split; [exact H3|]. split; [exact S1|]. split; [exact H4|]. split; [exact S2|]. auto 8.
Qed.

(** All of them, if they are no more. *)
Theorem C133_all : forall sha who es n a ca b cb now, (forall a c, who a = Some c -> fit a c) -> (forall s, length (sha s) = 20) -> (forall e, In e es -> proper e) -> nrun sha who (net_start who) es = Some n ->
  who a = Some ca -> who b = Some cb -> a <> b -> all_room ca -> all_room cb -> at_rest n a -> searches n a b -> idle n b -> v_info ca <> v_info cb -> (v_tcp ca < 65536)%N ->
  has_answer n b (v_info ca) now -> few_peers n b (v_info ca) 216 ->
  exists es' n', nrun sha who n es' = Some n' /\ (forall e, In e es' -> proper e /\ between a b e) /\ forall p, remembers n b (v_info ca) p -> has_peer n' a p.
Proof.
  intros sha who es n a ca b cb now FIT SHA P R WA WB NE LA LB RA SE RB NI TP HA FEW. destruct (@C133_round sha who es n a ca b cb now FIT SHA P R WA WB NE LA LB RA SE RB NI TP HA) as (es' & n' & H1 & H2 & H3 & _).
  exists es', n'. split; [exact H1|]. split; [exact H2|]. intros p (l & I & J). eapply H3; [exact I|]. rewrite firstn_all2 by (apply FEW; exact I). exact J.
Qed.

(** Two clients of one torrent that do not know of each other find each other
    through a client of any other torrent both have among the nodes of their
    searches. *)
Theorem C134_find_each_other : forall sha who es n a ca c cc b cb now, (forall a c, who a = Some c -> fit a c) -> (forall s, length (sha s) = 20) -> (forall e, In e es -> proper e) -> nrun sha who (net_start who) es = Some n ->
  who a = Some ca -> who c = Some cc -> who b = Some cb -> a <> b -> c <> b -> a <> c -> all_room ca -> all_room cc -> all_room cb -> at_rest n a -> at_rest n c -> searches n a b -> searches n c b -> idle n b ->
  v_info cc = v_info ca -> v_info ca <> v_info cb -> (v_tcp ca < 65536)%N -> (v_tcp cc < 65536)%N -> has_answer n b (v_info ca) now -> few_peers n b (v_info ca) 214 ->
  exists es' n', nrun sha who n es' = Some n' /\ (forall e, In e es' -> proper e) /\ has_peer n' a (tcp_at c cc) /\ has_peer n' c (tcp_at a ca) /\ (forall x, x <> a -> x <> b -> x <> c -> n_hosts n' x = n_hosts n x).
Proof.
  intros sha who es n a ca c cc b cb now FIT SHA P R WA WC WB NE1 NE2 NE3 LA LC LB RA RC SA SC RB SI NI TA TC HA FEW.
  destruct (searches_small SA) as (f & SF & IB & LN & SM). destruct (searches_small SC) as (g & SG & IG & LG & SMG).
  assert (WK : forall m, idle m b -> working m b) by (intros m ((L & PB & _) & _); split; [exact L|]; rewrite PB; discriminate).
  destruct (@round_run sha who FIT SHA es n a ca b cb f now P R WA WB NE1 LA LB RA SF IB SM RB NI TA) as (e1 & n1 & f1 & H1 & H2 & H3 & H4 & H5 & H6 & H7 & H8 & H9 & H10 & H11 & H12 & H13 & _).
  { destruct HA as [X|X]; [left; exact X|right; split; [exact LN|exact X]]. }
  destruct (@working_map sha who FIT es n b cb P WB R (WK _ RB)) as (ND & _).
  destruct (@stored (gmap (h_sys (n_hosts n b))) (v_info ca) (tcp_at a ca) ND) as (S1 & _ & S2). rewrite <- H5 in S1, S2.
  assert (P1 : forall e, In e (es ++ e1) -> proper e) by (intros e I; apply in_app_or in I; destruct I as [I|I]; [auto|apply H2; exact I]).
  assert (R1 : nrun sha who (net_start who) (es ++ e1) = Some n1) by (rewrite nrun_app, R; exact H1).
  assert (EC : n_hosts n1 c = n_hosts n c) by (apply H13; congruence).
  destruct (@round_run sha who FIT SHA (es ++ e1) n1 c cc b cb g now P1 R1 WC WB NE2 LC LB) as (e2 & n2 & g1 & K1 & K2 & K3 & K4 & K5 & K6 & K7 & K8 & K9 & K10 & K11 & K12 & K13 & _).
  { unfold at_rest, listening in *. rewrite EC. exact RC. } { unfold search_idle in *. rewrite EC. exact SG. } { exact IG. } { exact SMG. } { exact H10. } { congruence. } { exact TC. } { left. exists (tcp_at a ca). rewrite SI. exact S1. }
  rewrite SI in K3, K5.
  destruct (@working_map sha who FIT (es ++ e1) n1 b cb P1 WB R1 (WK _ H10)) as (ND1 & _).
  destruct (@stored (gmap (h_sys (n_hosts n1 b))) (v_info ca) (tcp_at c cc) ND1) as (T1 & _ & T2). rewrite <- K5 in T1, T2.
  assert (P2 : forall e, In e ((es ++ e1) ++ e2) -> proper e) by (intros e I; apply in_app_or in I; destruct I as [I|I]; [auto|apply K2; exact I]).
  assert (R2 : nrun sha who (net_start who) ((es ++ e1) ++ e2) = Some n2) by (rewrite nrun_app, R1; exact K1).
  assert (EA : n_hosts n2 a = n_hosts n1 a) by (apply K13; congruence).
  destruct (@round_run sha who FIT SHA ((es ++ e1) ++ e2) n2 a ca b cb f1 now P2 R2 WA WB NE1 LA LB) as (e3 & n3 & f3 & J1 & J2 & J3 & J4 & J5 & J6 & J7 & J8 & J9 & J10 & J11 & J12 & J13 & _).
  { unfold at_rest, listening in *. rewrite EA. exact H6. } { unfold search_idle in *. rewrite EA. exact H7. } { exact H8. } { exact H9. } { exact K10. } { exact NI. } { exact TA. } { left. exists (tcp_at c cc). exact T1. }
  assert (L1 : forall l, In (v_info ca, l) (gmap (h_sys (n_hosts n1 b))) -> length l <= 215) by (apply S2; [lia|]; intros l I; apply FEW in I; lia).
  assert (L2 : forall l, In (v_info ca, l) (gmap (h_sys (n_hosts n2 b))) -> length l <= 216) by (apply T2; [lia|]; intros l I; apply L1 in I; lia).
  exists (e1 ++ e2 ++ e3), n3. split; [rewrite nrun_app, H1, nrun_app, K1; exact J1|]. split.
  { intros e I. apply in_app_or in I. destruct I as [I|I]; [apply H2; exact I|]. apply in_app_or in I. destruct I as [I|I]; [apply K2; exact I|apply J2; exact I]. }
  split. { destruct T1 as (l & I & J). eapply J3; [exact I|rewrite firstn_all2 by (apply L2; exact I); exact J]. }
  split. { unfold has_peer. rewrite J13 by congruence. destruct S1 as (l & I & J). eapply K3; [exact I|rewrite firstn_all2 by (apply L1 in I; lia); exact J]. }
  intros x X1 X2 X3. rewrite J13, K13, H13 by congruence. reflexivity.
Qed.

(** ** example *)
(** The first and the third client, of one torrent, each told of the second, of
    another, that was told of the first (C133's hypotheses are among these). *)
Definition ex_told : list nev := [NDo addr_a YSend; NDo addr_b YSend; NDo addr_c YSend] ++ meet addr_a addr_b 0 x61 ++ meet addr_b addr_a 2 x62 ++ meet addr_c addr_b 4 x65.
Definition ready_b (n : net) (a : addr) : bool :=
  let y := h_sys (n_hosts n a) in
  match y_sock y, y_phase y, y_outs y, y_cmd y, y_rd y, y_port y, y_qry y with Some _, PIdle, [], [], [], [], [] => true | _, _, _, _, _, _, _ => false end.
Definition search_b (n : net) (a b : addr) : bool :=
  let y := h_sys (n_hosts n a) in
  match y_fet y, y_fout y, y_rf y with Some f, [], [] => negb (fs_busy f) && match fs_nodes f with [(k, v)] => addr_eqb k b | _ => false end | _, _, _ => false end.
Lemma ready_idle : forall n a, ready_b n a = true -> idle n a.
Proof.
  intros n a. unfold ready_b, idle, at_rest, listening. destruct (y_sock _); [|discriminate]. destruct (y_phase _); try discriminate. destruct (y_outs _); [|discriminate]. destruct (y_cmd _); [|discriminate]. destruct (y_rd _); [|discriminate]. destruct (y_port _); [|discriminate]. destruct (y_qry _); [|discriminate].
  intros _. repeat split. discriminate.
Qed.
Lemma search_searches : forall n a b, search_b n a b = true -> searches n a b.
Proof.
  intros n a b. unfold search_b, searches, search_idle. destruct (y_fet _) as [f|]; [|discriminate]. destruct (y_fout _); [|discriminate]. destruct (y_rf _); [|discriminate]. intro H. apply andb_true_iff in H. destruct H as (H1 & H2). destruct (fs_nodes f) as [|[k v] [|? ?]] eqn:E; try discriminate. apply addr_eqb_spec in H2. subst k.
  exists f. rewrite E. split; [repeat split; destruct (fs_busy f); [discriminate|reflexivity]|]. split; [left; reflexivity|]. split; [cbn; lia|]. cbn. destruct (f_token v); cbn; lia.
Qed.
Lemma ex_told_ends : exists n, nrun ex_sha ex_who (net_start ex_who) ex_told = Some n /\
  (ready_b n addr_a && ready_b n addr_b && ready_b n addr_c && search_b n addr_a addr_b && search_b n addr_c addr_b && (0 <? count (fresh 1) (t_nodes (table_at n addr_b))) && forallb (fun e => List.length (snd e) <=? 214) (gmap (h_sys (n_hosts n addr_b)))
   && match y_peers (h_sys (n_hosts n addr_a)), y_peers (h_sys (n_hosts n addr_c)) with [], [] => true | _, _ => false end) = true.
Proof. apply checked. vm_compute. reflexivity. Qed.
Example C134_example : (forall a c, ex_who a = Some c -> fit a c) /\ (forall s, length (ex_sha s) = 20) /\ (forall e, In e ex_told -> proper e) /\
  exists n ca cb cc, nrun ex_sha ex_who (net_start ex_who) ex_told = Some n /\ ex_who addr_a = Some ca /\ ex_who addr_b = Some cb /\ ex_who addr_c = Some cc /\ addr_a <> addr_b /\ addr_c <> addr_b /\ addr_a <> addr_c /\ all_room ca /\ all_room cc /\ all_room cb /\
    at_rest n addr_a /\ at_rest n addr_c /\ searches n addr_a addr_b /\ searches n addr_c addr_b /\ idle n addr_b /\ v_info cc = v_info ca /\ v_info ca <> v_info cb /\ (v_tcp ca < 65536)%N /\ (v_tcp cc < 65536)%N /\
    has_answer n addr_b (v_info ca) 1 /\ few_peers n addr_b (v_info ca) 214 /\ ~ has_peer n addr_a (tcp_at addr_c cc) /\ ~ has_peer n addr_c (tcp_at addr_a ca).
Proof.
  split; [exact ex_fit|]. split. { intro s. unfold ex_sha. rewrite firstn_length, app_length, List.repeat_length. lia. } split; [intros e I; repeat (destruct I as [<-|I]; [exact Logic.I|]); destruct I|].
  destruct ex_told_ends as (n & R & E). repeat (apply andb_true_iff in E; destruct E as (E & ?)). exists n. do 3 eexists.
  split; [exact R|]. split; [reflexivity|]. split; [reflexivity|]. split; [reflexivity|]. split; [discriminate|]. split; [discriminate|]. split; [discriminate|].
  split; [unfold all_room; repeat split; apply Nat.ltb_lt; vm_compute; reflexivity|]. split; [unfold all_room; repeat split; apply Nat.ltb_lt; vm_compute; reflexivity|]. split; [unfold all_room; repeat split; apply Nat.ltb_lt; vm_compute; reflexivity|].
  split; [apply ready_idle; assumption|]. split; [apply ready_idle; assumption|]. split; [apply search_searches; assumption|]. split; [apply search_searches; assumption|]. split; [apply ready_idle; assumption|].
  split; [reflexivity|]. split; [discriminate|]. split; [reflexivity|]. split; [reflexivity|]. split; [right; apply Nat.ltb_lt; assumption|].
  split. { unfold few_peers. intros l I. fold (gmap (h_sys (n_hosts n addr_b))) in I. match goal with H : forallb _ _ = true |- _ => rewrite forallb_forall in H; specialize (H _ I); apply Nat.leb_le in H; exact H end. }
  unfold has_peer. destruct (y_peers (h_sys (n_hosts n addr_a))); [|discriminate]. destruct (y_peers (h_sys (n_hosts n addr_c))); [|discriminate]. cbn. split; intros [].
Qed.

Print Assumptions C133_round.
Print Assumptions C133_all.
Print Assumptions C134_find_each_other.
