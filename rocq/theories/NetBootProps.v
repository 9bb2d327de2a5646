(** C135: clients that start with nothing find each other. *)
From Coq Require Import Strings.String.
From Coq Require Import List NArith ZArith Lia Bool Arith Permutation.
From Coq Require Import Init.Byte.
From Verif Require Import Base Assoc IdModel WireModel TableModel TableSpec TableProofs TableProofs2 TableProps LookupProps PeersModel PeersSpec PeersProofs PeersProps BencodeModel BencodeSpec BencodeProofs KrpcModel Utf8Spec Utf8Proofs KrpcSpec KrpcProofs KrpcProps ReadProps DhtModel DhtSpec DhtMgrModel DhtMgrSpec DhtMgrProps FetchModel TaskModel TaskProps DhtProps DhtSysModel DhtSysSpec DhtAskSpec DhtAskProps ClientInvProps NetModel NetSpec NetProofs NetProps NetSafeProps DhtLifeProps NetMeetProps NetFindProps.
Import ListNotations.
Set Implicit Arguments.
Local Open Scope list_scope.

(** ** one client on its own *)
Section one.
Variable sha : bytes -> bytes.
Variable um : nat.
Variable cap : caps.
Variable tp : N.
Notation yrun := (yrun sha um cap tp).
Notation ystep := (ystep sha um cap tp).
(** What the exchange leaves alone. *)
Definition kept (y y' : sys) : Prop := y_qry y' = y_qry y /\ y_rf y' = y_rf y /\ y_peers y' = y_peers y /\ gmap y' = gmap y /\ g_info (k_mgr (y_dht y')) = g_info (k_mgr (y_dht y)).
Lemma kept_trans : forall y1 y2 y3, kept y1 y2 -> kept y2 y3 -> kept y1 y3.
Proof. intros y1 y2 y3 (A1 & A2 & A3 & A4 & A5) (B1 & B2 & B3 & B4 & B5). repeat split; congruence. Qed.
Lemma check_full : forall y now d, y_sock y = Some d -> y_phase y = PSend [] -> y_outs y = [] -> y_rd y = [] -> y_port y = [] -> rich y ->
  exists y', ystep y (YCheck now now) = Some (y', []) /\ y_sock y' = Some d /\ y_phase y' = PIdle /\ y_outs y' = [] /\ y_cmd y' = y_cmd y /\ y_rd y' = [] /\ y_port y' = [] /\ tab y' = tab y /\ rich y' /\ kept y y' /\
    (count (fresh now) (t_nodes (tab y)) = 0 -> k_wait (y_dht y') = k_wait (y_dht y)) /\
    (k_wait (y_dht y) = true -> 0 < count (fresh now) (t_nodes (tab y)) -> exists l, get_closest_nodes now (tab y) (g_info (k_mgr (y_dht y))) = Val (Some l) /\ y_fet y' = Some (f_start (g_info (k_mgr (y_dht y))) tp l (y_peers y)) /\ y_fout y' = []).
Proof.
  intros y now d S P O RD PT (R1 & R2). cbn [DhtSysModel.ystep]. rewrite P.
  assert (G : forall n, In n (t_nodes (tab y)) -> fresh now n = true -> (0 <? count_good_nodes now (tab y)) = true) by (intros n I F; apply good_count; eauto).
  assert (G0 : 0 < count (fresh now) (t_nodes (tab y)) -> (0 <? count_good_nodes now (tab y)) = true).
  { unfold count. intro L. destruct (filter (fresh now) (t_nodes (tab y))) as [|n r] eqn:E; [cbn in L; lia|]. assert (I : In n (filter (fresh now) (t_nodes (tab y)))) by (rewrite E; left; reflexivity). apply filter_In in I. apply (G n); tauto. }
  assert (G1 : count (fresh now) (t_nodes (tab y)) = 0 -> (0 <? count_good_nodes now (tab y)) = false).
  { intro E. destruct (0 <? count_good_nodes now (tab y)) eqn:X; [|reflexivity]. apply good_count in X. destruct X as (n & I & F). unfold count in E. assert (J : In n (filter (fresh now) (t_nodes (tab y)))) by (apply filter_In; auto). destruct (filter _ _); [destruct J|discriminate]. }
  change (g_table (k_mgr (y_dht y))) with (tab y) in *.
  destruct (k_wait (y_dht y)) eqn:KW; cbn [andb].
  2:{ eexists. split; [reflexivity|]. unfold rich, tab, kept, gmap. cbn. repeat split; auto. intro X. discriminate X. }
  destruct (0 <? count_good_nodes now (tab y)) eqn:C.
  2:{ eexists. split; [reflexivity|]. unfold rich, kept, gmap. cbn. repeat split; auto. intros _ L. specialize (G0 L). congruence. }
  unfold spawn_fetcher. destruct (@closest_spec now _ _ (reachable_inv R1) R2) as (ol & E & OL). change (g_table (k_mgr (y_dht y))) with (tab y). rewrite E. cbn [rmap]. destruct ol as [l|]; cbn [option_map].
  - eexists. split; [reflexivity|]. unfold rich, kept, gmap. cbn. repeat split; auto.
    + intro X. specialize (G1 X). congruence.
    + intros _ _. exists l. auto.
  - exfalso. apply good_count in C. destruct C as (n & I & F). change fresh with good in F. rewrite (OL n I) in F. discriminate.
Qed.
Lemma ask_full : forall y d b now t, rest y d -> rich y -> 0 < c_cmd cap -> 0 < c_port cap ->
  exists y' h, yrun y [YPort b; YTurn now first_ones SPort; YSend; YCheck now now; YCmd t; YOut] = Some (y', h) /\ flat_map snd h = [(b, ping_query (d_own d) t)] /\
  rest y' (mk_dcon (d_own d) (d_secret d) (pend_insert (d_pending d) t KPing DHT)) /\ tab y' = tab y /\ rich y' /\ kept y y' /\ (count (fresh now) (t_nodes (tab y)) = 0 -> k_wait (y_dht y') = k_wait (y_dht y)).
Proof.
  intros y d b now t (S & P & O & C & RD & PT) RI L1 L2.
  set (y1 := with_port y [b]).
  assert (E1 : ystep y (YPort b) = Some (y1, [])).
  { cbn [DhtSysModel.ystep]. unfold dht_alive. rewrite P, PT. cbn [length]. destruct (0 <? c_port cap) eqn:X; [reflexivity|]. apply Nat.ltb_ge in X. lia. }
  set (y2 := with_dht (with_port y1 []) (mk_task (mgr_of (with_port y1 [])) (k_wait (y_dht y))) (PSend [CQuery b QPing]) (y_peers y)).
  assert (E2 : ystep y1 (YTurn now first_ones SPort) = Some (y2, [])).
  { cbn [DhtSysModel.ystep]. unfold y1. cbn [with_port y_phase y_port]. rewrite P. reflexivity. }
  set (y3 := with_phase (with_cmd y2 [(DHT, CQuery b QPing)]) (PSend [])).
  assert (E3 : ystep y2 YSend = Some (y3, [])).
  { assert (Q1 : y_phase y2 = PSend [CQuery b QPing]) by reflexivity. assert (Q2 : y_sock y2 = Some d) by exact S. assert (Q3 : y_cmd y2 = []) by exact C.
    cbn [DhtSysModel.ystep]. unfold sock_alive, send_cmd. rewrite Q1, Q2, Q3. cbn [length]. destruct (0 <? c_cmd cap) eqn:X; [|apply Nat.ltb_ge in X; lia]. reflexivity. }
  destruct (@check_full y3 now d) as (y4 & E4 & A1 & A2 & A3 & A4 & A5 & A6 & A7 & A8 & A9 & A10 & _); try (unfold y3, y2, y1; cbn; auto; fail).
  set (y5 := with_sock (with_cmd y4 []) (Some (mk_dcon (d_own d) (d_secret d) (pend_insert (d_pending d) t KPing DHT))) [OSend b (ping_query (d_own d) t)]).
  assert (E5 : ystep y4 (YCmd t) = Some (y5, [])).
  { cbn [DhtSysModel.ystep]. rewrite A1, A3, A4. reflexivity. }
  set (y6 := with_sock y5 (Some (mk_dcon (d_own d) (d_secret d) (pend_insert (d_pending d) t KPing DHT))) []).
  assert (E6 : ystep y5 YOut = Some (y6, [(b, ping_query (d_own d) t)])) by reflexivity.
  do 2 eexists. split; [cbn [DhtSysModel.yrun]; rewrite E1, E2, E3, E4, E5, E6; reflexivity|]. split; [reflexivity|]. split.
  { unfold rest, y6, y5. cbn. auto 8. }
  split; [unfold tab, y6, y5 in *; cbn in *; rewrite A7; reflexivity|]. split; [exact A8|]. split; [|exact A10].
  eapply kept_trans; [|eapply kept_trans; [exact A9|]]; unfold kept, gmap, y6, y5, y3, y2, y1; cbn; auto.
Qed.
Lemma hear_full : forall y d id b now, y_sock y = Some d -> y_phase y = PIdle -> y_outs y = [OResp DHT (FTouch id b)] -> y_cmd y = [] -> y_rd y = [] -> y_port y = [] -> rich y -> wf_id id -> wf_addr b -> 0 < c_rd cap ->
  exists y' h, yrun y [YOut; YTurn now first_ones SResp; YCheck now now] = Some (y', h) /\ flat_map snd h = [] /\ rest y' d /\ touch_node now id b (tab y) = Val (tab y') /\ rich y' /\ kept y y' /\
    (k_wait (y_dht y) = true -> 0 < count (fresh now) (t_nodes (tab y')) -> exists l, get_closest_nodes now (tab y') (g_info (k_mgr (y_dht y))) = Val (Some l) /\ y_fet y' = Some (f_start (g_info (k_mgr (y_dht y))) tp l (y_peers y)) /\ y_fout y' = []).
Proof.
  intros y d id b now S P O C RD PT (R1 & R2) W1 W2 L.
  set (y1 := with_rd (with_sock y (Some d) []) [FTouch id b]).
  assert (E1 : ystep y YOut = Some (y1, [])).
  { cbn [DhtSysModel.ystep]. rewrite S, O. unfold sock_out, hand_over, dht_alive. cbn [Nat.eqb DHT]. rewrite P, RD. cbn [length]. destruct (0 <? c_rd cap) eqn:X; [reflexivity|apply Nat.ltb_ge in X; lia]. }
  destruct (@touch_goes y now id b R1 W1 W2) as (t & T & RT).
  set (y2 := with_dht (with_rd y1 []) (mk_task (set_table (mgr_of (with_rd y1 [])) t) (k_wait (y_dht y))) (PSend []) (y_peers y)).
  assert (E2 : ystep y1 (YTurn now first_ones SResp) = Some (y2, [])).
  { assert (Q1 : y_phase y1 = PIdle) by exact P. assert (Q2 : y_rd y1 = [FTouch id b]) by reflexivity.
    cbn [DhtSysModel.ystep]. rewrite Q1, Q2. unfold dht_turn. cbn [gstep on_resp]. change (g_table (mgr_of (with_rd y1 []))) with (tab y). rewrite T. reflexivity. }
  destruct (@check_full y2 now d) as (y3 & E3 & A1 & A2 & A3 & A4 & A5 & A6 & A7 & A8 & A9 & _ & A10); try (unfold y2, y1, rich, tab; cbn; auto; fail).
  do 2 eexists. split; [cbn [DhtSysModel.yrun]; rewrite E1, E2, E3; reflexivity|]. split; [reflexivity|]. split; [unfold rest; rewrite A4; repeat split; auto|]. split; [rewrite T, A7; reflexivity|]. split; [exact A8|].
  split; [eapply kept_trans; [|exact A9]; unfold kept, gmap, y2, y1; cbn; auto|]. rewrite A7. exact A10.
Qed.
End one.

(** ** the network *)
Section net.
Variable sha : bytes -> bytes.
Variable who : addr -> option client.
Notation nstep := (nstep sha who).
Notation nrun := (nrun sha who).
Hypothesis FIT : forall a c, who a = Some c -> fit a c.
Lemma sock_same : forall y d, y_sock y = Some d -> y_outs y = [] -> with_sock y (Some d) [] = y.
Proof. intros [] d; cbn. intros -> ->. reflexivity. Qed.
Lemma meet_full : forall es n a ca b cb now, (forall e, In e es -> proper e) -> nrun (net_start who) es = Some n -> who a = Some ca -> who b = Some cb -> a <> b -> all_room ca -> at_rest n a -> ready n b ->
  exists es' n', nrun n es' = Some n' /\ (forall e, In e es' -> proper e /\ between a b e) /\ touch_node now (v_own cb) b (table_at n a) = Val (table_at n' a) /\ at_rest n' a /\ h_sys (n_hosts n' b) = h_sys (n_hosts n b) /\
    kept (h_sys (n_hosts n a)) (h_sys (n_hosts n' a)) /\ (forall x, x <> a -> x <> b -> n_hosts n' x = n_hosts n x) /\
    (k_wait (y_dht (h_sys (n_hosts n a))) = true -> count (fresh now) (t_nodes (table_at n a)) = 0 -> 0 < count (fresh now) (t_nodes (table_at n' a)) ->
     exists l, get_closest_nodes now (table_at n' a) (v_info ca) = Val (Some l) /\ y_fet (h_sys (n_hosts n' a)) = Some (f_start (v_info ca) (v_tcp ca) l (y_peers (h_sys (n_hosts n a)))) /\ y_fout (h_sys (n_hosts n' a)) = []).
Proof.
  intros es n a ca b cb now P R WA WB NE (L1 & _ & L2 & _ & L3) (LA & PA & OA & CA & RA & TA) (LB & OB).
  assert (WK : working n a) by (split; [exact LA|]; rewrite PA; discriminate).
  pose proof (@working_well sha who es n a ca FIT P WA R WK) as W. pose proof (@nrun_good sha who es _ _ (@start_good who (@fit_sound who FIT)) R (fun e I => proper_fed (P e I))) as (N1 & _).
  unfold listening in LA, LB. destruct (y_sock (h_sys (n_hosts n a))) as [da|] eqn:SA; [|congruence]. destruct (y_sock (h_sys (n_hosts n b))) as [db|] eqn:SB; [|congruence].
  assert (OWA : d_own da = v_own ca) by (destruct (N1 _ _ WA) as ((T & _) & _); apply (tr_own T); exact SA).
  assert (OWB : d_own db = v_own cb) by (destruct (N1 _ _ WB) as ((T & _) & _); apply (tr_own T); exact SB).
  assert (INA : g_info (k_mgr (y_dht (h_sys (n_hosts n a)))) = v_info ca) by (destruct (N1 _ _ WA) as ((T & _) & _); apply (tr_info T)).
  assert (IA : wf_id (v_own ca)) by apply (FIT WA). assert (IB : wf_id (v_own cb)) by apply (FIT WB). assert (AB : wf_addr b) by apply (FIT WB).
  set (t := [x61; x61]).
  destruct (@ask_full sha (v_max ca) (v_caps ca) (v_tcp ca) (h_sys (n_hosts n a)) da b now t) as (y1 & h1 & Y1 & S1 & Q1 & T1 & RI1 & K1 & KW1); [unfold rest; auto 8|split; [apply (w_tab W)|apply (w_info W)]|exact L1|exact L3|].
  destruct (fun F => @nrun_do sha who _ n a ca y1 h1 WA F Y1) as (n1 & E1 & H1 & X1 & R1); [repeat constructor|]. rewrite S1 in R1. cbn [dgrams map fst snd] in R1.
  destruct (@get_in sha who n1 a b (ping_query (d_own da) t) (ping_query (d_own da) t) cb db db [OSend a (ping_resp (d_own db) t)]) as (k1 & n2 & E2 & H2 & X2 & R2).
  { rewrite R1. apply in_or_app. right. left. reflexivity. } { exact WB. } { rewrite X1 by congruence. exact SB. } { rewrite X1 by congruence. exact OB. } { apply ping_read; [rewrite OWA; exact IA|cbn; lia]. } { reflexivity. }
  rewrite X1 in H2 by congruence.
  destruct (@nrun_do sha who [YOut] n2 b cb (with_sock (h_sys (n_hosts n b)) (Some db) []) [(YOut, [(a, ping_resp (d_own db) t)])] WB) as (n3 & E3 & H3 & X3 & R3); [repeat constructor|rewrite H2; reflexivity|]. cbn [flat_map snd app dgrams map fst] in R3.
  assert (Y3 : n_hosts n3 a = n_hosts n1 a) by (rewrite X3, X2 by congruence; reflexivity).
  set (d1 := mk_dcon (d_own da) (d_secret da) (pend_insert (d_pending da) t KPing DHT)). destruct Q1 as (Q1 & Q2 & Q3 & Q4 & Q5 & Q6).
  set (d2 := mk_dcon (d_own da) (d_secret da) (mdel bytes_eqb t (pend_insert (d_pending da) t KPing DHT))).
  destruct (@get_in sha who n3 b a (ping_resp (d_own db) t) (ping_resp (d_own db) t) ca d1 d2 [OResp DHT (FTouch (d_own db) b)]) as (k2 & n4 & E4 & H4 & X4 & R4).
  { rewrite R3. apply in_or_app. right. left. reflexivity. }
  { exact WA. } { rewrite Y3, H1. exact Q1. } { rewrite Y3, H1. exact Q3. } { apply pong_read; [rewrite OWB; exact IB|cbn; lia]. }
  { cbn [ping_resp DhtModel.dstep]. unfold handle_resp. cbn [kind_of_resp payload]. unfold pend_get. cbn [d1 d_pending]. unfold pend_insert. rewrite (mget_mset_same _ bytes_eqb_eq). reflexivity. }
  rewrite Y3, H1 in H4. cbn [h_sys] in H4.
  destruct (@hear_full sha (v_max ca) (v_caps ca) (v_tcp ca) (h_sys (n_hosts n4 a)) d2 (d_own db) b now) as (y5 & h5 & Y5 & S5 & Q7 & T5 & RI5 & K5 & F5); try (rewrite H4; cbn; auto; fail).
  all: try (rewrite OWB; exact IB). all: try exact AB. all: try exact L2.
  destruct (fun F => @nrun_do sha who _ n4 a ca y5 h5 WA F Y5) as (n5 & E5 & H5 & X5 & R5); [repeat constructor|].
  exists (map (NDo a) [YPort b; YTurn now first_ones SPort; YSend; YCheck now now; YCmd t; YOut] ++ [NGet k1] ++ map (NDo b) [YOut] ++ [NGet k2] ++ map (NDo a) [YOut; YTurn now first_ones SResp; YCheck now now]), n5.
  split. { rewrite nrun_app, E1, nrun_app. cbn [NetModel.nrun]. rewrite E2, nrun_app, E3, nrun_app. cbn [NetModel.nrun]. rewrite E4. exact E5. }
  split. { intros e I. cbn [map app In] in I. repeat (destruct I as [<-|I]; [split; [exact Logic.I|cbn; auto]|]). destruct I. }
  assert (HB : n_hosts n5 b = n_hosts n3 b) by (rewrite X5, X4 by congruence; reflexivity).
  assert (T5' : touch_node now (v_own cb) b (table_at n a) = Val (table_at n5 a)).
  { rewrite OWB in T5. rewrite H4 in T5. unfold table_at. rewrite H5. cbn [h_sys]. unfold tab in *. cbn [with_sock y_dht] in T5. rewrite T1 in T5. exact T5. }
  assert (K4 : kept y1 (h_sys (n_hosts n4 a))) by (rewrite H4; unfold kept, gmap; cbn; auto).
  split; [exact T5'|].
  split. { unfold at_rest, listening. rewrite H5. cbn [h_sys]. destruct Q7 as (Z1 & Z). rewrite Z1. split; [discriminate|exact Z]. }
  split. { rewrite HB, H3. cbn [h_sys]. apply sock_same; [exact SB|exact OB]. }
  split. { rewrite H5. cbn [h_sys]. eapply kept_trans; [exact K1|eapply kept_trans; [exact K4|exact K5]]. }
  split. { intros x Xa Xb. rewrite X5, X4, X3, X2, X1 by congruence. reflexivity. }
  intros KW Z G. assert (KW4 : k_wait (y_dht (h_sys (n_hosts n4 a))) = true) by (rewrite H4; cbn [with_sock y_dht]; rewrite KW1 by exact Z; exact KW).
  destruct (F5 KW4) as (l & F1 & F2 & F3); [unfold table_at in G; rewrite H5 in G; exact G|].
  destruct K1 as (_ & _ & KP & _ & KI). destruct K4 as (_ & _ & KP4 & _ & KI4). rewrite KI4, KI, INA in F1, F2. rewrite KP4, KP in F2.
  exists l. split; [unfold table_at; rewrite H5; exact F1|]. rewrite H5. cbn [h_sys]. auto.
Qed.
End net.

(** ** tables *)
Lemma fresh_now : forall now id a, fresh now (mk_node id a (Some now)) = true.
Proof. intros. unfold fresh. cbn [n_seen]. rewrite N.sub_diag. reflexivity. Qed.
Lemma count_in : forall now l n, In n l -> fresh now n = true -> 0 < count (fresh now) l.
Proof. intros now l n I F. unfold count. assert (J : In n (filter (fresh now) l)) by (apply filter_In; auto). destruct (filter _ l); [destruct J|cbn; lia]. Qed.
(** Whoever answers, there is a good node in the table then. *)
Lemma touch_good : forall now id a t t', reachable t -> wf_id id -> touch_node now id a t = Val t' -> 0 < count (fresh now) (t_nodes t').
Proof.
  intros now id a t t' R W T. destruct (@touch_spec now id a t (reachable_inv R) W) as (t1 & T1 & _ & _ & _ & EFF & _). rewrite T in T1. injection T1 as <-.
  destruct EFF as [n r E1 E2 E3|E1 E2|n r E1 E2 E3 E4 E5 E6|E1 E2 E3 E4].
  - apply (@count_in now _ (touch now n)); [apply (Permutation_in _ (Permutation_sym E3)); left; reflexivity|apply fresh_now].
  - apply (@count_in now _ (new_good now id a)); [apply (Permutation_in _ (Permutation_sym E2)); left; reflexivity|apply fresh_now].
  - apply (@count_in now _ (new_good now id a)); [apply (Permutation_in _ (Permutation_sym E4)); left; reflexivity|apply fresh_now].
  - destruct (bucket_nodes t' (home t' id)) as [|n r] eqn:B; [discriminate|]. apply (@count_in now _ n); [eapply in_bucket; rewrite B; left; reflexivity|apply E4; left; reflexivity].
Qed.
Lemma touch_empty : forall now id a t t', reachable t -> wf_id id -> t_nodes t = [] -> touch_node now id a t = Val t' -> t_nodes t' = [mk_node id a (Some now)].
Proof.
  intros now id a t t' R W Z T. destruct (@touch_spec now id a t (reachable_inv R) W) as (t1 & T1 & _ & _ & _ & EFF & K & _). rewrite T in T1. injection T1 as <-.
  destruct EFF as [n r E1 E2 E3|E1 E2|n r E1 E2 E3 E4 E5 E6|E1 E2 E3 E4]; rewrite Z in *.
  - apply Permutation_nil in E2. discriminate.
  - apply Permutation_sym, Permutation_length_1_inv in E2. exact E2.
  - apply Permutation_nil in E2. discriminate.
  - apply Permutation_sym, Permutation_nil in E2. destruct (bucket_nodes t' (home t' id)) as [|n r] eqn:B; [discriminate|]. assert (I : In n (t_nodes t')) by (eapply in_bucket; rewrite B; left; reflexivity). rewrite E2 in I. destruct I.
Qed.
Lemma closest_one : forall now t ih n l, reachable t -> wf_id ih -> t_nodes t = [n] -> get_closest_nodes now t ih = Val (Some l) -> l = [n].
Proof.
  intros now t ih n l R W Z G. destruct (@closest_spec now t ih (reachable_inv R) W) as (o & E & C). rewrite G in E. injection E as <-. destruct C as (NE & ND & IN & _). rewrite Z in IN.
  destruct l as [|x [|x' l]]; [congruence| |].
  - destruct (IN x (or_introl eq_refl)) as ([<-|[]] & _). reflexivity.
  - destruct (IN x (or_introl eq_refl)) as ([<-|[]] & _). destruct (IN x' (or_intror (or_introl eq_refl))) as ([<-|[]] & _). inversion ND as [|? ? X _]; subst. destruct X. left. reflexivity.
Qed.

(** ** the theorems *)
(** A client at rest that knows nobody and has not begun to search. *)
Definition knows_nobody (n : net) (a : addr) : Prop := at_rest n a /\ t_nodes (table_at n a) = [] /\ k_wait (y_dht (h_sys (n_hosts n a))) = true /\ y_rf (h_sys (n_hosts n a)) = [].

(** Told of another client, such a client searches, and asks the other first. *)
Theorem C135_begins : forall sha who es n a ca b cb, (forall a c, who a = Some c -> fit a c) -> (forall e, In e es -> proper e) -> nrun sha who (net_start who) es = Some n ->
  who a = Some ca -> who b = Some cb -> a <> b -> all_room ca -> knows_nobody n a -> ready n b ->
  exists es' n', nrun sha who n es' = Some n' /\ (forall e, In e es' -> proper e /\ between a b e) /\ at_rest n' a /\ searches n' a b /\
    h_sys (n_hosts n' b) = h_sys (n_hosts n b) /\ y_peers (h_sys (n_hosts n' a)) = y_peers (h_sys (n_hosts n a)) /\ (forall x, x <> a -> x <> b -> n_hosts n' x = n_hosts n x).
Proof.
  intros sha who es n a ca b cb FIT P R WA WB NE L (RA & Z & KW & RF) RB. set (now := 0%N).
  destruct (@meet_full sha who FIT es n a ca b cb now P R WA WB NE L RA RB) as (es' & n' & H1 & H2 & H3 & H4 & H5 & H6 & H7 & H8).
  assert (WK : working n a) by (destruct RA as (LA & PA & _); split; [exact LA|]; rewrite PA; discriminate).
  pose proof (w_tab (@working_well sha who es n a ca FIT P WA R WK)) as RT. assert (IB : wf_id (v_own cb)) by apply (FIT _ _ WB). assert (IA : wf_id (v_info ca)) by apply (FIT _ _ WA).
  pose proof (@touch_empty now (v_own cb) b _ _ RT IB Z H3) as T1. pose proof (@touch_good now (v_own cb) b _ _ RT IB H3) as G.
  destruct H8 as (l & C1 & C2 & C3); [exact KW|rewrite Z; reflexivity|exact G|].
  assert (RT' : reachable (table_at n' a)).
  { destruct (@C44_total_restarts (table_at n a) [mk_touch now (v_own cb) b] RT) as (t & T & _ & RR); [repeat constructor; [exact IB|apply (FIT _ _ WB)]|]. cbn [run te_now te_id te_addr] in T. rewrite H3 in T. injection T as <-. exact RR. }
  pose proof (@closest_one now _ _ _ l RT' IA T1 C1) as ->.
  destruct H6 as (K1 & K2 & K3 & K4 & K5).
  exists es', n'. split; [exact H1|]. split; [exact H2|]. split; [exact H4|]. split; [|auto].
  eexists. split; [unfold search_idle; rewrite C2, C3, K2, RF; repeat split; reflexivity|]. cbn. split; [left; reflexivity|]. lia.
Qed.

(** Two clients of one torrent that know nobody, each told of a client of another
    torrent that is told of one of them, find each other. *)
Theorem C135_find_each_other : forall sha who es n a ca c cc b cb, (forall a c, who a = Some c -> fit a c) -> (forall s, length (sha s) = 20) -> (forall e, In e es -> proper e) -> nrun sha who (net_start who) es = Some n ->
  who a = Some ca -> who c = Some cc -> who b = Some cb -> a <> b -> c <> b -> a <> c -> all_room ca -> all_room cc -> all_room cb -> knows_nobody n a -> knows_nobody n c -> idle n b ->
  v_info cc = v_info ca -> v_info ca <> v_info cb -> (v_tcp ca < 65536)%N -> (v_tcp cc < 65536)%N -> few_peers n b (v_info ca) 214 ->
  exists es' n', nrun sha who n es' = Some n' /\ (forall e, In e es' -> proper e) /\ has_peer n' a (tcp_at c cc) /\ has_peer n' c (tcp_at a ca) /\ (forall x, x <> a -> x <> b -> x <> c -> n_hosts n' x = n_hosts n x).
Proof.
  intros sha who es n a ca c cc b cb FIT SHA P R WA WC WB NE1 NE2 NE3 LA LC LB KA KC RB SI NI TA TC FEW. set (now := 0%N).
  assert (RDY : forall m x, at_rest m x -> ready m x) by (intros m x (L & _ & O & _); split; assumption).
  destruct (@C135_begins sha who es n a ca b cb FIT P R WA WB NE1 LA KA (RDY _ _ (proj1 RB))) as (e1 & n1 & A1 & A2 & A3 & A4 & A5 & _ & A7).
  assert (P1 : forall e, In e (es ++ e1) -> proper e) by (intros e I; apply in_app_or in I; destruct I as [I|I]; [auto|apply A2; exact I]).
  assert (R1 : nrun sha who (net_start who) (es ++ e1) = Some n1) by (rewrite nrun_app, R; exact A1).
  assert (EC : n_hosts n1 c = n_hosts n c) by (apply A7; congruence).
  assert (KC1 : knows_nobody n1 c) by (unfold knows_nobody, at_rest, listening, table_at in *; rewrite EC; exact KC).
  assert (RB1 : idle n1 b) by (unfold idle, at_rest, listening in *; rewrite A5; exact RB).
  destruct (@C135_begins sha who (es ++ e1) n1 c cc b cb FIT P1 R1 WC WB NE2 LC KC1 (RDY _ _ (proj1 RB1))) as (e2 & n2 & B1 & B2 & B3 & B4 & B5 & _ & B7).
  assert (P2 : forall e, In e ((es ++ e1) ++ e2) -> proper e) by (intros e I; apply in_app_or in I; destruct I as [I|I]; [auto|apply B2; exact I]).
  assert (R2 : nrun sha who (net_start who) ((es ++ e1) ++ e2) = Some n2) by (rewrite nrun_app, R1; exact B1).
  assert (EA : n_hosts n2 a = n_hosts n1 a) by (apply B7; congruence).
  assert (RA2 : at_rest n2 a) by (unfold at_rest, listening in *; rewrite EA; exact A3).
  assert (RB2 : idle n2 b) by (unfold idle, at_rest, listening in *; rewrite B5; exact RB1).
  destruct (@meet_full sha who FIT ((es ++ e1) ++ e2) n2 b cb a ca now P2 R2 WB WA (fun E => NE1 (eq_sym E)) LB (proj1 RB2) (RDY _ _ RA2)) as (e3 & n3 & D1 & D2 & D3 & D4 & D5 & D6 & D7 & _).
  assert (P3 : forall e, In e (((es ++ e1) ++ e2) ++ e3) -> proper e) by (intros e I; apply in_app_or in I; destruct I as [I|I]; [auto|apply D2; exact I]).
  assert (R3 : nrun sha who (net_start who) (((es ++ e1) ++ e2) ++ e3) = Some n3) by (rewrite nrun_app, R2; exact D1).
  assert (EC3 : n_hosts n3 c = n_hosts n2 c) by (apply D7; congruence).
  destruct D6 as (K1 & K2 & K3 & K4 & K5).
  destruct (@C134_find_each_other sha who (((es ++ e1) ++ e2) ++ e3) n3 a ca c cc b cb now FIT SHA P3 R3 WA WC WB NE1 NE2 NE3 LA LC LB) as (e4 & n4 & F1 & F2 & F3 & F4 & F5); try assumption.
  { unfold at_rest, listening in *. rewrite D5. exact RA2. } { unfold at_rest, listening in *. rewrite EC3. exact B3. }
  { unfold searches, search_idle in *. rewrite D5, EA. exact A4. } { unfold searches, search_idle in *. rewrite EC3. exact B4. }
  { split; [exact D4|]. rewrite K1. exact (proj2 RB2). }
  { right. assert (WK2 : working n2 b) by (destruct RB2 as ((L & PB & _) & _); split; [exact L|]; rewrite PB; discriminate).
    exact (@touch_good now (v_own ca) a (table_at n2 b) (table_at n3 b) (w_tab (@working_well sha who _ n2 b cb FIT P2 WB R2 WK2)) (proj1 (proj1 (FIT _ _ WA))) D3). }
  { unfold few_peers in *. fold (gmap (h_sys (n_hosts n3 b))). rewrite K4. unfold gmap. rewrite B5, A5. exact FEW. }
  exists (e1 ++ e2 ++ e3 ++ e4), n4. split; [rewrite nrun_app, A1, nrun_app, B1, nrun_app, D1; exact F1|]. split.
  { intros e I. apply in_app_or in I. destruct I as [I|I]; [apply A2; exact I|]. apply in_app_or in I. destruct I as [I|I]; [apply B2; exact I|]. apply in_app_or in I. destruct I as [I|I]; [apply D2; exact I|apply F2; exact I]. }
  split; [exact F3|]. split; [exact F4|]. intros x X1 X2 X3. rewrite F5, D7, B7, A7 by congruence. reflexivity.
Qed.

(** From the very start. *)
Theorem C135_from_nothing : forall sha who a ca c cc b cb, (forall a c, who a = Some c -> fit a c) -> (forall s, length (sha s) = 20) ->
  who a = Some ca -> who c = Some cc -> who b = Some cb -> a <> b -> c <> b -> a <> c -> all_room ca -> all_room cc -> all_room cb -> t_nodes (v_table ca) = [] -> t_nodes (v_table cc) = [] -> t_nodes (v_table cb) = [] ->
  v_info cc = v_info ca -> v_info ca <> v_info cb -> (v_tcp ca < 65536)%N -> (v_tcp cc < 65536)%N ->
  exists es n, nrun sha who (net_start who) es = Some n /\ (forall e, In e es -> proper e) /\ has_peer n a (tcp_at c cc) /\ has_peer n c (tcp_at a ca).
Proof.
  intros sha who a ca c cc b cb FIT SHA WA WC WB NE1 NE2 NE3 LA LC LB ZA ZC ZB SI NI TA TC.
  assert (UP : forall n x cx, who x = Some cx -> t_nodes (v_table cx) = [] -> n_hosts n x = host_start cx -> exists n', nstep sha who n (NDo x YSend) = Some n' /\ h_sys (n_hosts n' x) = with_phase (h_sys (host_start cx)) PIdle /\ forall y, y <> x -> n_hosts n' y = n_hosts n y).
  { intros n x cx W Z H. assert (ST : ystep sha (v_max cx) (v_caps cx) (v_tcp cx) (h_sys (n_hosts n x)) YSend = Some (with_phase (h_sys (host_start cx)) PIdle, [])).
    { rewrite H. cbn [ystep]. unfold host_start, sys_start. cbn [h_sys y_phase]. unfold start_pings. rewrite Z. reflexivity. }
    cbn [nstep is_in]. rewrite W, ST. eexists. split; [reflexivity|]. split; [rewrite put_same; reflexivity|]. intros y Y. apply put_other. exact Y. }
  assert (S : forall x cx, who x = Some cx -> n_hosts (net_start who) x = host_start cx) by (intros x cx W; cbn; rewrite W; reflexivity).
  destruct (UP _ a ca WA ZA (S _ _ WA)) as (n1 & E1 & H1 & X1). destruct (UP n1 c cc WC ZC) as (n2 & E2 & H2 & X2); [rewrite X1 by congruence; apply S; exact WC|]. destruct (UP n2 b cb WB ZB) as (n3 & E3 & H3 & X3); [rewrite X2, X1 by congruence; apply S; exact WB|].
  set (es0 := [NDo a YSend; NDo c YSend; NDo b YSend]).
  assert (R : nrun sha who (net_start who) es0 = Some n3) by (unfold es0; cbn [nrun]; rewrite E1, E2, E3; reflexivity).
  assert (P : forall e, In e es0 -> proper e) by (intros e I; repeat (destruct I as [<-|I]; [exact Logic.I|]); destruct I).
  assert (HA : h_sys (n_hosts n3 a) = with_phase (h_sys (host_start ca)) PIdle) by (rewrite X3, X2 by congruence; exact H1).
  assert (HC : h_sys (n_hosts n3 c) = with_phase (h_sys (host_start cc)) PIdle) by (rewrite X3 by congruence; exact H2).
  destruct (@C135_find_each_other sha who es0 n3 a ca c cc b cb FIT SHA P R WA WC WB NE1 NE2 NE3 LA LC LB) as (es' & n' & F1 & F2 & F3 & F4 & _); try assumption.
  { unfold knows_nobody, at_rest, listening, table_at. rewrite HA. cbn. repeat split; [discriminate|exact ZA]. } { unfold knows_nobody, at_rest, listening, table_at. rewrite HC. cbn. repeat split; [discriminate|exact ZC]. }
  { unfold idle, at_rest, listening. rewrite H3. cbn. repeat split. discriminate. } { unfold few_peers. rewrite H3. cbn. intros l [I|[]]. injection I as I _. congruence. }
  exists (es0 ++ es'), n'. split; [rewrite nrun_app, R; exact F1|]. split; [intros e I; apply in_app_or in I; destruct I; auto|]. auto.
Qed.

(** The three clients of [ex_who] meet this. *)
Example C135_example : (forall a c, ex_who a = Some c -> fit a c) /\ (forall s, length (ex_sha s) = 20) /\
  exists ca cb cc, ex_who addr_a = Some ca /\ ex_who addr_b = Some cb /\ ex_who addr_c = Some cc /\ addr_a <> addr_b /\ addr_c <> addr_b /\ addr_a <> addr_c /\ all_room ca /\ all_room cc /\ all_room cb /\
    t_nodes (v_table ca) = [] /\ t_nodes (v_table cc) = [] /\ t_nodes (v_table cb) = [] /\ v_info cc = v_info ca /\ v_info ca <> v_info cb /\ (v_tcp ca < 65536)%N /\ (v_tcp cc < 65536)%N /\ v_peers ca = [] /\ v_peers cc = [] /\
    exists n, nrun ex_sha ex_who (net_start ex_who) [NDo addr_a YSend; NDo addr_c YSend; NDo addr_b YSend] = Some n /\ knows_nobody n addr_a /\ knows_nobody n addr_c /\ idle n addr_b /\ ready n addr_b /\ few_peers n addr_b (v_info ca) 214.
Proof.
  split; [exact ex_fit|]. split; [exact (proj1 (proj2 C134_example))|]. do 3 eexists. split; [reflexivity|]. split; [reflexivity|]. split; [reflexivity|]. split; [discriminate|]. split; [discriminate|]. split; [discriminate|].
  split; [unfold all_room; repeat split; apply Nat.ltb_lt; vm_compute; reflexivity|]. split; [unfold all_room; repeat split; apply Nat.ltb_lt; vm_compute; reflexivity|]. split; [unfold all_room; repeat split; apply Nat.ltb_lt; vm_compute; reflexivity|].
  split; [reflexivity|]. split; [reflexivity|]. split; [reflexivity|]. split; [reflexivity|]. split; [discriminate|]. split; [reflexivity|]. split; [reflexivity|]. split; [reflexivity|]. split; [reflexivity|].
  eexists. split; [reflexivity|]. unfold knows_nobody, idle, ready, at_rest, listening, few_peers. cbn. repeat split; try discriminate. intros l [I|[]]. discriminate.
Qed.

Print Assumptions C135_begins.
Print Assumptions C135_find_each_other.
Print Assumptions C135_from_nothing.
