(** C132: a client that is told of another can always get to know it. *)
From Coq Require Import Strings.String.
From Coq Require Import List NArith ZArith Lia Bool Arith Permutation.
From Coq Require Import Init.Byte.
From Verif Require Import Base Assoc IdModel WireModel TableModel TableSpec TableProofs TableProofs2 TableProps LookupProps PeersModel PeersSpec PeersProofs PeersProps BencodeModel BencodeSpec BencodeProofs KrpcModel Utf8Spec Utf8Proofs KrpcSpec KrpcProofs KrpcProps ReadProps DhtModel DhtSpec DhtMgrModel DhtMgrSpec DhtMgrProps FetchModel TaskModel DhtProps DhtSysModel DhtSysSpec DhtAskSpec DhtAskProps ClientInvProps NetModel NetSpec NetProofs NetProps NetSafeProps DhtLifeProps.
Import ListNotations.
Set Implicit Arguments.
Local Open Scope list_scope.

(** The client at [a] has nothing under way: both tasks wait for something to
    happen, and no command, no answer and no DHT port is waiting. *)
Definition at_rest (n : net) (a : addr) : Prop :=
  let y := h_sys (n_hosts n a) in
  listening n a /\ y_phase y = PIdle /\ y_outs y = [] /\ y_cmd y = [] /\ y_rd y = [] /\ y_port y = [].
(** The socket task of the client at [b] waits for a datagram. *)
Definition ready (n : net) (b : addr) : Prop := listening n b /\ y_outs (h_sys (n_hosts n b)) = [].
(** The channels of the client hold something. *)
Definition some_room (c : client) : Prop := 0 < c_cmd (v_caps c) /\ 0 < c_rd (v_caps c) /\ 0 < c_port (v_caps c).
(** What happens at [a] or [b], and datagrams between clients. *)
Definition between (a b : addr) (e : nev) : Prop := match e with NDo x _ => x = a \/ x = b | NGet _ => True | NStranger _ _ _ => False end.

(** ** what has ended stays so *)
Lemma gone_step : forall sha um cap tp y e y' o, ystep sha um cap tp y e = Some (y', o) -> y_sock y = None \/ y_phase y = PGone -> y_sock y' = None \/ y_phase y' = PGone.
Proof.
  intros sha um cap tp y e y' o H D.
  destruct e as [from m|t| | | |now pick s| |n2 n3| | | | |x|op]; cbn [ystep] in H.
  Ltac crunch H := repeat match type of H with
    | match ?x with _ => _ end = Some _ => destruct x eqn:?; try discriminate H
    | option_map _ ?x = Some _ => destruct x eqn:?; try discriminate H; cbn [option_map] in H
    end.
  - crunch H. injection H as <- _. destruct D as [D|D]; [congruence|right]. match goal with |- context [after_sock _ ?r] => destruct r as [[? ?]| |] end; exact D.
  - crunch H. all: injection H as <- _; destruct D as [D|D]; [congruence|right]; match goal with |- context [after_sock _ ?r] => destruct r as [[? ?]| |] end; exact D.
  - destruct (y_sock y) as [d|] eqn:S; [|discriminate]. destruct (y_outs y) as [|x os]; [discriminate|]. destruct D as [D|D]; [discriminate|].
    unfold sock_out, hand_over, dht_alive in H. rewrite D in H. destruct x; cbn [option_map] in H; try (injection H as <- _; auto; fail).
    destruct (req =? DHT); cbn [option_map] in H; [injection H as <- _; auto|]. crunch H. all: injection H as <- _; try (right; exact D).
    all: match goal with E : (if _ then _ else _) = Some _ |- _ => crunch E; injection E as <-; right; exact D end.
  - crunch H. injection H as <- _. auto.
  - crunch H. injection H as <- _. auto.
  - destruct (y_phase y) eqn:P; try discriminate. destruct D as [D|D]; [|discriminate]. left.
    assert (T : forall y0 i, y_sock y0 = None -> y_sock (dht_turn y0 now pick i) = None) by (intros y0 i Z; unfold dht_turn; destruct (gstep _ _ _ _) as [[? ?]| |]; exact Z).
    destruct s; crunch H; injection H as <- _; try exact D; try (apply T; exact D).
  - unfold sock_alive in H. destruct (y_phase y) eqn:P; try discriminate; (destruct D as [D|D]; [|discriminate]); rewrite ?D in H; crunch H; injection H as <- _; auto.
  - destruct (y_phase y) eqn:P; try discriminate. destruct D as [D|D]; [|discriminate]. crunch H. all: injection H as <- _; auto.
  - destruct (y_fet y); [|discriminate]. destruct (y_fout y); [|discriminate]. destruct (fstep _ _ _) as [[? ?]| |]; try discriminate; injection H as <- _; exact D.
  - destruct (y_fet y); [|discriminate]. destruct (y_fout y); [|discriminate]. destruct (y_rf y); [discriminate|]. destruct (fstep _ _ _) as [[? ?]| |]; try discriminate; injection H as <- _; exact D.
  - destruct (y_fet y); [|discriminate]. destruct (y_fout y); [|discriminate]. destruct (fstep _ _ _) as [[? ?]| |]; try discriminate; injection H as <- _; exact D.
  - unfold sock_alive in H. crunch H. all: unfold send_cmd in *; crunch Heqo0.
    all: try (injection H as <- _); try (match goal with E : (if _ then _ else _) = Some _ |- _ => crunch E; injection E as <- end); exact D.
  - crunch H. injection H as <- _. exact D.
  - crunch H. injection H as <- _. exact D.
Qed.
Section lift.
Variable sha : bytes -> bytes.
Variable who : addr -> option client.
Lemma dec_addr : forall a b : addr, a = b \/ a <> b.
Proof. intros a b. destruct (addr_eqb a b) eqn:E; [left; apply addr_eqb_spec; exact E|right]. intros ->. rewrite (proj2 (addr_eqb_spec b b) eq_refl) in E. discriminate. Qed.
Lemma gone_nstep : forall n e n' a, nstep sha who n e = Some n' -> ~ working n a -> ~ working n' a.
Proof.
  intros n e n' a H G. assert (G' : y_sock (h_sys (n_hosts n a)) = None \/ y_phase (h_sys (n_hosts n a)) = PGone).
  { unfold working, listening in G. destruct (y_sock (h_sys (n_hosts n a))) eqn:S; [|auto]. destruct (y_phase (h_sys (n_hosts n a))) eqn:P; auto; exfalso; apply G; split; discriminate. }
  assert (X : y_sock (h_sys (n_hosts n' a)) = None \/ y_phase (h_sys (n_hosts n' a)) = PGone).
  2:{ intros (L & P). unfold listening in L. destruct X; congruence. }
  assert (AT : forall b h air, n' = put_host n b h air -> (b = a -> y_sock (h_sys h) = None \/ y_phase (h_sys h) = PGone) -> y_sock (h_sys (n_hosts n' a)) = None \/ y_phase (h_sys (n_hosts n' a)) = PGone).
  { intros b h air -> HB. destruct (dec_addr b a) as [->|E]; [rewrite put_same; auto|]. rewrite put_other by congruence. exact G'. }
  assert (RC : forall from to dg, arrive sha who n from to dg = Some n' -> y_sock (h_sys (n_hosts n' a)) = None \/ y_phase (h_sys (n_hosts n' a)) = PGone).
  { intros from to dg A. unfold arrive in A. destruct (who to) as [c|]; [|discriminate]. destruct (receive _ _ _ _ _) as [h|] eqn:R; [|discriminate]. injection A as A. symmetry in A. eapply AT; [exact A|]. intros ->.
    unfold receive in R. destruct (y_sock _) eqn:S; [|discriminate]. destruct (y_outs _) eqn:O; [|discriminate]. destruct (kmsg_from_bytes _).
    - destruct (ystep _ _ _ _ _ _) as [[y o]|] eqn:ST; [|discriminate]. injection R as <-. cbn [h_sys fst]. eapply gone_step; [exact ST|]. destruct G'; [congruence|auto].
    - injection R as <-. cbn [h_sys]. destruct G'; [congruence|auto].
    - injection R as <-. left. reflexivity. }
  destruct e as [b e|k|from to dg]; cbn [nstep] in H.
  - destruct (who b) as [c|]; [|discriminate]. destruct (is_in e); [discriminate|]. destruct (ystep _ _ _ _ _ _) as [[y o]|] eqn:ST; [|discriminate]. injection H as H. symmetry in H. eapply AT; [exact H|]. intros ->. cbn [h_sys]. eapply gone_step; eauto.
  - destruct (nth_error _ _); [|discriminate]. eapply RC; exact H.
  - destruct (who from); [discriminate|]. eapply RC; exact H.
Qed.
Lemma gone_nrun : forall es n n' a, nrun sha who n es = Some n' -> ~ working n a -> ~ working n' a.
Proof. induction es as [|e es IH]; intros n n' a H G; cbn [nrun] in H; [injection H as <-; exact G|]. destruct (nstep sha who n e) as [n1|] eqn:S; [|discriminate]. eapply IH; [exact H|]. eapply gone_nstep; eauto. Qed.
Lemma nrun_app : forall es1 es2 n, nrun sha who n (es1 ++ es2) = match nrun sha who n es1 with Some n1 => nrun sha who n1 es2 | None => None end.
Proof. induction es1 as [|e es1 IH]; intros es2 n; cbn [nrun app]; [reflexivity|]. destruct (nstep sha who n e); [apply IH|reflexivity]. Qed.
(** Who works now is in order. *)
Lemma working_well : forall es n a c, (forall a c, who a = Some c -> fit a c) -> (forall e, In e es -> proper e) -> who a = Some c ->
  nrun sha who (net_start who) es = Some n -> working n a -> well (h_sys (n_hosts n a)).
Proof.
  intros es n a c FIT P WA R WK. destruct (@nrun_well _ _ FIT _ _ _ _ _ (@start_good who (@fit_sound who FIT)) WA P (@start_well_at _ FIT _ _ WA) R) as [(W & _)|(l1 & e & l2 & n1 & -> & R1 & F)]; [exact W|exfalso].
  rewrite nrun_app, R1 in R. cbn [nrun] in R. destruct (nstep sha who n1 e) as [n2|] eqn:S; [|discriminate]. exact (@gone_nrun _ _ _ _ R (@C130_fatal _ _ _ _ _ _ F S) WK).
Qed.
End lift.

(** ** one client on its own *)
Section one.
Variable sha : bytes -> bytes.
Variable um : nat.
Variable cap : caps.
Variable tp : N.
Notation yrun := (yrun sha um cap tp).
Notation ystep := (ystep sha um cap tp).
Definition rest (y : sys) (d : dcon) : Prop := y_sock y = Some d /\ y_phase y = PIdle /\ y_outs y = [] /\ y_cmd y = [] /\ y_rd y = [] /\ y_port y = [].
Definition tab (y : sys) : table := g_table (k_mgr (y_dht y)).
Definition rich (y : sys) : Prop := reachable (tab y) /\ wf_id (g_info (k_mgr (y_dht y))).
Lemma check_idle : forall y now now3 d, y_sock y = Some d -> y_phase y = PSend [] -> y_outs y = [] -> y_rd y = [] -> y_port y = [] -> rich y ->
  exists y', ystep y (YCheck now now3) = Some (y', []) /\ y_sock y' = Some d /\ y_phase y' = PIdle /\ y_outs y' = [] /\ y_cmd y' = y_cmd y /\ y_rd y' = [] /\ y_port y' = [] /\ tab y' = tab y /\ rich y'.
Proof.
  intros y now now3 d S P O RD PT (R1 & R2). cbn [DhtSysModel.ystep]. rewrite P.
  assert (Z : forall y', y' = with_phase y PIdle \/ (exists f, y' = with_fet (with_dht y (mk_task (k_mgr (y_dht y)) false) PIdle (y_peers y)) (Some f) [] (y_peers y)) ->
    y_sock y' = Some d /\ y_phase y' = PIdle /\ y_outs y' = [] /\ y_cmd y' = y_cmd y /\ y_rd y' = [] /\ y_port y' = [] /\ tab y' = tab y /\ rich y').
  { intros y' [->|(f & ->)]; unfold rich, tab; cbn; auto 12. }
  destruct (_ && _); [|eexists; split; [reflexivity|]; apply Z; auto].
  unfold spawn_fetcher. destruct (@closest_spec now3 _ _ (reachable_inv R1) R2) as (ol & E & _). unfold tab in *. rewrite E. cbn [rmap]. destruct ol as [l|]; cbn [option_map]; eexists; (split; [reflexivity|]); apply Z; eauto.
Qed.
Lemma ask_run : forall y d b now pk t, rest y d -> rich y -> 0 < c_cmd cap -> 0 < c_port cap ->
  exists y' h, yrun y [YPort b; YTurn now pk SPort; YSend; YCheck now now; YCmd t; YOut] = Some (y', h) /\ flat_map snd h = [(b, ping_query (d_own d) t)] /\
  rest y' (mk_dcon (d_own d) (d_secret d) (pend_insert (d_pending d) t KPing DHT)) /\ tab y' = tab y /\ rich y'.
Proof.
  intros y d b now pk t (S & P & O & C & RD & PT) RI L1 L2.
  set (y1 := with_port y [b]).
  assert (E1 : ystep y (YPort b) = Some (y1, [])).
  { cbn [DhtSysModel.ystep]. unfold dht_alive. rewrite P, PT. cbn [length]. destruct (0 <? c_port cap) eqn:X; [reflexivity|]. apply Nat.ltb_ge in X. lia. }
  set (y2 := with_dht (with_port y1 []) (mk_task (mgr_of (with_port y1 [])) (k_wait (y_dht y))) (PSend [CQuery b QPing]) (y_peers y)).
  assert (E2 : ystep y1 (YTurn now pk SPort) = Some (y2, [])).
  { cbn [DhtSysModel.ystep]. unfold y1. cbn [with_port y_phase y_port]. rewrite P. reflexivity. }
  set (y3 := with_phase (with_cmd y2 [(DHT, CQuery b QPing)]) (PSend [])).
  assert (E3 : ystep y2 YSend = Some (y3, [])).
  { assert (Q1 : y_phase y2 = PSend [CQuery b QPing]) by reflexivity. assert (Q2 : y_sock y2 = Some d) by exact S. assert (Q3 : y_cmd y2 = []) by exact C.
    cbn [DhtSysModel.ystep]. unfold sock_alive, send_cmd. rewrite Q1, Q2, Q3. cbn [length]. destruct (0 <? c_cmd cap) eqn:X; [|apply Nat.ltb_ge in X; lia]. reflexivity. }
  destruct (@check_idle y3 now now d) as (y4 & E4 & A1 & A2 & A3 & A4 & A5 & A6 & A7 & A8); try (unfold y3, y2, y1; cbn; auto; fail).
  set (y5 := with_sock (with_cmd y4 []) (Some (mk_dcon (d_own d) (d_secret d) (pend_insert (d_pending d) t KPing DHT))) [OSend b (ping_query (d_own d) t)]).
  assert (E5 : ystep y4 (YCmd t) = Some (y5, [])).
  { cbn [DhtSysModel.ystep]. rewrite A1, A3, A4. reflexivity. }
  set (y6 := with_sock y5 (Some (mk_dcon (d_own d) (d_secret d) (pend_insert (d_pending d) t KPing DHT))) []).
  assert (E6 : ystep y5 YOut = Some (y6, [(b, ping_query (d_own d) t)])) by reflexivity.
  do 2 eexists. split; [cbn [DhtSysModel.yrun]; rewrite E1, E2, E3, E4, E5, E6; reflexivity|]. split; [reflexivity|]. split.
  { unfold rest, y6, y5. cbn. auto 8. }
  split; [unfold tab, y6, y5 in *; cbn in *; rewrite A7; reflexivity|exact A8].
Qed.
Lemma touch_goes : forall y now id b, reachable (tab y) -> wf_id id -> wf_addr b -> exists t, touch_node now id b (tab y) = Val t /\ reachable t.
Proof.
  intros y now id from R W1 W2. destruct (@C44_total_restarts (tab y) [mk_touch now id from] R) as (t & H & _ & RT); [repeat constructor; auto|]. cbn [run te_now te_id te_addr] in H. destruct (touch_node now id from (tab y)) as [t'| |]; try discriminate. injection H as ->. eauto.
Qed.
Lemma hear_run : forall y d id b now pk, y_sock y = Some d -> y_phase y = PIdle -> y_outs y = [OResp DHT (FTouch id b)] -> y_cmd y = [] -> y_rd y = [] -> y_port y = [] -> rich y -> wf_id id -> wf_addr b -> 0 < c_rd cap ->
  exists y' h, yrun y [YOut; YTurn now pk SResp; YCheck now now] = Some (y', h) /\ flat_map snd h = [] /\ rest y' d /\ touch_node now id b (tab y) = Val (tab y') /\ rich y'.
Proof.
  intros y d id b now pk S P O C RD PT (R1 & R2) W1 W2 L.
  set (y1 := with_rd (with_sock y (Some d) []) [FTouch id b]).
  assert (E1 : ystep y YOut = Some (y1, [])).
  { cbn [DhtSysModel.ystep]. rewrite S, O. unfold sock_out, hand_over, dht_alive. cbn [Nat.eqb DHT]. rewrite P, RD. cbn [length]. destruct (0 <? c_rd cap) eqn:X; [reflexivity|apply Nat.ltb_ge in X; lia]. }
  destruct (@touch_goes y now id b R1 W1 W2) as (t & T & RT).
  set (y2 := with_dht (with_rd y1 []) (mk_task (set_table (mgr_of (with_rd y1 [])) t) (k_wait (y_dht y))) (PSend []) (y_peers y)).
  assert (E2 : ystep y1 (YTurn now pk SResp) = Some (y2, [])).
  { assert (Q1 : y_phase y1 = PIdle) by exact P. assert (Q2 : y_rd y1 = [FTouch id b]) by reflexivity.
    cbn [DhtSysModel.ystep]. rewrite Q1, Q2. unfold dht_turn. cbn [gstep on_resp]. change (g_table (mgr_of (with_rd y1 []))) with (tab y). rewrite T. reflexivity. }
  destruct (@check_idle y2 now now d) as (y3 & E3 & A1 & A2 & A3 & A4 & A5 & A6 & A7 & A8); try (unfold y2, y1, rich, tab; cbn; auto; fail).
  do 2 eexists. split; [cbn [DhtSysModel.yrun]; rewrite E1, E2, E3; reflexivity|]. split; [reflexivity|]. split; [unfold rest; rewrite A4; repeat split; auto|]. split; [rewrite T, A7; reflexivity|exact A8].
Qed.
End one.

(** ** the network *)
Lemma ping_read : forall buf id t, wf_id id -> length t <= 2000 -> kmsg_from_bytes (recv_into buf (kmsg_bytes (ping_query id t))) = Val (ping_query id t).
Proof.
  intros buf id t W T. assert (WK : wf_kmsg (ping_query id t)) by (split; [reflexivity|]; split; [apply utf8_ok_iff; reflexivity|]; exact W).
  rewrite recv_short; [rewrite round_trip by exact WK; reflexivity|]. rewrite C73_bep5 by exact WK. unfold ping_query, bep5, bep5_args. rewrite !app_length, W.
  pose proof (@ostr_len t 4 ltac:(change (10 ^ N.of_nat 4)%N with 10000%N; lia) ltac:(lia)). unfold BUF_LEN. cbn. lia.
Qed.
Lemma pong_read : forall buf id t, wf_id id -> length t <= 2000 -> kmsg_from_bytes (recv_into buf (kmsg_bytes (ping_resp id t))) = Val (ping_resp id t).
Proof.
  intros buf id t W T. assert (WK : wf_kmsg (ping_resp id t)) by (split; [reflexivity|]; exact W).
  rewrite recv_short; [rewrite round_trip by exact WK; reflexivity|]. rewrite C73_bep5 by exact WK. unfold ping_resp, bep5, bep5_resp. rewrite !app_length, W.
  pose proof (@ostr_len t 4 ltac:(change (10 ^ N.of_nat 4)%N with 10000%N; lia) ltac:(lia)). unfold BUF_LEN. cbn. lia.
Qed.
Section net.
Variable sha : bytes -> bytes.
Variable who : addr -> option client.
Notation nstep := (nstep sha who).
Notation nrun := (nrun sha who).
Definition dgrams (a : addr) (l : list (addr * kmsg)) : list dgram := map (fun d => mk_dgram a (fst d) (kmsg_bytes (snd d))) l.
Lemma nrun_do : forall es n a c y' h, who a = Some c -> Forall (fun e => is_in e = false) es -> yrun sha (v_max c) (v_caps c) (v_tcp c) (h_sys (n_hosts n a)) es = Some (y', h) ->
  exists n', nrun n (map (NDo a) es) = Some n' /\ n_hosts n' a = mk_host y' (h_buf (n_hosts n a)) /\ (forall x, x <> a -> n_hosts n' x = n_hosts n x) /\ n_air n' = n_air n ++ dgrams a (flat_map snd h).
Proof.
  induction es as [|e es IH]; intros n a c y' h W F R; cbn [yrun] in R.
  - injection R as <- <-. exists n. split; [reflexivity|]. split; [destruct (n_hosts n a); reflexivity|]. split; [auto|]. cbn. rewrite app_nil_r. reflexivity.
  - inversion F as [|? ? I F']; subst. destruct (ystep _ _ _ _ _ _) as [[y1 o]|] eqn:S; [|discriminate]. destruct (yrun _ _ _ _ y1 es) as [[y2 h2]|] eqn:R2; [|discriminate]. injection R as <- <-.
    set (n1 := put_host n a (mk_host y1 (h_buf (n_hosts n a))) (dgrams a o)).
    assert (E : nstep n (NDo a e) = Some n1) by (cbn [NetModel.nstep]; rewrite W, I, S; reflexivity).
    assert (H1 : n_hosts n1 a = mk_host y1 (h_buf (n_hosts n a))) by apply put_same.
    destruct (IH n1 a c y2 h2 W F') as (n' & R' & A & B & C); [rewrite H1; exact R2|]. exists n'. split; [cbn [map NetModel.nrun]; rewrite E; exact R'|]. split; [rewrite A, H1; reflexivity|]. split.
    + intros x X. rewrite B by exact X. apply put_other. exact X.
    + rewrite C. cbn [n1 put_host n_air flat_map snd]. unfold dgrams. rewrite map_app, app_assoc. reflexivity.
Qed.
Lemma get_step : forall n k from to m c d ds os, nth_error (n_air n) k = Some (mk_dgram from to (kmsg_bytes m)) -> who to = Some c -> y_sock (h_sys (n_hosts n to)) = Some d -> y_outs (h_sys (n_hosts n to)) = [] ->
  kmsg_from_bytes (recv_into (h_buf (n_hosts n to)) (kmsg_bytes m)) = Val m -> DhtModel.dstep sha all_there d (EIn from m) = Val (ds, os) ->
  exists n', nstep n (NGet k) = Some n' /\ h_sys (n_hosts n' to) = with_sock (h_sys (n_hosts n to)) (Some ds) os /\ (forall x, x <> to -> n_hosts n' x = n_hosts n x) /\ n_air n' = n_air n.
Proof.
  intros n k from to m c d ds os K W S O R D. cbn [NetModel.nstep]. rewrite K. cbn [g_from g_to g_data]. unfold arrive, receive. rewrite W, S, O, R. cbn [ystep]. rewrite S, O, D. cbn [option_map fst after_sock].
  eexists. split; [reflexivity|]. split; [rewrite put_same; reflexivity|]. split; [intros x X; rewrite put_other by exact X; reflexivity|]. cbn. rewrite app_nil_r. reflexivity.
Qed.
Lemma last_nth : forall A (l : list A) x r, nth_error (l ++ x :: r) (length l) = Some x.
Proof. intros A l x r. rewrite nth_error_app2 by lia. rewrite Nat.sub_diag. reflexivity. Qed.
Hypothesis FIT : forall a c, who a = Some c -> fit a c.
Lemma meet_run : forall es n a ca b cb now, (forall e, In e es -> proper e) -> nrun (net_start who) es = Some n -> who a = Some ca -> who b = Some cb -> a <> b -> some_room ca -> at_rest n a -> ready n b ->
  exists es' n', nrun n es' = Some n' /\ (forall e, In e es' -> proper e /\ between a b e) /\ touch_node now (v_own cb) b (table_at n a) = Val (table_at n' a) /\ at_rest n' a /\ ready n' b /\ table_at n' b = table_at n b /\ y_phase (h_sys (n_hosts n' b)) = y_phase (h_sys (n_hosts n b)) /\ (forall x, x <> a -> x <> b -> n_hosts n' x = n_hosts n x).
Proof.
  intros es n a ca b cb now P R WA WB NE (L1 & L2 & L3) (LA & PA & OA & CA & RA & TA) (LB & OB).
  assert (WK : working n a) by (split; [exact LA|]; rewrite PA; discriminate).
  pose proof (@working_well sha who es n a ca FIT P WA R WK) as W. pose proof (@nrun_good sha who es _ _ (@start_good who (@fit_sound who FIT)) R (fun e I => proper_fed (P e I))) as (N1 & _).
  unfold listening in LA, LB. destruct (y_sock (h_sys (n_hosts n a))) as [da|] eqn:SA; [|congruence]. destruct (y_sock (h_sys (n_hosts n b))) as [db|] eqn:SB; [|congruence].
  assert (OWA : d_own da = v_own ca) by (destruct (N1 _ _ WA) as ((T & _) & _); apply (tr_own T); exact SA).
  assert (OWB : d_own db = v_own cb) by (destruct (N1 _ _ WB) as ((T & _) & _); apply (tr_own T); exact SB).
  assert (IA : wf_id (v_own ca)) by apply (FIT WA). assert (IB : wf_id (v_own cb)) by apply (FIT WB). assert (AB : wf_addr b) by apply (FIT WB).
  set (t := [x61; x61]). set (pk := fun (k : nat) (l : list addr) => firstn k l).
  destruct (@ask_run sha (v_max ca) (v_caps ca) (v_tcp ca) (h_sys (n_hosts n a)) da b now pk t) as (y1 & h1 & Y1 & S1 & Q1 & T1 & RI1); [unfold rest; auto 8|split; [apply (w_tab W)|apply (w_info W)]|exact L1|exact L3|].
  destruct (fun F => @nrun_do _ n a ca y1 h1 WA F Y1) as (n1 & E1 & H1 & X1 & R1); [repeat constructor|]. rewrite S1 in R1. cbn [dgrams map fst snd] in R1.
  destruct (@get_step n1 (length (n_air n)) a b (ping_query (d_own da) t) cb db db [OSend a (ping_resp (d_own db) t)]) as (n2 & E2 & H2 & X2 & R2).
  { rewrite R1. apply last_nth. } { exact WB. } { rewrite X1 by congruence. exact SB. } { rewrite X1 by congruence. exact OB. } { apply ping_read; [rewrite OWA; exact IA|cbn; lia]. } { reflexivity. }
  rewrite X1 in H2 by congruence.
  destruct (@nrun_do [YOut] n2 b cb (with_sock (h_sys (n_hosts n b)) (Some db) []) [(YOut, [(a, ping_resp (d_own db) t)])] WB) as (n3 & E3 & H3 & X3 & R3); [repeat constructor|rewrite H2; reflexivity|]. cbn [flat_map snd app dgrams map fst] in R3.
  assert (Y3 : n_hosts n3 a = n_hosts n1 a) by (rewrite X3, X2 by congruence; reflexivity).
  set (d1 := mk_dcon (d_own da) (d_secret da) (pend_insert (d_pending da) t KPing DHT)). destruct Q1 as (Q1 & Q2 & Q3 & Q4 & Q5 & Q6).
  set (d2 := mk_dcon (d_own da) (d_secret da) (mdel bytes_eqb t (pend_insert (d_pending da) t KPing DHT))).
  destruct (@get_step n3 (S (length (n_air n))) b a (ping_resp (d_own db) t) ca d1 d2 [OResp DHT (FTouch (d_own db) b)]) as (n4 & E4 & H4 & X4 & R4).
  { rewrite R3, R2, R1, <- app_assoc. rewrite nth_error_app2 by lia. replace (S (length (n_air n)) - length (n_air n)) with 1 by lia. reflexivity. }
  { exact WA. } { rewrite Y3, H1. exact Q1. } { rewrite Y3, H1. exact Q3. } { apply pong_read; [rewrite OWB; exact IB|cbn; lia]. }
  { cbn [ping_resp DhtModel.dstep]. unfold handle_resp. cbn [kind_of_resp payload]. unfold pend_get. cbn [d1 d_pending]. unfold pend_insert. rewrite (mget_mset_same _ bytes_eqb_eq). reflexivity. }
  rewrite Y3, H1 in H4. cbn [h_sys] in H4.
  destruct (@hear_run sha (v_max ca) (v_caps ca) (v_tcp ca) (h_sys (n_hosts n4 a)) d2 (d_own db) b now pk) as (y5 & h5 & Y5 & S5 & Q7 & T5 & RI5); try (rewrite H4; cbn; auto; fail).
  all: try (rewrite OWB; exact IB). all: try exact AB. all: try exact L2. all: try (rewrite H4; unfold rich, tab in *; exact RI1).
  destruct (fun F => @nrun_do _ n4 a ca y5 h5 WA F Y5) as (n5 & E5 & H5 & X5 & R5); [repeat constructor|].
  exists (map (NDo a) [YPort b; YTurn now pk SPort; YSend; YCheck now now; YCmd t; YOut] ++ [NGet (length (n_air n))] ++ map (NDo b) [YOut] ++ [NGet (S (length (n_air n)))] ++ map (NDo a) [YOut; YTurn now pk SResp; YCheck now now]), n5.
  split. { rewrite nrun_app, E1, nrun_app. cbn [NetModel.nrun]. rewrite E2, nrun_app, E3, nrun_app. cbn [NetModel.nrun]. rewrite E4. exact E5. }
  split. { intros e I. cbn [map app In] in I. repeat (destruct I as [<-|I]; [split; [exact Logic.I|cbn; auto]|]). destruct I. }
  assert (HB : n_hosts n5 b = n_hosts n3 b) by (rewrite X5, X4 by congruence; reflexivity).
  split. { rewrite OWB in T5. rewrite H4 in T5. unfold table_at. rewrite H5. cbn [h_sys]. unfold tab in *. cbn [with_sock y_dht] in T5. rewrite T1 in T5. exact T5. }
  split. { unfold at_rest, listening. rewrite H5. cbn [h_sys]. destruct Q7 as (Z1 & Z). rewrite Z1. split; [discriminate|exact Z]. }
  split. { unfold ready, listening. rewrite HB, H3. cbn. split; [discriminate|reflexivity]. }
  split. { unfold table_at. rewrite HB, H3. reflexivity. }
  split. { rewrite HB, H3. reflexivity. }
  intros x Xa Xb. rewrite X5, X4, X3, X2, X1 by congruence. reflexivity.
Qed.
End net.

(** Told of the DHT port of another client, a client at rest can get its answer:
    afterwards it has touched the other's id at the other's address, and is at
    rest again. Nothing else is needed: not that the other is at rest, that it
    has a table, or that the two have anything in common. *)
Theorem C132_meets : forall sha who es n a ca b cb now, (forall a c, who a = Some c -> fit a c) -> (forall e, In e es -> proper e) -> nrun sha who (net_start who) es = Some n ->
  who a = Some ca -> who b = Some cb -> a <> b -> some_room ca -> at_rest n a -> ready n b ->
  exists es' n', nrun sha who n es' = Some n' /\ (forall e, In e es' -> proper e /\ between a b e) /\
    touch_node now (v_own cb) b (table_at n a) = Val (table_at n' a) /\ at_rest n' a /\ ready n' b /\
    table_at n' b = table_at n b /\ (forall x, x <> a -> x <> b -> n_hosts n' x = n_hosts n x).
Proof.
  intros sha who es n a ca b cb now FIT P R WA WB NE L RA RB. destruct (@meet_run sha who FIT es n a ca b cb now P R WA WB NE L RA RB) as (es' & n' & H1 & H2 & H3 & H4 & H5 & H6 & _ & H7). exists es', n'. auto 8.
Qed.
(** With fewer than eight good nodes in its table it knows the other then. *)
Theorem C132_known : forall sha who es n a ca b cb now, (forall a c, who a = Some c -> fit a c) -> (forall e, In e es -> proper e) -> nrun sha who (net_start who) es = Some n ->
  who a = Some ca -> who b = Some cb -> a <> b -> some_room ca -> at_rest n a -> ready n b -> count (fresh now) (t_nodes (table_at n a)) < 8 ->
  exists es' n', nrun sha who n es' = Some n' /\ (forall e, In e es' -> proper e /\ between a b e) /\ TableSpec.known (table_at n' a) (v_own cb).
Proof.
  intros sha who es n a ca b cb now FIT P R WA WB NE L RA RB C. destruct (@meet_run sha who FIT es n a ca b cb now P R WA WB NE L RA RB) as (es' & n' & H1 & H2 & H3 & _). exists es', n'. split; [exact H1|]. split; [exact H2|].
  assert (WK : working n a) by (destruct RA as (LA & PA & _); split; [exact LA|]; rewrite PA; discriminate).
  destruct (@C46_first_eight now (v_own cb) b (table_at n a)) as (t & T & K); [apply (w_tab (@working_well sha who es n a ca FIT P WA R WK))|apply (FIT _ _ WB)|exact C|]. rewrite H3 in T. injection T as ->. exact K.
Qed.
(** One after the other, any number of clients: the table is then as if each had
    answered in turn. *)
Theorem C132_everybody : forall sha who bs es n a ca now, (forall a c, who a = Some c -> fit a c) -> (forall e, In e es -> proper e) -> nrun sha who (net_start who) es = Some n ->
  who a = Some ca -> some_room ca -> at_rest n a -> (forall b c, In (b, c) bs -> who b = Some c /\ a <> b /\ ready n b) ->
  exists es' n', nrun sha who n es' = Some n' /\ (forall e, In e es' -> proper e) /\ at_rest n' a /\
    run (table_at n a) (map (fun x => mk_touch now (v_own (snd x)) (fst x)) bs) = Val (table_at n' a).
Proof.
  intros sha who bs. induction bs as [|[b cb] bs IH]; intros es n a ca now FIT P R WA L RA B.
  - exists [], n. split; [reflexivity|]. split; [intros ? []|]. split; [exact RA|reflexivity].
  - destruct (B _ _ (or_introl eq_refl)) as (WB & NE & RB). destruct (@meet_run sha who FIT es n a ca b cb now P R WA WB NE L RA RB) as (e1 & n1 & H1 & H2 & H3 & H4 & H5 & _ & _ & H7).
    assert (P1 : forall e, In e (es ++ e1) -> proper e) by (intros e I; apply in_app_or in I; destruct I as [I|I]; [auto|apply H2; exact I]).
    destruct (IH (es ++ e1) n1 a ca now FIT P1) as (e2 & n2 & K1 & K2 & K3 & K4); [rewrite nrun_app, R; exact H1|exact WA|exact L|exact H4| |].
    { intros x c I. destruct (B _ _ (or_intror I)) as (W & N & Y). split; [exact W|]. split; [exact N|]. destruct (dec_addr x b) as [->|D]; [exact H5|]. unfold ready, listening in *. rewrite H7 by congruence. exact Y. }
    exists (e1 ++ e2), n2. split; [rewrite nrun_app, H1; exact K1|]. split; [intros e I; apply in_app_or in I; destruct I as [I|I]; [apply H2; exact I|auto]|]. split; [exact K3|].
    cbn [map run fst snd te_id te_addr te_now]. rewrite H3. exact K4.
Qed.
(** The three clients of [ex_who], a step after the start. *)
Definition ex_up : list nev := [NDo addr_a YSend; NDo addr_b YSend].
Example C132_example : (forall a c, ex_who a = Some c -> fit a c) /\ (forall e, In e ex_up -> proper e) /\
  exists n ca cb cc, nrun ex_sha ex_who (net_start ex_who) ex_up = Some n /\ ex_who addr_a = Some ca /\ ex_who addr_b = Some cb /\ ex_who addr_c = Some cc /\ some_room ca /\ at_rest n addr_a /\ ready n addr_b /\ ready n addr_c /\
    addr_a <> addr_b /\ addr_a <> addr_c /\ t_nodes (table_at n addr_a) = [].
Proof.
  split; [exact ex_fit|]. split; [intros e I; repeat (destruct I as [<-|I]; [exact Logic.I|]); destruct I|].
  do 4 eexists. split; [reflexivity|]. split; [reflexivity|]. split; [reflexivity|]. split; [reflexivity|]. split; [unfold some_room; repeat split; apply Nat.ltb_lt; vm_compute; reflexivity|].
  unfold at_rest, ready, listening. repeat split; discriminate.
Qed.

Print Assumptions C132_meets.
Print Assumptions C132_known.
Print Assumptions C132_everybody.
