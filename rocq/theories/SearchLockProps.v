(** C89, C95 continued: the DHT task waiting for the socket task while that waits
    for the peer search. Either the search's own steps end the wait, or the three
    wait for each other, and then for ever. *)
From Coq Require Import List NArith ZArith Lia Bool Arith.
From Coq Require Import Init.Byte.
From Verif Require Import Base Assoc IdModel WireModel TableModel TableSpec TableProofs2 PeersModel PeersSpec PeersProofs PeersProps BencodeModel TrackerModel ManagerModel KrpcModel DhtModel DhtSpec DhtMgrModel FetchModel TaskModel
  DhtSysModel DhtSysSpec DhtSysProps DhtEndProps ClientModel ClientSpec ClientProps.
Import ListNotations.
Set Implicit Arguments.

(** The DHT task and the search both wait for the socket task to take a command,
    and the socket task waits for the search to take a response. *)
Definition search_locked (cap : caps) (y : sys) : Prop :=
  y_sock y <> None /\ dht_sending y /\ c_cmd cap <= length (y_cmd y) /\
  y_fet y <> None /\ y_fout y <> [] /\ c_rf cap <= length (y_rf y) /\
  exists req r os, req <> DHT /\ y_outs y = OResp req r :: os.
(** Steps of the tasks for which nothing need come from outside: also the next
    round of the search and the search taking a response that waits for it. *)
Definition of_tasks (e : yev) : Prop := unaided e \/ e = YTick \/ e = YAnswer \/ exists a b, e = YCheck a b.

Section sys.
Variable sha : bytes -> bytes.
Variable usize_max : nat.
Variable cap : caps.
Variable tcp_port : N.
Notation step := (ystep sha usize_max cap tcp_port).
Notation run := (yrun sha usize_max cap tcp_port).

Lemma lock_step : forall y e y' o, search_locked cap y -> step y e = Some (y', o) ->
  search_locked cap y' /\ o = [] /\ y_phase y' = y_phase y /\ y_outs y' = y_outs y /\ y_dht y' = y_dht y /\ y_stored y' = y_stored y.
Proof.
  intros y e y' o (S & (c & l & D) & F & FE & FO & FR & req & r & os & NR & X) H.
  assert (NC : (length (y_cmd y) <? c_cmd cap) = false) by (apply Nat.ltb_ge; exact F).
  assert (NF : (length (y_rf y) <? c_rf cap) = false) by (apply Nat.ltb_ge; exact FR).
  assert (SC : forall r c, send_cmd cap y r c = None) by (intros; unfold send_cmd; rewrite NC; reflexivity).
  assert (SA : sock_alive y = true) by (unfold sock_alive; destruct (y_sock y); congruence).
  assert (K : forall z, y_sock z = y_sock y -> y_phase z = y_phase y -> y_cmd z = y_cmd y -> y_outs z = y_outs y -> y_fet z = y_fet y -> y_fout z = y_fout y -> y_rf z = y_rf y -> search_locked cap z).
  { intros z E1 E2 E3 E4 E5 E6 E7. unfold search_locked, dht_sending. rewrite E1, E2, E3, E4, E5, E6, E7. split; [exact S|]. split; [exists c, l; exact D|]. split; [exact F|]. split; [exact FE|]. split; [exact FO|]. split; [exact FR|]. exists req, r, os. auto. }
  destruct e; cbn [ystep] in H.
  - rewrite X in H. destruct (y_sock y); discriminate.
  - rewrite X in H. destruct (y_sock y); discriminate.
  - rewrite X in H. destruct (y_sock y) as [d|]; [|discriminate]. exfalso. cbn [sock_out] in H. apply Nat.eqb_neq in NR. rewrite NR in H. unfold hand_over in H. rewrite NF in H.
    destruct (y_fet y); [discriminate|congruence].
  - rewrite X in H. destruct (y_sock y); discriminate.
  - rewrite X in H. destruct (y_sock y); discriminate.
  - destruct D as [D|D]; rewrite D in H; discriminate.
  - destruct D as [D|D]; rewrite D, SA, SC in H; discriminate.
  - destruct D as [D|D]; rewrite D in H; discriminate.
  - destruct (y_fet y); [|discriminate]. destruct (y_fout y); [congruence|discriminate].
  - destruct (y_fet y); [|discriminate]. destruct (y_fout y); [congruence|discriminate].
  - destruct (y_fet y); [|discriminate]. destruct (y_fout y); [congruence|discriminate].
  - destruct (y_fet y); [|discriminate]. destruct (y_fout y); [discriminate|]. rewrite SA, SC in H. discriminate.
  - inv_step H; (split; [apply K; reflexivity|repeat split]).
  - inv_step H; (split; [apply K; reflexivity|repeat split]).
Qed.
(** Once the three wait for each other they do so for ever. *)
Theorem C89_search_forever : forall es y y' h, search_locked cap y -> run y es = Some (y', h) ->
  search_locked cap y' /\ sent h = [] /\ y_phase y' = y_phase y /\ y_dht y' = y_dht y /\ y_stored y' = y_stored y /\
  forall from m o, ~ In (YIn from m, o) h.
Proof.
  induction es as [|e es IH]; intros y y' h L R; cbn [yrun] in R.
  - injection R as <- <-. do 5 (split; [try reflexivity; exact L|]). intros from m o [].
  - destruct (step y e) as [[y1 o]|] eqn:E; [|discriminate]. destruct (run y1 es) as [[y2 h2]|] eqn:R2; [|discriminate]. injection R as <- <-.
    destruct (@lock_step y e y1 o L E) as (L1 & -> & P1 & _ & D1 & S1). destruct (IH y1 y2 h2 L1 R2) as (A & B & C & D & F & G).
    split; [exact A|]. split; [exact B|]. split; [congruence|]. split; [congruence|]. split; [congruence|]. intros from m o [X|X]; [|exact (G _ _ _ X)].
    injection X as -> _. cbn [ystep] in E. destruct L as (S & _ & _ & _ & _ & _ & req & r & os & _ & X). rewrite X in E. destruct (y_sock y); discriminate.
Qed.

(** *** the waits that end *)
Lemma wait_empty : forall q y d, 0 < c_cmd cap -> y_sock y = Some d -> y_outs y = [] -> dht_sending y -> y_cmd y = q ->
  exists es y' h, run y es = Some (y', h) /\ Forall of_tasks es /\ rank (y_phase y') < rank (y_phase y).
Proof.
  induction q as [|[req c] q IH]; intros y d C S O D Q.
  - destruct (@sending_next sha usize_max cap tcp_port [] y D C) as (y' & E & N); [right; rewrite Q; exact C|]. exists [YSend], y', [(YSend, [])].
    cbn [yrun]. rewrite E. split; [reflexivity|]. split; [constructor; [left; unfold unaided; auto|constructor]|].
    destruct (@rank_step sha usize_max cap tcp_port y YSend y' []) as [A|A]; [unfold unaided; auto|exact E|contradiction|exact A].
  - set (ev := match c with CQuery target qu => EQuery req target qu [] | CReply target t' r => EReply target t' r end).
    assert (V : exists d' to m, DhtModel.dstep sha all_there d ev = Val (d', [OSend to m])).
    { subst ev. destruct c as [tg qu|tg t' r]; cbn [DhtModel.dstep]; [unfold send_query; destruct qu; cbn; eauto|unfold send_reply; eauto]. }
    destruct V as (d' & to & m & V). destruct (IH (with_sock (with_cmd y q) (Some d') []) d' C eq_refl eq_refl) as (es & y' & h & E & U & N); [exact D|reflexivity|].
    exists ([YCmd []; YOut] ++ es), y', ([(YCmd [], []); (YOut, [(to, m)])] ++ h). split; [|split; [|exact N]].
    + eapply yrun_app; [|exact E]. cbn [yrun ystep]. rewrite S, O, Q. fold ev. rewrite V. cbn. reflexivity.
    + constructor; [left; unfold unaided; eauto|]. constructor; [left; unfold unaided; eauto|exact U].
Qed.
Lemma activate_no_fail : forall limit order m acc, activate limit order m acc <> Fail.
Proof. intro limit. induction order as [|st order IH]; intros m acc X; cbn [activate] in X; [discriminate|]. destruct (limit <? length acc); [discriminate|]. cbv zeta in X. exact (IH _ _ X). Qed.
Lemma busy_takes : forall f r, fs_busy f = true -> fstep usize_max f (FResp r) <> Fail.
Proof.
  intros f r B H. unfold fstep in H. rewrite B in H. destruct r; try discriminate. destruct (mget addr_eqb _ (fs_nodes f)) as [old|]; [|discriminate].
  unfold on_answer in H. destruct v as [n|l]; (destruct (_ <=? _); [|discriminate]); unfold q_enough, q_good in H;
  match type of H with context [activate ?a ?b ?c ?d] => pose proof (@activate_no_fail a b c d); destruct (activate a b c d); congruence || discriminate end.
Qed.
Definition load (y : sys) : nat := 4 * length (y_outs y) + 2 * length (y_rf y) + match y_fet y with Some f => if fs_busy f then 0 else 1 | None => 0 end.
(** The DHT task gets on with what it sends, or one of the two cycles has come. *)
Lemma wait_resolves : forall n y, load y <= n -> dht_sending y -> 0 < c_cmd cap -> 0 < c_rf cap ->
  exists es y' h, run y es = Some (y', h) /\ Forall of_tasks es /\ (rank (y_phase y') < rank (y_phase y) \/ deadlocked cap y' \/ search_locked cap y').
Proof.
  induction n as [n IH] using lt_wf_ind. intros y L D C CF.
  assert (NOW : y_sock y = None \/ length (y_cmd y) < c_cmd cap -> exists es y' h, run y es = Some (y', h) /\ Forall of_tasks es /\ (rank (y_phase y') < rank (y_phase y) \/ deadlocked cap y' \/ search_locked cap y')).
  { intro A. destruct (@sending_next sha usize_max cap tcp_port [] y D C A) as (y' & E & N). exists [YSend], y', [(YSend, [])].
    cbn [yrun]. rewrite E. split; [reflexivity|]. split; [constructor; [left; unfold unaided; auto|constructor]|]. left.
    destruct (@rank_step sha usize_max cap tcp_port y YSend y' []) as [B|B]; [unfold unaided; auto|exact E|contradiction|exact B]. }
  destruct (le_lt_dec (c_cmd cap) (length (y_cmd y))) as [F|F]; [|apply NOW; auto].
  destruct (y_sock y) as [d|] eqn:S; [|apply NOW; auto]. clear NOW.
  destruct (y_outs y) as [|o os] eqn:O.
  { destruct (@wait_empty (y_cmd y) y d C S O D eq_refl) as (es & y' & h & A & B & E). exists es, y', h. auto. }
  assert (DA : dht_alive y = true) by (destruct D as (c & l & [P|P]); unfold dht_alive; rewrite P; reflexivity).
  assert (GO : forall e y1 out, of_tasks e -> step y e = Some (y1, out) -> y_phase y1 = y_phase y -> load y1 < load y ->
    exists es y' h, run y es = Some (y', h) /\ Forall of_tasks es /\ (rank (y_phase y') < rank (y_phase y) \/ deadlocked cap y' \/ search_locked cap y')).
  { intros e y1 out OT E P1 L1. destruct (IH (load y1) ltac:(lia) y1 (le_n _)) as (es & y' & h & R & U & X); [unfold dht_sending in *; rewrite P1; exact D|exact C|exact CF|].
    exists (e :: es), y', ((e, out) :: h). split; [cbn [yrun]; rewrite E, R; reflexivity|]. split; [constructor; [exact OT|exact U]|]. rewrite <- P1. exact X. }
  assert (SO : forall z out, sock_out cap y d o os = Some (z, out) -> y_phase z = y_phase y -> load z < load y ->
    exists es y' h, run y es = Some (y', h) /\ Forall of_tasks es /\ (rank (y_phase y') < rank (y_phase y) \/ deadlocked cap y' \/ search_locked cap y')).
  { intros z out X. eapply (GO YOut); [left; unfold unaided; auto|]. cbn [ystep]. rewrite S, O. exact X. }
  assert (DL : for_dht o = true -> (forall r, o <> OResp DHT r) -> c_qry cap <= length (y_qry y) -> exists es y' h, run y es = Some (y', h) /\ Forall of_tasks es /\ (rank (y_phase y') < rank (y_phase y) \/ deadlocked cap y' \/ search_locked cap y')).
  { intros A B G. exists [], y, []. split; [reflexivity|]. split; [constructor|]. right. left. split; [congruence|]. split; [exact D|]. split; [exact F|]. exists o, os. split; [exact O|]. right. auto. }
  unfold load in SO, GO. rewrite O in SO, GO. cbn [length] in SO, GO.
  destruct o as [to m|tg fr tt|ih fr tt|p ih|req r].
  - eapply SO; [reflexivity|reflexivity|cbn; lia].
  - destruct (le_lt_dec (c_qry cap) (length (y_qry y))) as [G|G]; [apply DL; [reflexivity|discriminate|exact G]|].
    eapply SO; [cbn [sock_out]; unfold hand_over; rewrite DA; apply Nat.ltb_lt in G; rewrite G; reflexivity|reflexivity|cbn; lia].
  - destruct (le_lt_dec (c_qry cap) (length (y_qry y))) as [G|G]; [apply DL; [reflexivity|discriminate|exact G]|].
    eapply SO; [cbn [sock_out]; unfold hand_over; rewrite DA; apply Nat.ltb_lt in G; rewrite G; reflexivity|reflexivity|cbn; lia].
  - destruct (le_lt_dec (c_qry cap) (length (y_qry y))) as [G|G]; [apply DL; [reflexivity|discriminate|exact G]|].
    eapply SO; [cbn [sock_out]; unfold hand_over; rewrite DA; apply Nat.ltb_lt in G; rewrite G; reflexivity|reflexivity|cbn; lia].
  - destruct (Nat.eq_dec req DHT) as [->|NE].
    { destruct (le_lt_dec (c_rd cap) (length (y_rd y))) as [G|G].
      - exists [], y, []. split; [reflexivity|]. split; [constructor|]. right. left. split; [congruence|]. split; [exact D|]. split; [exact F|]. eexists _, _. split; [exact O|]. left. eauto.
      - eapply SO; [cbn; unfold hand_over; rewrite DA; apply Nat.ltb_lt in G; rewrite G; reflexivity|reflexivity|cbn; lia]. }
    pose proof NE as NE'. apply Nat.eqb_neq in NE. destruct (y_fet y) as [f|] eqn:FE.
    2:{ eapply SO; [cbn [sock_out]; rewrite NE; unfold hand_over; rewrite FE; reflexivity|reflexivity|cbn; rewrite FE; lia]. }
    destruct (le_lt_dec (c_rf cap) (length (y_rf y))) as [G|G].
    2:{ eapply SO; [cbn [sock_out]; rewrite NE; unfold hand_over; rewrite FE; apply Nat.ltb_lt in G; rewrite G; reflexivity|reflexivity|cbn; rewrite FE, app_length; cbn; lia]. }
    destruct (y_fout y) as [|c l] eqn:FO.
    2:{ exists [], y, []. split; [reflexivity|]. split; [constructor|]. right. right. unfold search_locked. rewrite S, FE, FO. split; [discriminate|]. split; [exact D|]. split; [exact F|].
        split; [discriminate|]. split; [discriminate|]. split; [exact G|]. exists req, r, os. auto. }
    destruct (fs_busy f) eqn:B.
    + destruct (y_rf y) as [|a q] eqn:RF; [cbn in G; lia|]. pose proof (@busy_takes (mk_fet (fs_info f) (fs_port f) (fs_nodes f) (y_peers y) true) a eq_refl) as NF.
      destruct (fstep usize_max (mk_fet (fs_info f) (fs_port f) (fs_nodes f) (y_peers y) true) (FResp a)) as [[f' o']| |] eqn:E; [|congruence|].
      * eapply (GO YAnswer); [unfold of_tasks; auto|cbn [ystep]; rewrite FE, FO, RF, B; cbn [with_rf y_peers]; rewrite E; reflexivity|reflexivity|cbn]. rewrite O. cbn. destruct (fs_busy f'); lia.
      * eapply (GO YAnswer); [unfold of_tasks; auto|cbn [ystep]; rewrite FE, FO, RF, B; cbn [with_rf y_peers]; rewrite E; reflexivity|reflexivity|cbn]. rewrite O. cbn. lia.
    + eapply (GO YTick); [unfold of_tasks; auto|cbn [ystep]; rewrite FE, FO, B; cbn; reflexivity|reflexivity|cbn]. rewrite O. cbn. lia.
Qed.
(** A DHT task that waits to send gets on by steps of the tasks alone, unless it
    comes to one of the two cycles, which both last for ever (C89_forever,
    C89_search_forever). *)
Theorem C89_wait_resolves : forall y, dht_sending y -> 0 < c_cmd cap -> 0 < c_rf cap ->
  exists es y' h, run y es = Some (y', h) /\ Forall of_tasks es /\ (y_phase y' <> y_phase y \/ deadlocked cap y' \/ search_locked cap y').
Proof.
  intros y D C CF. destruct (@wait_resolves (load y) y (le_n _) D C CF) as (es & y' & h & R & F & X). exists es, y', h. split; [exact R|]. split; [exact F|].
  destruct X as [X|X]; [left; intro E; rewrite E in X; lia|auto].
Qed.
Lemma settles : forall n y, rank (y_phase y) <= n -> 0 < c_cmd cap -> 0 < c_rf cap ->
  exists es y' h, run y es = Some (y', h) /\ Forall of_tasks es /\ (y_phase y' = PIdle \/ y_phase y' = PGone \/ deadlocked cap y' \/ search_locked cap y').
Proof.
  induction n as [|n IH]; intros y L C CF.
  - destruct (y_phase y) eqn:P; cbn in L; try lia. exists [], y, []. split; [reflexivity|]. split; [constructor|auto].
  - assert (GO : dht_sending y -> exists es y' h, run y es = Some (y', h) /\ Forall of_tasks es /\ (y_phase y' = PIdle \/ y_phase y' = PGone \/ deadlocked cap y' \/ search_locked cap y')).
    { intro D. destruct (@wait_resolves (load y) y (le_n _) D C CF) as (es & y1 & h1 & R & F & X). destruct X as [X|X]; [|exists es, y1, h1; tauto].
      destruct (IH y1) as (es2 & y2 & h2 & R2 & F2 & X2); [lia|exact C|exact CF|]. exists (es ++ es2), y2, (h1 ++ h2). split; [eapply yrun_app; eauto|]. split; [apply Forall_app; auto|exact X2]. }
    destruct (y_phase y) as [[|c l]| |[|c l]|] eqn:P.
    + exists [YSend]. eexists _, _. split; [cbn [yrun ystep]; rewrite P; reflexivity|]. split; [constructor; [left; unfold unaided; auto|constructor]|]. left. reflexivity.
    + apply GO. exists c, l. auto.
    + exists [], y, []. split; [reflexivity|]. split; [constructor|]. left. exact P.
    + exists [YCheck 0 0]. cbn [yrun ystep]. rewrite P. destruct (_ && _).
      * destruct (spawn_fetcher _ _ _ _ _) as [[f|]| |]; eexists _, _; (split; [reflexivity|]); (split; [constructor; [unfold of_tasks; right; right; right; eauto|constructor]|]); cbn; tauto.
      * eexists _, _; (split; [reflexivity|]); (split; [constructor; [unfold of_tasks; right; right; right; eauto|constructor]|]); cbn; tauto.
    + apply GO. exists c, l. auto.
    + exists [], y, []. split; [reflexivity|]. split; [constructor|auto].
Qed.
End sys.

(** ** the client *)
(** Steps the client makes by itself: those of [unprompted] and the search going
    on with its next round or with a response it has been passed. *)
Definition by_itself (e : cev) : Prop := unprompted e \/ e = CDht YTick \/ e = CDht YAnswer.

Section client.
Variable sha : bytes -> bytes.
Variable usize_max : nat.
Variable cap : caps.
Variable tcp_port : N.
Variable cfgs : list tracker_cfg.
Notation step := (cstep sha usize_max cap tcp_port cfgs).
Notation run := (crun sha usize_max cap tcp_port cfgs).
Notation dstep := (ystep sha usize_max cap tcp_port).
Notation drun := (yrun sha usize_max cap tcp_port).

Lemma lift_tasks : forall es s y h, q_exit s = false -> Forall of_tasks es -> drun (q_dht s) es = Some (y, h) -> exists es' h', run s es' = Some (with_sys s y, h') /\ Forall by_itself es'.
Proof.
  induction es as [|e es IH]; intros s y h X F R.
  - injection R as <- <-. exists [], []. split; [destruct s; reflexivity|auto].
  - cbn [yrun] in R. destruct (dstep (q_dht s) e) as [[y1 o]|] eqn:E; [|discriminate]. destruct (drun y1 es) as [[y2 h2]|] eqn:R2; [|discriminate]. injection R as <- <-.
    inversion F as [|? ? G F2]; subst. destruct (IH (with_sys s y1) y2 h2 X F2 R2) as (es' & h' & R' & U).
    exists (CDht e :: es'). eexists. split; [eapply crun_cons; [|exact R']|].
    + unfold cstep. rewrite X. assert (OK : dht_ok s e = true) by (destruct G as [[->|[->|(t & ->)]]|[->|[->|(? & ? & ->)]]]; reflexivity). rewrite OK, E. reflexivity.
    + constructor; [|exact U]. unfold by_itself. destruct G as [[->|[->|(t & ->)]]|[->|[->|(? & ? & ->)]]]; cbn; auto.
Qed.
(** After Ctrl-C the client can end by itself, or its DHT comes to one of two
    standstills. *)
Theorem C95_exit_or_standstill : forall s, q_exit s = false -> q_sig s = true -> length (q_trk s) = length cfgs -> 0 < c_cmd cap -> 0 < c_rf cap ->
  exists es s' h, run s es = Some (s', h) /\ Forall by_itself es /\
    (q_exit s' = true \/ deadlocked cap (q_dht s') \/ search_locked cap (q_dht s')).
Proof.
  intros s X G L C CF. destruct (@settles sha usize_max cap tcp_port (rank (y_phase (q_dht s))) (q_dht s) (le_n _) C CF) as (es1 & y1 & h1 & R1 & F1 & P1).
  destruct (@lift_tasks es1 s y1 h1 X F1 R1) as (es1' & h1' & R1' & U1).
  assert (IMP : forall l, Forall unprompted l -> Forall by_itself l) by (intros l A; eapply Forall_impl; [|exact A]; intros e B; left; exact B).
  assert (GO : y_phase y1 = PIdle \/ y_phase y1 = PGone -> exists es s' h, run s es = Some (s', h) /\ Forall by_itself es /\ q_exit s' = true).
  { intro P. assert (T : exists es s2 h2, run (with_sys s y1) es = Some (s2, h2) /\ Forall unprompted es /\ q_exit s2 = false /\ q_sig s2 = true /\ q_trk s2 = q_trk s /\ y_phase (q_dht s2) = PGone).
    { destruct P as [P|P].
      - exists [CDht (YTurn 0 (fun _ l => l) SShutdown)]. eexists _, _. split; [apply crun_one; unfold cstep; cbn [with_sys q_exit q_dht]; rewrite X; cbn [dht_ok with_sys q_sig]; rewrite G; cbn [ystep]; rewrite P; reflexivity|].
        split; [repeat (constructor; cbn; auto)|]. cbn. auto.
      - exists [], (with_sys s y1), []. split; [reflexivity|]. split; [constructor|]. cbn. auto. }
    destruct T as (es2 & s2 & h2 & R2 & U2 & X2 & G2 & T2 & P2).
    destruct (@end_trk sha usize_max cap tcp_port cfgs (length cfgs) s2 X2 G2 ltac:(congruence) (le_n _)) as (es3 & l & h3 & R3 & U3 & L3 & O3).
    assert (FO : forallb trk_over l = true). { apply forallb_forall. intros t I. apply In_nth_error in I. destruct I as (i & I). apply (O3 i t); [|exact I]. rewrite <- L3. apply nth_error_Some. congruence. }
    exists (es1' ++ (es2 ++ (es3 ++ [CExit]))). eexists _, _. split; [eapply crun_app; [exact R1'|]; eapply crun_app; [exact R2|]; eapply crun_app; [exact R3|]; apply crun_one|].
    - unfold cstep. cbn [with_trk q_exit q_sig q_dht q_trk]. unfold dht_alive. rewrite X2, G2, P2, FO. cbn [negb andb]. reflexivity.
    - split; [|reflexivity]. repeat (apply Forall_app; split; auto). apply IMP. repeat (constructor; cbn; auto). }
  destruct P1 as [P1|[P1|P1]]; [| |exists es1', (with_sys s y1), h1'; auto].
  - destruct (GO (or_introl P1)) as (es & s' & h & R & U & E). exists es, s', h. auto.
  - destruct (GO (or_intror P1)) as (es & s' & h & R & U & E). exists es, s', h. auto.
Qed.
Lemma deliver_locked : forall l s s', search_locked cap (q_dht s) -> deliver_all sha usize_max cap tcp_port s l = Some s' ->
  search_locked cap (q_dht s') /\ q_exit s' = q_exit s /\ y_stored (q_dht s') = y_stored (q_dht s).
Proof.
  induction l as [|d l IH]; cbn [deliver_all]; intros s s' D H; [injection H as <-; auto|].
  destruct (deliver sha usize_max cap tcp_port s d) as [s1|] eqn:E; [|discriminate].
  assert (A : search_locked cap (q_dht s1) /\ q_exit s1 = q_exit s /\ y_stored (q_dht s1) = y_stored (q_dht s)).
  { destruct d as [p|a|p c]; unfold deliver in E.
    - injection E as <-. auto.
    - destruct (dht_alive (q_dht s)); [|injection E as <-; auto]. destruct (dstep (q_dht s) (YPort a)) as [[y o]|] eqn:Y; [|discriminate]. cbn [option_map fst] in E. injection E as <-.
      destruct (@lock_step _ _ _ _ _ _ _ _ D Y) as (B & _ & _ & _ & _ & S). auto.
    - destruct (@tell_frame _ _ _ _ E) as (-> & -> & _ & _). auto. }
  destruct A as (A & B & S). destruct (IH s1 s' A H) as (X & Y & Z). split; [exact X|]. split; congruence.
Qed.
(** Either standstill keeps the client from ever ending, and its table from
    being stored. *)
Theorem C95_standstill_stays : forall es s s' h, q_exit s = false -> deadlocked cap (q_dht s) \/ search_locked cap (q_dht s) -> run s es = Some (s', h) ->
  q_exit s' = false /\ y_stored (q_dht s') = y_stored (q_dht s).
Proof.
  intros es s s' h X [D|D] R; [destruct (@never_exits sha usize_max cap tcp_port cfgs es s s' h X D R) as (A & _ & B); auto|].
  cut (q_exit s' = false /\ search_locked cap (q_dht s') /\ y_stored (q_dht s') = y_stored (q_dht s)); [tauto|].
  apply (@crun_inv sha usize_max cap tcp_port cfgs (fun _ z => q_exit z = false /\ search_locked cap (q_dht z) /\ y_stored (q_dht z) = y_stored (q_dht s)) s) with (es := es) (h := h); [auto|clear es s' h R|exact R].
  intros _ z e z' o (XZ & DZ & SZ) H. unfold cstep in H. rewrite XZ in H.
  destruct e as [sent| |i ok|i m|i|i|i|i ix bs|i|e|i now e| | |ks ks'].
  - destruct (q_mgr z) as [m|]; [|discriminate]. destruct (m_refresh m _) as [[[m1 tab] o1]| |]; [|injection H as <- <-; auto|injection H as <- <-; auto].
    destruct (m_assign m1 sent) as [[m2 o2]| |]; injection H as <- <-; auto.
  - destruct (q_mgr z) as [m|]; [|discriminate]. destruct (q_rec z) as [|[p c] q]; [discriminate|]. injection H as <- <-. auto.
  - destruct (nth_error (q_cons z) i) as [x|]; [|discriminate]. destruct (_ && _); [|discriminate]. destruct ok; [injection H as <- <-; auto|].
    destruct (tell_mgr z _ _) as [z1|] eqn:T; [|discriminate]. cbn [option_map] in H. injection H as <- <-. destruct (@tell_frame _ _ _ _ T) as (A & B & _ & _). cbn. rewrite A, B. auto.
  - destruct (nth_error (q_cons z) i) as [x|]; [|discriminate]. destruct (_ && _); [|discriminate].
    destruct (deliver_all _ _ _ _ z _) as [z1|] eqn:T; [|discriminate]. cbn [option_map] in H. injection H as <- <-. destruct (@deliver_locked _ _ _ DZ T) as (A & B & C). rewrite B, C. auto.
  - destruct (nth_error (q_cons z) i) as [x|]; [|discriminate]. destruct (_ && _); [|discriminate]. injection H as <- <-. auto.
  - destruct (nth_error (q_cons z) i) as [x|]; [|discriminate]. destruct (_ && _); [|discriminate]. injection H as <- <-. auto.
  - destruct (nth_error (q_cons z) i) as [x|]; [|discriminate]. destruct (pc_dl x); [|discriminate]. injection H as <- <-. auto.
  - destruct (nth_error (q_cons z) i) as [x|]; [|discriminate]. destruct (pc_dl x); [|discriminate]. destruct (tell_mgr z _ _) as [z1|] eqn:T; [|discriminate]. cbn [option_map] in H. injection H as <- <-.
    destruct (@tell_frame _ _ _ _ T) as (A & B & _ & _). rewrite A, B. auto.
  - destruct (nth_error (q_cons z) i) as [x|]; [|discriminate]. destruct (q_mgr z); [discriminate|]. destruct (_ && _); [|discriminate]. injection H as <- <-. auto.
  - destruct (dht_ok z e); [|discriminate]. destruct (dstep (q_dht z) e) as [[y d]|] eqn:E; [|discriminate]. cbn [option_map fst snd] in H. injection H as <- <-.
    destruct (@lock_step _ _ _ _ _ _ _ _ DZ E) as (A & _ & _ & _ & _ & S). cbn. rewrite S. auto.
  - destruct (nth_error cfgs i) as [c|]; [|discriminate]. destruct (nth_error (q_trk z) i) as [t|]; [|discriminate]. destruct (trk_ok z e); [|discriminate].
    destruct (session_step c t now DOWNLOADED e) as [[t' os]|]; [|discriminate]. cbn [option_map fst snd] in H. injection H as <- <-. auto.
  - destruct (q_sig z); [discriminate|]. injection H as <- <-. auto.
  - assert (A : dht_alive (q_dht z) = true) by (destruct DZ as (_ & (c & l & [P|P]) & _); unfold dht_alive; rewrite P; reflexivity).
    rewrite A in H. cbn [negb] in H. rewrite andb_false_r in H. discriminate.
  - injection H as <- <-. auto.
Qed.
(** So: a client that cannot end whatever happens comes to a standstill by its
    own steps, and none that stands still can end. *)
Theorem C95_exact : forall s, q_exit s = false -> q_sig s = true -> length (q_trk s) = length cfgs -> 0 < c_cmd cap -> 0 < c_rf cap ->
  ((forall es s' h, run s es = Some (s', h) -> q_exit s' = false) ->
   exists es s' h, run s es = Some (s', h) /\ Forall by_itself es /\ (deadlocked cap (q_dht s') \/ search_locked cap (q_dht s'))) /\
  (deadlocked cap (q_dht s) \/ search_locked cap (q_dht s) -> forall es s' h, run s es = Some (s', h) -> q_exit s' = false).
Proof.
  intros s X G L C CF. split.
  - intro N. destruct (@C95_exit_or_standstill s X G L C CF) as (es & s' & h & R & F & [E|E]); [rewrite (N es s' h R) in E; discriminate|]. exists es, s', h. auto.
  - intros D es s' h R. apply (@C95_standstill_stays es s s' h X D R).
Qed.
End client.

(** ** it happens *)
Section happens.
Variable sha : bytes -> bytes.
Variable usize_max : nat.
Variable cap : caps.
Variable tcp_port : N.
Notation step := (ystep sha usize_max cap tcp_port).
Notation run := (yrun sha usize_max cap tcp_port).

(** [late] with what it leaves as it is. *)
Lemma late_frame : forall ts y d (f : fetcher) (own : ID) (token : bytes) (v : von), NoDup ts -> (forall t, In t ts -> mget bytes_eqb t (d_pending d) = Some (KGetPeers, FETCHER)) ->
  y_sock y = Some d -> y_outs y = [] -> y_fet y = Some f -> ts <> [] -> length (y_rf y) + length ts = S (c_rf cap) ->
  exists es y' h, run y es = Some (y', h) /\ waits_for_search cap y' /\ y_fout y' = y_fout y /\ y_cmd y' = y_cmd y /\ y_port y' = y_port y /\ y_phase y' = y_phase y /\ y_dht y' = y_dht y.
Proof.
  induction ts as [|t ts IH]; intros y d f own token v ND Q S O F NE L; [congruence|]. clear NE. inversion ND as [|? ? NI ND2]; subst.
  set (a := mk_addr x00 x00 x00 x00 0%N).
  set (d1 := mk_dcon (d_own d) (d_secret d) (mdel bytes_eqb t (d_pending d))).
  assert (V : DhtModel.dstep sha all_there d (EIn a (get_peers_resp own token v t)) = Val (d1, [OResp FETCHER (FGetPeers a token v)])).
  { cbn [DhtModel.dstep get_peers_resp]. unfold handle_resp, pend_get. cbn [kind_of_resp]. rewrite (Q t (or_introl eq_refl)). reflexivity. }
  destruct ts as [|t2 ts].
  - exists [YIn a (get_peers_resp own token v t)]. eexists _, _. split; [cbn [yrun]; cbn [ystep]; rewrite S, O; rewrite V; reflexivity|].
    cbn [after_sock]. split; [|repeat split]. unfold waits_for_search. cbn in *. sp; try congruence; try lia. eexists _, _, _. split; [|reflexivity]. discriminate.
  - set (y1 := with_rf (with_sock y (Some d1) []) (y_rf y ++ [FGetPeers a token v])).
    destruct (IH y1 d1 f own token v ND2) as (es & y' & h & R & A); auto.
    + intros t' X. cbn [d1 d_pending]. rewrite (@mget_mdel_other _ _ _ bytes_eqb_eq); [apply Q; right; exact X|]. intro Z. subst t'. contradiction.
    + discriminate.
    + cbn in *. rewrite app_length. cbn. lia.
    + exists ([YIn a (get_peers_resp own token v t); YOut] ++ es), y', ([(YIn a (get_peers_resp own token v t), []); (YOut, [])] ++ h). split; [|exact A].
      eapply yrun_app; [|exact R]. cbn [yrun]. cbn [ystep]. rewrite S, O, V. cbn [after_sock with_sock y_sock y_outs sock_out].
      assert (X : (FETCHER =? DHT) = false) by reflexivity. rewrite X. unfold hand_over. unfold with_sock. cbn [y_fet y_rf]. rewrite F.
      assert (Z : (length (y_rf y) <? c_rf cap) = true) by (apply Nat.ltb_lt; cbn in L; lia). rewrite Z. subst y1. unfold with_rf, with_sock. cbn. rewrite F. reflexivity.
Qed.
(** While the socket task waits for the search, connected peers go on telling
    their DHT ports, and the pings fill the command channel. *)
Lemma fill_blocked : forall n y (a : addr), 0 < c_port cap -> n <= c_cmd cap -> y_sock y <> None -> y_cmd y = [] -> y_port y = [] -> y_phase y = PIdle -> k_wait (y_dht y) = false ->
  exists es y' h, run y es = Some (y', h) /\ y_sock y' = y_sock y /\ y_outs y' = y_outs y /\ length (y_cmd y') = n /\ y_port y' = [] /\ y_phase y' = PIdle /\ k_wait (y_dht y') = false /\
    y_fet y' = y_fet y /\ y_fout y' = y_fout y /\ y_rf y' = y_rf y.
Proof.
  induction n as [|n IH]; intros y a C N S Q P I K.
  - exists [], y, []. rewrite Q. sp; auto.
  - destruct (IH y a C ltac:(lia) S Q P I K) as (es & y1 & h & R & S1 & O1 & L1 & P1 & I1 & K1 & A1 & A2 & A3). rewrite <- S1 in S.
    assert (G : exists y2 h2, run y1 [YPort a; YTurn 0%N (fun n l => l) SPort; YSend; YCheck 0 0] = Some (y2, h2) /\ y_sock y2 = y_sock y1 /\ y_outs y2 = y_outs y1 /\ length (y_cmd y2) = Datatypes.S n /\
      y_port y2 = [] /\ y_phase y2 = PIdle /\ k_wait (y_dht y2) = false /\ y_fet y2 = y_fet y1 /\ y_fout y2 = y_fout y1 /\ y_rf y2 = y_rf y1).
    { cbn [yrun ystep]. unfold dht_alive at 1. rewrite I1, P1. cbn [length andb app].
      assert (X : (0 <? c_port cap) = true) by (apply Nat.ltb_lt; exact C). rewrite X. cbn [yrun ystep with_port y_phase y_port]. rewrite I1.
      unfold dht_turn. cbn [gstep with_dht y_phase]. unfold sock_alive. cbn [with_dht with_port y_sock]. destruct (y_sock y1) as [d|] eqn:YS; [|congruence].
      unfold send_cmd. cbn [with_dht with_port y_cmd]. assert (Z : (length (y_cmd y1) <? c_cmd cap) = true) by (apply Nat.ltb_lt; lia). rewrite Z. cbn [option_map with_phase with_cmd with_dht with_port y_phase y_dht k_wait].
      rewrite K1. cbn [andb]. eexists _, _. split; [reflexivity|]. cbn. rewrite app_length. cbn. sp; auto; lia. }
    destruct G as (y2 & h2 & R2 & B1 & B2 & B3 & B4 & B5 & B6 & B7 & B8 & B9).
    exists (es ++ [YPort a; YTurn 0%N (fun n l => l) SPort; YSend; YCheck 0 0]), y2, (h ++ h2). split; [eapply yrun_app; eauto|]. sp; congruence.
Qed.
Lemma locks : forall y (a : addr), 0 < c_port cap -> waits_for_search cap y -> y_fout y <> [] -> y_cmd y = [] -> y_port y = [] -> y_phase y = PIdle -> k_wait (y_dht y) = false ->
  exists es y' h, run y es = Some (y', h) /\ search_locked cap y'.
Proof.
  intros y a C (S & F & G & req & r & os & NE & O) FO Q P I K.
  destruct (@fill_blocked (c_cmd cap) y a C (le_n _) S Q P I K) as (es & y1 & h & R & S1 & O1 & L1 & P1 & I1 & K1 & A1 & A2 & A3).
  exists (es ++ [YPort a; YTurn 0%N (fun n l => l) SPort]). eexists _, _. split; [eapply yrun_app; [exact R|]|].
  - cbn [yrun ystep]. unfold dht_alive at 1. rewrite I1, P1. cbn [length andb app]. assert (X : (0 <? c_port cap) = true) by (apply Nat.ltb_lt; exact C). rewrite X.
    cbn [yrun ystep with_port y_phase y_port]. rewrite I1. reflexivity.
  - unfold search_locked, dht_sending. cbn. rewrite S1, L1, A1, A2, A3, O1. split; [exact S|]. split; [eexists _, _; right; reflexivity|]. split; [lia|]. split; [exact F|]. split; [exact FO|]. split; [exact G|].
    exists req, r, os. auto.
Qed.
End happens.
(** No two or three tasks of the DHT wait for each other for ever while the DHT
    task is ready to take queries and responses: refuted with the capacities used,
    also without a single query of others. A node names 65 nodes; they answer late,
    when the round is over and the search has an announcement to send; and connected
    peers tell their ports. *)
Theorem C89_search_lock_refuted : forall sha usize_max tcp_port secret,
  exists es y h, yrun sha usize_max CAPS tcp_port (sys_start ex_own secret ex_info [] (t_default ex_own)) es = Some (y, h) /\
    search_locked CAPS y /\ ~ deadlocked CAPS y /\
    forall es' y' h', yrun sha usize_max CAPS tcp_port y es' = Some (y', h') ->
      sent h' = [] /\ (forall from q o, ~ In (YIn from q, o) h') /\ y_phase y' <> PGone.
Proof.
  intros sha usize_max tcp_port secret.
  assert (P : exists y d f h, yrun sha usize_max CAPS tcp_port (sys_start ex_own secret ex_info [] (t_default ex_own)) (ex_prefix 65) = Some (y, h) /\
    y_sock y = Some d /\ y_outs y = [] /\ y_cmd y = [] /\ y_rf y = [] /\ y_fet y = Some f /\ fs_busy f = true /\ y_port y = [] /\ y_phase y = PIdle /\ k_wait (y_dht y) = false /\
    y_fout y = map (fun i => CQuery (ex_addr (S i)) (QGetPeers ex_info)) (seq 0 65) /\
    announce_peer (fs_port f) (fs_info f) (fs_nodes f) = [CQuery (ex_addr 0) (QAnnounce ex_info tcp_port [x07])]).
  { eexists _, _, _, _. split; [vm_compute; reflexivity|]. repeat (split; [reflexivity|]). vm_compute. reflexivity. }
  destruct P as (y & d & f & h & R & S & O & C & RF & F & B & PO & PH & KW & FO & AN).
  destruct (@fet_drains sha usize_max CAPS tcp_port (map (fun i => CQuery (ex_addr (Datatypes.S i)) (QGetPeers ex_info)) (seq 0 65)) (ex_tids 65) y d f) as (es1 & d1 & h1 & R1 & K1 & _); auto.
  { cbn; lia. }
  { apply ex_tids_nodup. }
  { intros c I. apply in_map_iff in I. destruct I as (i & <- & _). eauto. }
  set (y1 := with_fet (with_sock y (Some d1) []) (Some f) [] (y_peers y)) in *.
  set (f2 := mk_fet (fs_info f) (fs_port f) (fs_nodes f) (y_peers y) false).
  set (y2 := with_fet y1 (Some f2) [CQuery (ex_addr 0) (QAnnounce ex_info tcp_port [x07])] (y_peers y)).
  assert (R2 : yrun sha usize_max CAPS tcp_port y1 [YQuiet] = Some (y2, [(YQuiet, [])])).
  { cbn [yrun ystep y1 with_fet y_fet y_fout y_peers fstep fs_busy]. rewrite B. unfold end_round. cbn [fs_info fs_port fs_nodes fs_peers]. rewrite AN. reflexivity. }
  destruct (@late_frame sha usize_max CAPS tcp_port (ex_tids 65) y2 d1 f2 ex_node [x07] (VNodes (ex_nodes 0))) as (es3 & y3 & h3 & R3 & W & FO3 & C3 & PO3 & PH3 & K3); auto.
  { apply ex_tids_nodup. }
  { intros t I. destruct (In_nth_error _ _ I) as (i & E).
    assert (LI : i < 65). { assert (NN : nth_error (ex_tids 65) i <> None) by congruence. apply nth_error_Some in NN. unfold ex_tids in NN. rewrite map_length, seq_length in NN. exact NN. }
    apply (K1 i t (ex_addr (Datatypes.S i)) (QGetPeers ex_info) E). rewrite nth_error_map. rewrite (nth_error_nth' _ 0) by (rewrite seq_length; exact LI). rewrite seq_nth by exact LI. reflexivity. }
  { discriminate. }
  { cbn [with_fet with_sock y_rf y2 y1]. rewrite RF. unfold ex_tids. rewrite map_length, seq_length. reflexivity. }
  destruct (@locks sha usize_max CAPS tcp_port y3 (ex_addr 0)) as (es4 & y4 & h4 & R4 & L4); auto.
  { cbn; lia. }
  { rewrite FO3. discriminate. }
  { rewrite C3. exact C. }
  { rewrite PO3. exact PO. }
  { rewrite PH3. exact PH. }
  { rewrite K3. exact KW. }
  exists (ex_prefix 65 ++ (es1 ++ ([YQuiet] ++ (es3 ++ es4)))), y4, (h ++ (h1 ++ ([(YQuiet, [])] ++ (h3 ++ h4)))). split.
  { eapply yrun_app; [exact R|]. eapply yrun_app; [exact R1|]. eapply yrun_app; [exact R2|]. eapply yrun_app; [exact R3|exact R4]. }
  split; [exact L4|]. split.
  { intros (_ & _ & _ & o & os & E & X). destruct L4 as (_ & _ & _ & _ & _ & _ & req & r & os' & NE & E'). rewrite E in E'. injection E' as -> ->.
    destruct X as [(r' & X & _)|(X & _)]; [injection X as -> _; contradiction|]. cbn in X. apply Nat.eqb_eq in X. contradiction. }
  intros es' y' h' R'. destruct (@C89_search_forever _ _ _ _ es' y4 y' h' L4 R') as (A & X & Y & _ & _ & Z). split; [exact X|]. split; [exact Z|].
  destruct A as (_ & (c & l & [D|D]) & _); rewrite D; discriminate.
Qed.
(** The hypotheses of C89_wait_resolves and C95_exact can be met. *)
Example C89_wait_resolves_example : exists es y h, yrun (fun x => x) 100 CAPS 6881%N (sys_start ex_own ex_own ex_info [] (t_default ex_own)) es = Some (y, h) /\
  dht_sending y /\ 0 < c_cmd CAPS /\ 0 < c_rf CAPS.
Proof.
  exists [YSend; YPort (ex_addr 0); YTurn 0%N ex_pick SPort]. eexists _, _. split; [reflexivity|]. split; [eexists _, _; right; reflexivity|]. split; apply Nat.ltb_lt; reflexivity.
Qed.
Example C95_exact_example : exists s h, crun (fun x => x) 100 CAPS 6881 [ex_cfg] (ex_client ex_own) (ex_meet ++ [CSignal]) = Some (s, h) /\ q_exit s = false /\ q_sig s = true /\ length (q_trk s) = length [ex_cfg] /\
  y_phase (q_dht s) = PIdle.
Proof. eexists _, _. split; [vm_compute; reflexivity|]. cbn. auto. Qed.

Print Assumptions C89_search_forever.
Print Assumptions C89_wait_resolves.
Print Assumptions C89_search_lock_refuted.
Print Assumptions C95_exit_or_standstill.
Print Assumptions C95_standstill_stays.
Print Assumptions C95_exact.
