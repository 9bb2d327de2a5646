(** C90 continued: with the search's own steps, exactly what keeps the DHT from
    taking in the next datagram for ever. *)
From Coq Require Import List NArith ZArith Lia Bool Arith.
From Coq Require Import Init.Byte.
From Verif Require Import Base Assoc IdModel WireModel TableModel PeersModel PeersSpec BencodeModel KrpcModel DhtModel DhtSpec DhtMgrModel FetchModel TaskModel DhtSysModel DhtSysSpec DhtSysProps HoldUpProps SearchLockProps.
Import ListNotations.
Set Implicit Arguments.

(** The socket task waits for the search to take a response, and the search waits
    for the socket task to take a command. *)
Definition search_blocked (cap : caps) (y : sys) : Prop := waits_for_search cap y /\ y_fout y <> [] /\ c_cmd cap <= length (y_cmd y).

Section holdup.
Variable sha : bytes -> bytes.
Variable usize_max : nat.
Variable cap : caps.
Variable tcp_port : N.
Notation step := (ystep sha usize_max cap tcp_port).
Notation run := (yrun sha usize_max cap tcp_port).
(** Steps of all three tasks; nothing arrives. *)
Definition of_all (now : N) (pick : picker) (e : yev) : Prop := of_the_rest now pick e \/ e = YTick \/ e = YAnswer \/ e = YFetSend.

Lemma blocked_step : forall y e y' o, search_blocked cap y -> k_wait (y_dht y) = false -> step y e = Some (y', o) ->
  search_blocked cap y' /\ k_wait (y_dht y') = false /\ o = [] /\ y_outs y' = y_outs y.
Proof.
  intros y e y' o ((S & F & L & req & r & os & N & X) & FO & C) W H.
  assert (NC : (length (y_cmd y) <? c_cmd cap) = false) by (apply Nat.ltb_ge; exact C).
  assert (SC : forall r c, send_cmd cap y r c = None) by (intros; unfold send_cmd; rewrite NC; reflexivity).
  assert (SA : sock_alive y = true) by (unfold sock_alive; destruct (y_sock y); congruence).
  assert (K : forall z, y_sock z = y_sock y -> y_fet z = y_fet y -> y_rf z = y_rf y -> y_outs z = y_outs y -> y_fout z = y_fout y -> y_cmd z = y_cmd y -> k_wait (y_dht z) = k_wait (y_dht y) ->
    search_blocked cap z /\ k_wait (y_dht z) = false /\ @nil (addr * kmsg) = [] /\ y_outs z = y_outs y).
  { intros z E1 E2 E3 E4 E5 E6 E7. split; [|split; [congruence|split; [reflexivity|exact E4]]]. unfold search_blocked, waits_for_search. rewrite E1, E2, E3, E4, E5, E6.
    split; [|auto]. split; [exact S|]. split; [exact F|]. split; [exact L|]. exists req, r, os. auto. }
  destruct e as [from m| | | | |now pick sr| | | | | | | |]; cbn [ystep] in H.
  - rewrite X in H. destruct (y_sock y); discriminate.
  - rewrite X in H. destruct (y_sock y); discriminate.
  - exfalso. rewrite X in H. destruct (y_sock y) as [d|]; [|discriminate]. cbn [sock_out] in H. apply Nat.eqb_neq in N. rewrite N in H.
    unfold hand_over in H. apply Nat.ltb_ge in L. rewrite L in H. destruct (y_fet y); [discriminate|congruence].
  - rewrite X in H. destruct (y_sock y); discriminate.
  - rewrite X in H. destruct (y_sock y); discriminate.
  - assert (T : forall z i, y_sock z = y_sock y -> y_fet z = y_fet y -> y_rf z = y_rf y -> y_outs z = y_outs y -> y_fout z = y_fout y -> y_cmd z = y_cmd y -> y_dht z = y_dht y ->
      search_blocked cap (dht_turn z now pick i) /\ k_wait (y_dht (dht_turn z now pick i)) = false /\ @nil (addr * kmsg) = [] /\ y_outs (dht_turn z now pick i) = y_outs y).
    { intros z i E1 E2 E3 E4 E5 E6 E7. apply K; unfold dht_turn; destruct (gstep _ _ _ _) as [[? ?]| |]; cbn; congruence. }
    destruct (y_phase y) eqn:P; try discriminate. destruct sr; inv_step H; try (apply K; reflexivity); try (apply T; reflexivity).
  - rewrite SA in H. destruct (y_phase y) as [[|c l]| |[|c l]|]; try discriminate; try (rewrite SC in H; discriminate). injection H as <- <-. apply K; reflexivity.
  - rewrite W in H. cbn [andb] in H. inv_step H; apply K; reflexivity.
  - destruct (y_fet y); [|discriminate]. destruct (y_fout y); [congruence|discriminate].
  - destruct (y_fet y); [|discriminate]. destruct (y_fout y); [congruence|discriminate].
  - destruct (y_fet y); [|discriminate]. destruct (y_fout y); [congruence|discriminate].
  - destruct (y_fet y); [|discriminate]. destruct (y_fout y); [discriminate|]. rewrite SA, SC in H. discriminate.
  - inv_step H; apply K; reflexivity.
  - inv_step H; apply K; reflexivity.
Qed.
(** This too is for ever. *)
Theorem C90_blocked_forever : forall own secret info m t es0 y h0 es y' h, run (sys_start own secret info m t) es0 = Some (y, h0) -> search_blocked cap y ->
  run y es = Some (y', h) -> search_blocked cap y' /\ sent h = [] /\ forall from q o, ~ In (YIn from q, o) h.
Proof.
  intros own secret info m t es0 y h0 es y' h R0 B R. pose proof (@one_search _ _ _ _ _ _ _ _ _ _ _ _ R0 (proj1 (proj2 (proj1 B)))) as W. clear R0. revert y y' h B W R.
  induction es as [|e es IH]; intros y y' h B W R; cbn [yrun] in R.
  - injection R as <- <-. split; [exact B|]. split; [reflexivity|]. intros from q o [].
  - destruct (step y e) as [[y1 o]|] eqn:E; [|discriminate]. destruct (run y1 es) as [[y2 h2]|] eqn:R2; [|discriminate]. injection R as <- <-.
    destruct (@blocked_step y e y1 o B W E) as (B1 & W1 & -> & _). destruct (IH y1 y2 h2 B1 W1 R2) as (A & X & Z). split; [exact A|]. split; [exact X|].
    intros from q o [Y|Y]; [|exact (Z _ _ _ Y)]. injection Y as -> _. cbn [ystep] in E. destruct B as ((S & _ & _ & req & r & os & _ & O) & _). rewrite O in E. destruct (y_sock y); discriminate.
Qed.
(** The channel to the search never holds more than it can. *)
Definition rf_bound (y : sys) : Prop := length (y_rf y) <= c_rf cap.
Lemma rf_step : forall y e y' o, rf_bound y -> step y e = Some (y', o) -> rf_bound y'.
Proof.
  intros y e y' o B H. assert (K : forall z, y_rf z = y_rf y -> rf_bound z) by (intros z E; unfold rf_bound; rewrite E; exact B).
  assert (T : forall z now pick i, y_rf (dht_turn z now pick i) = y_rf z) by (intros z now pick i; unfold dht_turn; destruct (gstep _ _ _ _) as [[? ?]| |]; reflexivity).
  destruct e as [from m| | | | |now pick sr| | | | | | | |]; cbn [ystep] in H.
  - inv_step H. apply K. match goal with |- context [after_sock ?y ?r] => destruct (@after_frame y r) as (_ & _ & _ & _ & _ & _ & _ & ->) end. reflexivity.
  - inv_step H. apply K. match goal with |- context [after_sock ?y ?r] => destruct (@after_frame y r) as (_ & _ & _ & _ & _ & _ & _ & ->) end. reflexivity.
  - destruct (y_sock y) as [d|]; [|discriminate]. destruct (y_outs y) as [|x os]; [discriminate|].
    unfold sock_out, hand_over in H. destruct x as [to m|tg fr tt|ih fr tt|p ih|req r]; [| | | |destruct (req =? DHT)];
    repeat match type of H with context [if ?b then _ else _] => destruct b eqn:? end; try discriminate; injection H as <- <-; try (apply K; reflexivity);
    repeat match goal with E : (_ <? _) = true |- _ => apply Nat.ltb_lt in E end; unfold rf_bound; cbn; try rewrite app_length; cbn [length]; lia.
  - inv_step H; apply K; reflexivity.
  - inv_step H; apply K; reflexivity.
  - destruct (y_phase y) eqn:P; try discriminate. destruct sr; inv_step H; apply K; try rewrite T; reflexivity.
  - inv_step H; try match goal with E : send_cmd _ _ _ _ = Some _ |- _ => apply send_frame in E; destruct E as (-> & _) end; apply K; reflexivity.
  - inv_step H; apply K; reflexivity.
  - inv_step H; apply K; reflexivity.
  - destruct (y_fet y) as [f|]; [|discriminate]. destruct (y_fout y); [|discriminate]. destruct (y_rf y) as [|x q] eqn:Q; [discriminate|]. inv_step H; unfold rf_bound in *; cbn; rewrite Q in B; cbn in B; lia.
  - inv_step H; apply K; reflexivity.
  - inv_step H; try match goal with E : send_cmd _ _ _ _ = Some _ |- _ => apply send_frame in E; destruct E as (-> & _) end; apply K; reflexivity.
  - inv_step H; apply K; reflexivity.
  - inv_step H; apply K; reflexivity.
Qed.
Lemma rf_run : forall es y y' h, rf_bound y -> run y es = Some (y', h) -> rf_bound y'.
Proof.
  intros es y y' h B R. apply (@yrun_inv sha usize_max cap tcp_port (fun _ z => rf_bound z) y) with (es := es) (h := h); auto.
  intros. eapply rf_step; eauto.
Qed.
(** The search sends what it has to send, as far as there is room. *)
Lemma search_sends : forall now pick l y f, y_fout y = l -> y_fet y = Some f -> y_sock y <> None ->
  exists es y' h, run y es = Some (y', h) /\ Forall (of_all now pick) es /\ y_sock y' = y_sock y /\ y_outs y' = y_outs y /\ y_rf y' = y_rf y /\ y_fet y' = Some f /\
    (y_fout y' = [] \/ y_fout y' <> [] /\ c_cmd cap <= length (y_cmd y')).
Proof.
  intros now pick. induction l as [|c l IH]; intros y f FO F S.
  - exists [], y, []. split; [reflexivity|]. split; [constructor|]. sp; auto.
  - destruct (le_lt_dec (c_cmd cap) (length (y_cmd y))) as [G|G].
    + exists [], y, []. split; [reflexivity|]. split; [constructor|]. sp; auto. right. rewrite FO. split; [discriminate|exact G].
    + set (z := with_cmd y (y_cmd y ++ [(FETCHER, c)])). destruct (IH (with_fet z (Some f) l (y_peers z)) f eq_refl eq_refl S) as (es & y' & h & R & A & B1 & B2 & B3 & B4 & B5).
      exists (YFetSend :: es), y', ((YFetSend, []) :: h). split; [|split; [constructor; [unfold of_all; auto|exact A]|sp; auto]].
      eapply run_cons; [|exact R]. cbn [ystep]. rewrite F, FO. unfold sock_alive, send_cmd. destruct (y_sock y); [|congruence]. apply Nat.ltb_lt in G. rewrite G. reflexivity.
Qed.
Lemma search_frees : forall now pick y, waits_for_search cap y -> rf_bound y -> 0 < c_rf cap ->
  exists es y' h, run y es = Some (y', h) /\ Forall (of_all now pick) es /\ y_sock y' = y_sock y /\ y_outs y' = y_outs y /\
    (y_fet y' = None \/ length (y_rf y') < c_rf cap \/ search_blocked cap y').
Proof.
  intros now pick y W B C. pose proof W as (S & F & L & req & r & os & N & X). destruct (y_fet y) as [f|] eqn:FE; [clear F|congruence].
  destruct (@search_sends now pick (y_fout y) y f eq_refl FE S) as (es1 & y1 & h1 & R1 & A1 & S1 & O1 & Q1 & F1 & K1).
  assert (BL : forall z f', y_sock z = y_sock y -> y_outs z = y_outs y -> y_rf z = y_rf y -> y_fet z = Some f' -> y_fout z <> [] -> c_cmd cap <= length (y_cmd z) -> search_blocked cap z).
  { intros z f' E1 E2 E3 E4 E5 E6. unfold search_blocked, waits_for_search. rewrite E1, E2, E3, E4. split; [|auto]. split; [exact S|]. split; [discriminate|]. split; [exact L|]. exists req, r, os. auto. }
  destruct K1 as [K1|(K1 & G1)]; [|exists es1, y1, h1; split; [exact R1|]; split; [exact A1|]; sp; auto; right; right; eapply BL; eauto].
  assert (ANS : forall z f', y_sock z = y_sock y -> y_outs z = y_outs y -> y_rf z = y_rf y -> y_fet z = Some f' -> y_fout z = [] -> fs_busy f' = true ->
    exists z' h, run z [YAnswer] = Some (z', h) /\ y_sock z' = y_sock y /\ y_outs z' = y_outs y /\ (y_fet z' = None \/ length (y_rf z') < c_rf cap)).
  { intros z f' E1 E2 E3 E4 E5 E6. destruct (y_rf y) as [|a q] eqn:RF; [cbn in L; lia|]. unfold rf_bound in B. rewrite RF in B. cbn in B.
    pose proof (@busy_takes usize_max (mk_fet (fs_info f') (fs_port f') (fs_nodes f') (y_peers z) true) a eq_refl) as NF. cbn [yrun ystep]. rewrite E4, E5, E3, E6. cbn [with_rf y_peers].
    destruct (fstep usize_max (mk_fet (fs_info f') (fs_port f') (fs_nodes f') (y_peers z) true) (FResp a)) as [[f2 o2]| |]; [|congruence|]; do 2 eexists; (split; [reflexivity|]); cbn; sp; auto; right; lia. }
  destruct (fs_busy f) eqn:FB.
  - destruct (ANS y1 f S1 O1 Q1 F1 K1 FB) as (y2 & h2 & R2 & S2 & O2 & K2). exists (es1 ++ [YAnswer]), y2, (h1 ++ h2). split; [eapply yrun_app; eauto|].
    split; [apply Forall_app; split; [exact A1|constructor; [unfold of_all; auto|constructor]]|]. split; [congruence|]; split; [congruence|]; destruct K2 as [?|?]; auto.
  - assert (T : exists z f' h, run y1 [YTick] = Some (z, h) /\ y_sock z = y_sock y /\ y_outs z = y_outs y /\ y_rf z = y_rf y /\ y_fet z = Some f' /\ fs_busy f' = true).
    { cbn [yrun ystep]. rewrite F1, K1, FB. cbn [fstep fs_busy fs_info fs_port fs_nodes fs_peers]. do 3 eexists. split; [reflexivity|]. cbn. auto. }
    destruct T as (z & f' & h2 & R2 & E1 & E2 & E3 & E4 & E5).
    destruct (@search_sends now pick (y_fout z) z f' eq_refl E4) as (es3 & y3 & h3 & R3 & A3 & S3 & O3 & Q3 & F3 & K3); [congruence|].
    assert (R13 : run y (es1 ++ ([YTick] ++ es3)) = Some (y3, h1 ++ (h2 ++ h3))) by (eapply yrun_app; [exact R1|]; eapply yrun_app; eauto).
    assert (A13 : Forall (of_all now pick) (es1 ++ ([YTick] ++ es3))) by (apply Forall_app; split; [exact A1|]; constructor; [unfold of_all; auto|exact A3]).
    destruct K3 as [K3|(K3 & G3)].
    + destruct (ANS y3 f') as (y4 & h4 & R4 & S4 & O4 & K4); try congruence. exists ((es1 ++ ([YTick] ++ es3)) ++ [YAnswer]), y4, ((h1 ++ (h2 ++ h3)) ++ h4). split; [eapply yrun_app; eauto|].
      split; [apply Forall_app; split; [exact A13|constructor; [unfold of_all; auto|constructor]]|]. split; [congruence|]; split; [congruence|]; destruct K4 as [?|?]; auto.
    + exists (es1 ++ ([YTick] ++ es3)), y3, (h1 ++ (h2 ++ h3)). split; [exact R13|]. split; [exact A13|]. split; [congruence|]. split; [congruence|]. right. right. eapply BL; eauto; congruence.
Qed.
Lemma gets_ready : forall now pick, 0 < c_qry cap -> 0 < c_rd cap -> 0 < c_rf cap -> forall n y d, length (y_outs y) <= n -> in_bounds cap y -> rf_bound y -> y_sock y = Some d ->
  exists es y' h, run y es = Some (y', h) /\ Forall (of_all now pick) es /\
    (ended y' \/ y_sock y' = Some d /\ y_outs y' = [] \/ deadlocked cap y' \/ search_blocked cap y').
Proof.
  intros now pick Q1 Q2 Q3. induction n as [|n IH]; intros y d L B RB S.
  - exists [], y, []. split; [reflexivity|]. split; [constructor|]. right. left. split; [exact S|]. destruct (y_outs y); [reflexivity|cbn in L; lia].
  - destruct (y_outs y) as [|o os] eqn:O; [apply (IH y d); auto; rewrite O; cbn; lia|]. cbn [length] in L.
    assert (UP : forall l, Forall (of_the_rest now pick) l -> Forall (of_all now pick) l) by (intros l A; eapply Forall_impl; [|exact A]; intros e E; left; exact E).
    assert (MORE : forall es1 y1 h1, run y es1 = Some (y1, h1) -> Forall (of_all now pick) es1 -> y_sock y1 = Some d -> y_outs y1 = os ->
      exists es y' h, run y es = Some (y', h) /\ Forall (of_all now pick) es /\ (ended y' \/ y_sock y' = Some d /\ y_outs y' = [] \/ deadlocked cap y' \/ search_blocked cap y')).
    { intros es1 y1 h1 R F S1 O1. destruct (IH y1 d) as (es2 & y2 & h2 & R2 & F2 & K); auto; [rewrite O1; lia|eapply bounds_run; eauto|eapply rf_run; eauto|].
      exists (es1 ++ es2). do 2 eexists. split; [eapply yrun_app; eauto|]. split; [apply Forall_app; auto|exact K]. }
    destruct (for_dht o) eqn:F.
    + destruct (@hands_over sha usize_max cap tcp_port now pick d o os y Q1 Q2 B S O F) as (es & y1 & h & R & FA & [K|[(K1 & K2)|K]]).
      * exists es, y1, h. auto.
      * eapply MORE; eauto.
      * exists es, y1, h. auto 6.
    + destruct o as [to m|tg fr tt|ih fr tt|p ih|req r]; try discriminate F.
      * eapply (MORE [YOut]); [apply run_one; cbn [ystep]; rewrite S, O; reflexivity|constructor; [left; constructor|constructor]|reflexivity|reflexivity].
      * cbn in F.
        assert (OUT : forall z, y_sock z = Some d -> y_outs z = OResp req r :: os -> y_fet z = None \/ length (y_rf z) < c_rf cap ->
          exists z' h, run z [YOut] = Some (z', h) /\ (ended z' \/ y_sock z' = Some d /\ y_outs z' = os)).
        { intros z E1 E2 K. cbn [yrun ystep]. rewrite E1, E2. cbn [sock_out]. rewrite F. unfold hand_over. destruct (y_fet z) as [f|] eqn:FE.
          - destruct K as [K|K]; [discriminate|]. apply Nat.ltb_lt in K. rewrite K. do 2 eexists. split; [reflexivity|]. right. split; reflexivity.
          - do 2 eexists. split; [reflexivity|]. left. split; [reflexivity|]. right. exact FE. }
        assert (FIN : forall es1 z h1, run y es1 = Some (z, h1) -> Forall (of_all now pick) es1 -> y_sock z = Some d -> y_outs z = OResp req r :: os -> y_fet z = None \/ length (y_rf z) < c_rf cap ->
          exists es y' h, run y es = Some (y', h) /\ Forall (of_all now pick) es /\ (ended y' \/ y_sock y' = Some d /\ y_outs y' = [] \/ deadlocked cap y' \/ search_blocked cap y')).
        { intros es1 z h1 R A E1 E2 K. destruct (OUT z E1 E2 K) as (z' & h2 & R2 & K2). assert (R3 : run y (es1 ++ [YOut]) = Some (z', h1 ++ h2)) by (eapply yrun_app; eauto).
          assert (A3 : Forall (of_all now pick) (es1 ++ [YOut])) by (apply Forall_app; split; [exact A|apply UP; repeat constructor]).
          destruct K2 as [K2|(K2 & K3)]; [do 3 eexists; split; [exact R3|]; auto|eapply MORE; eauto]. }
        destruct (y_fet y) as [f|] eqn:FE; [|eapply (FIN [] y []); auto].
        destruct (le_lt_dec (c_rf cap) (length (y_rf y))) as [G|G]; [|eapply (FIN [] y []); auto].
        destruct (@search_frees now pick y) as (es1 & z & h1 & R & A & S1 & O1 & K); auto.
        { unfold waits_for_search. rewrite S, FE. split; [discriminate|]. split; [discriminate|]. split; [exact G|]. exists req, r, os. split; [apply Nat.eqb_neq; exact F|exact O]. }
        destruct K as [K|[K|K]]; [eapply (FIN es1 z h1); auto; congruence|eapply (FIN es1 z h1); auto; congruence|exists es1, z, h1; auto 6].
Qed.
(** From every state the DHT comes to, the steps of its own tasks lead to a state
    in which the next datagram can be taken, or a task has ended, or one of two
    cycles has come, from which no datagram is ever taken or sent. *)
Theorem C90_exact : forall own secret info m t es0 y d h0 now pick, 0 < c_qry cap -> 0 < c_rd cap -> 0 < c_rf cap ->
  run (sys_start own secret info m t) es0 = Some (y, h0) -> y_sock y = Some d ->
  (exists es y' h, run y es = Some (y', h) /\ Forall (of_all now pick) es /\
    (ended y' \/ (forall from q, exists y'', step y' (YIn from q) = Some (y'', [])) \/ deadlocked cap y' \/ search_blocked cap y')) /\
  (deadlocked cap y \/ search_blocked cap y -> forall es y' h, run y es = Some (y', h) -> sent h = [] /\ forall from q o, ~ In (YIn from q, o) h).
Proof.
  intros own secret info m t es0 y d h0 now pick Q1 Q2 Q3 R S. split.
  - assert (B : in_bounds cap y) by (eapply bounds_run; [|exact R]; unfold in_bounds; cbn; lia).
    assert (RB : rf_bound y) by (eapply rf_run; [|exact R]; unfold rf_bound; cbn; lia).
    destruct (@gets_ready now pick Q1 Q2 Q3 (length (y_outs y)) y d (le_n _) B RB S) as (es & y' & h & R' & F & K). exists es, y', h. split; [exact R'|]. split; [exact F|].
    destruct K as [K|[(K1 & K2)|K]]; auto. right. left. intros from q. eexists. cbn [ystep]. rewrite K1, K2. reflexivity.
  - intros [D|D] es y' h R'.
    + destruct (@C89_forever sha usize_max cap tcp_port es y y' h D R') as (_ & A & _ & _ & _ & B). auto.
    + destruct (@C90_blocked_forever _ _ _ _ _ _ _ _ _ _ _ R D R') as (_ & A & B). auto.
Qed.
End holdup.
(** C89_search_lock_refuted leads to [search_blocked], with the DHT task waiting
    as well. *)
Example C90_exact_example : forall sha usize_max tcp_port secret, exists es y h d,
  yrun sha usize_max CAPS tcp_port (sys_start ex_own secret ex_info [] (t_default ex_own)) es = Some (y, h) /\ y_sock y = Some d /\ search_blocked CAPS y.
Proof.
  intros sha usize_max tcp_port secret. destruct (@C89_search_lock_refuted sha usize_max tcp_port secret) as (es & y & h & R & (S & _ & C & F & FO & G & req & r & os & N & O) & _).
  destruct (y_sock y) as [d|] eqn:SK; [|congruence]. exists es, y, h, d. split; [exact R|]. split; [exact SK|]. unfold search_blocked, waits_for_search. rewrite SK.
  split; [|auto]. split; [discriminate|]. split; [exact F|]. split; [exact G|]. exists req, r, os. auto.
Qed.
Print Assumptions C90_blocked_forever.
Print Assumptions C90_exact.
