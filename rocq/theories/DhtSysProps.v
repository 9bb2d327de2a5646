(** C89, C90: the tasks of the DHT waiting for each other. *)
From Coq Require Import List NArith ZArith Lia Bool Arith.
From Coq Require Import Init.Byte.
From Verif Require Import Base Assoc BitSpec IdModel IdProofs IdProps WireModel TableModel TableSpec TableProofs TableProofs2 TableProps LookupProps
  PeersModel PeersSpec BencodeModel KrpcModel DhtModel DhtSpec DhtMgrModel FetchModel TaskModel DhtSysModel DhtSysSpec.
Import ListNotations.
Set Implicit Arguments.

Ltac inv_step H :=
  repeat match type of H with
  | Some _ = Some _ => injection H as <- <-
  | None = Some _ => discriminate H
  | option_map _ ?x = Some _ => destruct x eqn:?; cbn [option_map] in H
  | match ?x with _ => _ end = Some _ => destruct x eqn:?
  | (if ?x then _ else _) = Some _ => destruct x eqn:?
  end.

Ltac sp := repeat match goal with |- _ /\ _ => split end.

Lemma after_frame : forall y r, y_stored (after_sock y r) = y_stored y /\ y_phase (after_sock y r) = y_phase y /\ y_cmd (after_sock y r) = y_cmd y /\
  y_qry (after_sock y r) = y_qry y /\ y_dht (after_sock y r) = y_dht y /\ y_fet (after_sock y r) = y_fet y /\ y_fout (after_sock y r) = y_fout y /\ y_rf (after_sock y r) = y_rf y.
Proof. intros y [[d o]| |]; repeat split. Qed.
Lemma out_frame : forall cap y d o os y' out, sock_out cap y d o os = Some (y', out) ->
  y_stored y' = y_stored y /\ y_phase y' = y_phase y /\ y_cmd y' = y_cmd y /\ y_dht y' = y_dht y /\ y_fet y' = y_fet y /\ y_fout y' = y_fout y.
Proof.
  intros cap y d o os y' out H. unfold sock_out, hand_over in H.
  destruct o as [to m|tg fr tt|ih fr tt|p ih|req r]; [| | | |destruct (req =? DHT)];
  repeat match type of H with context [if ?b then _ else _] => destruct b end; try discriminate; injection H as <- <-; repeat split.
Qed.
Lemma send_frame : forall cap y r c y', send_cmd cap y r c = Some y' -> y' = with_cmd y (y_cmd y ++ [(r, c)]) /\ length (y_cmd y) < c_cmd cap.
Proof. intros cap y r c y' H. unfold send_cmd in H. destruct (length (y_cmd y) <? c_cmd cap) eqn:L; [|discriminate]. injection H as <-. apply Nat.ltb_lt in L. auto. Qed.
Section sys.
Variable sha : bytes -> bytes.
Variable usize_max : nat.
Variable cap : caps.
Variable tcp_port : N.
Notation step := (ystep sha usize_max cap tcp_port).
Notation run := (yrun sha usize_max cap tcp_port).

Lemma yrun_app : forall es1 es2 y y1 y2 h1 h2, run y es1 = Some (y1, h1) -> run y1 es2 = Some (y2, h2) -> run y (es1 ++ es2) = Some (y2, h1 ++ h2).
Proof.
  induction es1 as [|e es1 IH]; cbn [yrun app]; intros es2 y y1 y2 h1 h2 A B.
  - injection A as <- <-. exact B.
  - destruct (step y e) as [[y' o]|]; [|discriminate]. destruct (run y' es1) as [[y'' h]|] eqn:E; [|discriminate]. injection A as <- <-.
    rewrite (IH _ _ _ _ _ _ E B). reflexivity.
Qed.
Lemma yrun_snoc : forall es e y y2 h, run y (es ++ [e]) = Some (y2, h) ->
  exists y1 h1 o, run y es = Some (y1, h1) /\ step y1 e = Some (y2, o) /\ h = h1 ++ [(e, o)].
Proof.
  induction es as [|e0 es IH]; cbn [yrun app]; intros e y y2 h A.
  - destruct (step y e) as [[y' o]|] eqn:S; [|discriminate]. injection A as <- <-. exists y, [], o. auto.
  - destruct (step y e0) as [[y' o]|] eqn:S; [|discriminate]. destruct (run y' (es ++ [e])) as [[y'' h']|] eqn:E; [|discriminate]. injection A as <- <-.
    destruct (IH _ _ _ _ E) as (y1 & h1 & o1 & A & B & ->). exists y1, ((e0, o) :: h1), o1. rewrite A. auto.
Qed.
(** Something kept by every step is kept by every run. *)
Lemma yrun_inv : forall (P : yhist -> sys -> Prop) y0, P [] y0 ->
  (forall h y e y' o, P h y -> step y e = Some (y', o) -> P (h ++ [(e, o)]) y') ->
  forall es y h, run y0 es = Some (y, h) -> P h y.
Proof.
  intros P y0 P0 PS es. induction es as [|e es IH] using rev_ind; intros y h R.
  - injection R as <- <-. exact P0.
  - destruct (yrun_snoc _ _ _ R) as (y1 & h1 & o & A & B & ->). eapply PS; eauto.
Qed.

(** ** the cycle of the DHT task and the socket task *)
Lemma dead_step : forall y e y' o, deadlocked cap y -> step y e = Some (y', o) ->
  deadlocked cap y' /\ o = [] /\ y_phase y' = y_phase y /\ y_outs y' = y_outs y /\ y_dht y' = y_dht y /\ y_stored y' = y_stored y.
Proof.
  intros y e y' o (S & (c & l & D) & F & x & os & X & Q) H.
  assert (NC : (length (y_cmd y) <? c_cmd cap) = false) by (apply Nat.ltb_ge; exact F).
  assert (SC : forall r c, send_cmd cap y r c = None) by (intros; unfold send_cmd; rewrite NC; reflexivity).
  assert (DA : dht_alive y = true) by (unfold dht_alive; destruct D as [-> | ->]; reflexivity).
  assert (SA : sock_alive y = true) by (unfold sock_alive; destruct (y_sock y); congruence).
  assert (K : forall z, y_sock z = y_sock y -> y_phase z = y_phase y -> y_cmd z = y_cmd y -> y_outs z = y_outs y -> y_qry z = y_qry y -> y_rd z = y_rd y -> deadlocked cap z).
  { intros z E1 E2 E3 E4 E5 E6. split; [rewrite E1; auto|]. split; [exists c, l; rewrite E2; auto|]. split; [rewrite E3; auto|]. exists x, os.
    rewrite E4, E5, E6. auto. }
  destruct e; cbn [ystep] in H.
  - rewrite X in H. destruct (y_sock y); discriminate.
  - rewrite X in H. destruct (y_sock y); discriminate.
  - rewrite X in H. destruct (y_sock y) as [d|]; [|discriminate]. exfalso.
    destruct Q as [(r & -> & Q)|(Q1 & Q2 & Q)]; [|assert (LQ : (length (y_qry y) <? c_qry cap) = false) by (apply Nat.ltb_ge; exact Q); destruct x; cbn in Q1; try discriminate].
    + cbn in H. unfold hand_over in H. rewrite DA in H. assert (LQ : (length (y_rd y) <? c_rd cap) = false) by (apply Nat.ltb_ge; exact Q). rewrite LQ in H. discriminate.
    + cbn in H. unfold hand_over in H. rewrite DA, LQ in H. discriminate.
    + cbn in H. unfold hand_over in H. rewrite DA, LQ in H. discriminate.
    + cbn in H. unfold hand_over in H. rewrite DA, LQ in H. discriminate.
    + apply Nat.eqb_eq in Q1. subst req. destruct (Q2 r). reflexivity.
  - rewrite X in H. destruct (y_sock y); discriminate.
  - rewrite X in H. destruct (y_sock y); discriminate.
  - destruct D as [D|D]; rewrite D in H; discriminate.
  - destruct D as [D|D]; rewrite D, SA, SC in H; discriminate.
  - destruct D as [D|D]; rewrite D in H; discriminate.
  - inv_step H; (split; [apply K; reflexivity|repeat split]).
  - inv_step H; (split; [apply K; reflexivity|repeat split]).
  - inv_step H; (split; [apply K; reflexivity|repeat split]).
  - destruct (y_fet y); [|discriminate]. destruct (y_fout y); [discriminate|]. rewrite SA, SC in H. discriminate.
  - inv_step H; (split; [apply K; reflexivity|repeat split]).
  - inv_step H; (split; [apply K; reflexivity|repeat split]).
Qed.
(** Once the two wait for each other they do so for ever, whatever else happens:
    no datagram is sent any more, nothing is taken from the socket, and the DHT
    task does not come to see a shutdown, so the table is not stored. *)
Theorem C89_forever : forall es y y' h, deadlocked cap y -> run y es = Some (y', h) ->
  deadlocked cap y' /\ sent h = [] /\ y_phase y' = y_phase y /\ y_dht y' = y_dht y /\ y_stored y' = y_stored y /\
  forall from m o, ~ In (YIn from m, o) h.
Proof.
  intros es y y' h D R.
  apply (yrun_inv (fun h y' => deadlocked cap y' /\ sent h = [] /\ y_phase y' = y_phase y /\ y_dht y' = y_dht y /\ y_stored y' = y_stored y /\
    forall from m o, ~ In (YIn from m, o) h)) with (es := es) (y0 := y); auto.
  - repeat split; auto; try apply D. 
  - intros h1 y1 e y2 o (A & B & C & E & F & G) S. destruct (dead_step _ A S) as (A' & -> & C' & X & E' & F').
    split; [exact A'|]. split; [unfold sent in *; rewrite flat_map_app, B; reflexivity|]. split; [congruence|]. split; [congruence|]. split; [congruence|].
    intros from m o I. apply in_app_or in I. destruct I as [I|[I|[]]]; [eapply G; eauto|]. injection I as -> _. destruct A as (S1 & _ & _ & x & os & X1 & _).
    cbn [ystep] in S. rewrite X1 in S. destruct (y_sock y1); discriminate.
Qed.
(** It can come to this from any moment of rest, whatever the capacities. *)
Definition at_rest (y : sys) : Prop :=
  y_sock y <> None /\ y_outs y = [] /\ y_cmd y = [] /\ y_qry y = [] /\ y_port y = [] /\ y_phase y = PIdle /\
  inv (g_table (k_mgr (y_dht y))) /\ wf_id (g_info (k_mgr (y_dht y))).
Variable a : addr.
Variable now : N.
(** What is needed for it: ports told by connected peers, messages, and steps of
    the tasks. *)
Definition gentle (e : yev) : Prop :=
  match e with YPort b => b = a | YTurn _ _ SPort | YSend | YCheck _ _ | YIn _ _ | YOut | YCmd _ => True | _ => False end.
Definition ping_port : list yev := [YPort a; YTurn now (fun n l => l) SPort; YSend; YCheck now now].
Lemma check_ok : forall y, y_phase y = PSend [] -> inv (g_table (k_mgr (y_dht y))) -> wf_id (g_info (k_mgr (y_dht y))) ->
  exists y', step y (YCheck now now) = Some (y', []) /\ y_phase y' = PIdle /\ y_sock y' = y_sock y /\ y_outs y' = y_outs y /\ y_cmd y' = y_cmd y /\
    y_qry y' = y_qry y /\ y_port y' = y_port y /\ k_mgr (y_dht y') = k_mgr (y_dht y).
Proof.
  intros y P I W. cbn [ystep]. rewrite P. destruct (k_wait (y_dht y) && (0 <? count_good_nodes now (g_table (k_mgr (y_dht y))))).
  - unfold spawn_fetcher. destruct (@closest_spec now (g_table (k_mgr (y_dht y))) (g_info (k_mgr (y_dht y))) I W) as (o & E & _). rewrite E. cbn [rmap].
    destruct o as [l|]; cbn [option_map]; eexists; (split; [reflexivity|]); sp; auto.
  - eexists. split; [reflexivity|]. sp; auto.
Qed.
Lemma ping_port_ok : forall y n, 0 < c_port cap -> n < c_cmd cap ->
  y_sock y <> None -> y_outs y = [] -> length (y_cmd y) = n -> y_qry y = [] -> y_port y = [] -> y_phase y = PIdle ->
  inv (g_table (k_mgr (y_dht y))) -> wf_id (g_info (k_mgr (y_dht y))) ->
  exists y' h, run y ping_port = Some (y', h) /\ y_sock y' <> None /\ y_outs y' = [] /\ length (y_cmd y') = S n /\ y_qry y' = [] /\ y_port y' = [] /\ y_phase y' = PIdle /\
    inv (g_table (k_mgr (y_dht y'))) /\ wf_id (g_info (k_mgr (y_dht y'))).
Proof.
  intros y n C N S O L Q P I T W. unfold ping_port. cbn [yrun ystep]. unfold dht_alive at 1. rewrite I, P. cbn [length andb app].
  assert (X : (0 <? c_port cap) = true) by (apply Nat.ltb_lt; exact C). rewrite X. cbn [yrun ystep with_port y_phase y_port]. rewrite I.
  unfold dht_turn. cbn [gstep with_dht y_phase]. unfold sock_alive. cbn [with_dht with_port y_sock]. destruct (y_sock y) as [d|] eqn:YS; [|congruence].
  unfold send_cmd. cbn [with_dht with_port y_cmd]. assert (Z : (length (y_cmd y) <? c_cmd cap) = true) by (apply Nat.ltb_lt; lia). rewrite Z. cbn [option_map].
  match goal with |- context [with_phase ?z (PSend [])] => set (y1 := with_phase z (PSend [])) end.
  destruct (@check_ok y1 eq_refl T W) as (y2 & E & A1 & A2 & A3 & A4 & A5 & A6 & A7). cbn [ystep] in E. rewrite E.
  eexists y2, _. split; [reflexivity|]. rewrite A1, A2, A3, A4, A5, A6, A7. subst y1. cbn. rewrite app_length. cbn. sp; auto; try congruence; lia.
Qed.
Lemma fill_cmds : forall n y, 0 < c_port cap -> n <= c_cmd cap -> at_rest y ->
  exists es y' h, run y es = Some (y', h) /\ Forall gentle es /\ y_sock y' <> None /\ y_outs y' = [] /\ length (y_cmd y') = n /\ y_qry y' = [] /\ y_port y' = [] /\ y_phase y' = PIdle /\
    inv (g_table (k_mgr (y_dht y'))) /\ wf_id (g_info (k_mgr (y_dht y'))).
Proof.
  induction n as [|n IH]; intros y C N R.
  - exists [], y, []. destruct R as (A & B & D & E & F & G & H & I). rewrite D. sp; auto.
  - destruct (IH y C ltac:(lia) R) as (es & y1 & h1 & E1 & G1 & A1 & A2 & A3 & A4 & A5 & A6 & A7 & A8).
    destruct (@ping_port_ok y1 n C ltac:(lia) A1 A2 A3 A4 A5 A6 A7 A8) as (y2 & h2 & E2 & B).
    exists (es ++ ping_port), y2, (h1 ++ h2). split; [eapply yrun_app; eauto|]. split; [|exact B].
    apply Forall_app. split; [exact G1|]. unfold ping_port. repeat (constructor; cbn; auto).
Qed.
Variables (target : ID) (own : ID) (t : bytes).
Definition flood : kmsg := find_nodes_query own target t.
Lemma fill_queries : forall n y d, n <= c_qry cap -> y_sock y = Some d -> y_outs y = [] -> y_qry y = [] -> dht_alive y = true ->
  exists es y' h, run y es = Some (y', h) /\ Forall gentle es /\ y_sock y' = Some d /\ y_outs y' = [] /\ length (y_qry y') = n /\ y_cmd y' = y_cmd y /\ y_phase y' = y_phase y.
Proof.
  induction n as [|n IH]; intros y d N S O Q D.
  - exists [], y, []. rewrite Q. sp; auto.
  - destruct (IH y d ltac:(lia) S O Q D) as (es & y1 & h1 & E1 & G1 & A1 & A2 & A3 & A4 & A5).
    exists (es ++ [YIn a flood; YOut]). eexists _, _. split; [eapply yrun_app; [exact E1|]|split; [apply Forall_app; split; [exact G1|repeat (constructor; cbn; auto)]|]].
    + cbn [yrun ystep]. rewrite A1, A2. unfold flood, find_nodes_query; cbn [dstep handle_query to_listener all_there e_listener after_sock with_sock y_sock y_outs sock_out].
      unfold hand_over, dht_alive. cbn [after_sock with_sock with_qry y_phase y_outs y_sock y_qry]. rewrite A5. unfold dht_alive in D. rewrite D.
      assert (X : (length (y_qry y1) <? c_qry cap) = true) by (apply Nat.ltb_lt; lia). rewrite X. cbn [option_map]. reflexivity.
    + cbn. rewrite app_length. cbn. sp; auto; lia.
Qed.
Lemma deadlock_from_rest : forall y, 0 < c_port cap -> at_rest y -> exists es y' h, run y es = Some (y', h) /\ Forall gentle es /\ deadlocked cap y'.
Proof.
  intros y C R. destruct (@fill_cmds (c_cmd cap) y C ltac:(lia) R) as (es1 & y1 & h1 & E1 & G1 & A1 & A2 & A3 & A4 & A5 & A6 & A7 & A8).
  (* one more ping, which does not fit *)
  assert (E2 : exists y2, run y1 [YPort a; YTurn now (fun n l => l) SPort] = Some (y2, [(YPort a, []); (YTurn now (fun n l => l) SPort, [])]) /\
    y_sock y2 = y_sock y1 /\ y_outs y2 = [] /\ y_cmd y2 = y_cmd y1 /\ y_qry y2 = [] /\ y_phase y2 = PSend [CQuery a QPing]).
  { cbn [yrun ystep]. unfold dht_alive. rewrite A6, A5. cbn [length andb app]. assert (X : (0 <? c_port cap) = true) by (apply Nat.ltb_lt; exact C). rewrite X.
    cbn [with_port y_phase y_port]. rewrite A6. eexists. split; [reflexivity|]. cbn. sp; auto. }
  destruct E2 as (y2 & E2 & B1 & B2 & B3 & B4 & B5). destruct (y_sock y1) as [d|] eqn:S1; [|congruence].
  destruct (@fill_queries (c_qry cap) y2 d ltac:(lia) B1 B2 B4) as (es3 & y3 & h3 & E3 & G3 & D1 & D2 & D3 & D4 & D5); [unfold dht_alive; rewrite B5; reflexivity|].
  exists (es1 ++ ([YPort a; YTurn now (fun n l => l) SPort] ++ (es3 ++ [YIn a flood]))). eexists _, _. split; [|split; [apply Forall_app; split; [exact G1|]; apply Forall_app; split; [repeat (constructor; cbn; auto)|]; apply Forall_app; split; [exact G3|repeat (constructor; cbn; auto)]|]].
  - eapply yrun_app; [exact E1|]. eapply yrun_app; [exact E2|]. eapply yrun_app; [exact E3|]. cbn [yrun ystep]. rewrite D1, D2.
    unfold flood, find_nodes_query; cbn [dstep handle_query to_listener all_there e_listener after_sock]. reflexivity.
  - split; [discriminate|]. split; [exists (CQuery a QPing), []; right; cbn; congruence|]. split; [cbn; rewrite D4, B3; lia|].
    eexists _, _. split; [reflexivity|]. right. split; [reflexivity|]. split; [discriminate|]. cbn. lia.
Qed.

(** The start comes to rest. *)
Lemma start_drains : forall l y d, 0 < c_cmd cap -> y_sock y = Some d -> y_outs y = [] -> y_cmd y = [] -> y_phase y = PStart (map (fun n => CQuery (n_addr n) QPing) l) ->
  exists es y' h, run y es = Some (y', h) /\ Forall gentle es /\ y_sock y' <> None /\ y_outs y' = [] /\ y_cmd y' = [] /\ y_phase y' = PIdle /\
    y_qry y' = y_qry y /\ y_port y' = y_port y /\ y_dht y' = y_dht y.
Proof.
  induction l as [|n l IH]; intros y d C S O Q P.
  - exists [YSend]. cbn [map] in P. eexists _, _. split; [cbn [yrun ystep]; rewrite P; reflexivity|]. split; [repeat (constructor; cbn; auto)|]. cbn. sp; auto. congruence.
  - cbn [map] in P. set (y1 := with_sock (with_phase y (PStart (map (fun n => CQuery (n_addr n) QPing) l))) (Some (mk_dcon (d_own d) (d_secret d) (pend_insert (d_pending d) t KPing DHT))) []).
    destruct (IH y1 (mk_dcon (d_own d) (d_secret d) (pend_insert (d_pending d) t KPing DHT)) C eq_refl eq_refl Q eq_refl) as (es & y' & h & E & G & A).
    exists ([YSend; YCmd t; YOut] ++ es). eexists y', _. split; [|split; [apply Forall_app; split; [repeat (constructor; cbn; auto)|exact G]|exact A]]. eapply yrun_app; [|exact E].
    cbn [yrun ystep]. rewrite P. unfold sock_alive. rewrite S. unfold send_cmd. rewrite Q. cbn [length app]. assert (X : (0 <? c_cmd cap) = true) by (apply Nat.ltb_lt; exact C). rewrite X.
    cbn [option_map with_phase with_cmd y_sock y_outs y_cmd y_phase]. rewrite S, O.
    cbn. f_equal. f_equal. subst y1. unfold with_sock, with_phase, with_cmd. cbn. rewrite Q. reflexivity.
Qed.
(** ** waiting that is not for ever *)
(** Steps of the socket task on its own, and of the DHT task sending. *)
Definition unaided (e : yev) : Prop := e = YOut \/ e = YSend \/ exists t, e = YCmd t.
Lemma sending_next : forall y, dht_sending y -> 0 < c_cmd cap -> y_sock y = None \/ length (y_cmd y) < c_cmd cap ->
  exists y' , step y YSend = Some (y', []) /\ y_phase y' <> y_phase y.
Proof.
  intros y (c & l & P) C H. cbn [ystep]. unfold sock_alive, send_cmd.
  assert (NE : forall (c : to_con) l, l <> c :: l) by (intros c0 l0 X; apply (f_equal (@length _)) in X; cbn in X; lia).
  destruct H as [H|H].
  - rewrite H. destruct P as [P|P]; rewrite P; eexists; (split; [reflexivity|]); cbn; congruence.
  - apply Nat.ltb_lt in H. rewrite H. destruct (y_sock y); destruct P as [P|P]; rewrite P; eexists; (split; [reflexivity|]); cbn; try congruence;
    intro X; injection X as X; apply NE in X; exact X.
Qed.
Lemma wait_ends : forall n y, length (y_outs y) <= n -> dht_sending y -> 0 < c_cmd cap ->
  exists es y' h, run y es = Some (y', h) /\ Forall unaided es /\ (y_phase y' <> y_phase y \/ deadlocked cap y' \/ waits_for_search cap y').
Proof.
  induction n as [|n IH]; intros y L D C.
  - destruct (y_outs y) as [|] eqn:O; [|cbn in L; lia]. destruct (le_lt_dec (c_cmd cap) (length (y_cmd y))) as [F|F].
    2:{ destruct (@sending_next y D C (or_intror F)) as (y' & E & N). exists [YSend], y', [(YSend, [])]. cbn [yrun]. rewrite E. split; [reflexivity|]. split; [|auto]. constructor; [|constructor]. unfold unaided; auto. }
    destruct (y_sock y) as [d|] eqn:S.
    2:{ destruct (@sending_next y D C (or_introl S)) as (y' & E & N). exists [YSend], y', [(YSend, [])]. cbn [yrun]. rewrite E. split; [reflexivity|]. split; [|auto]. constructor; [|constructor]. unfold unaided; auto. }
    destruct (y_cmd y) as [|[req c] q] eqn:Q; [cbn in F; lia|].
    destruct (le_lt_dec (c_cmd cap) (length q)) as [F2|F2].
    + (* cannot be: the queue is never longer than its capacity; take commands until it is short *)
      assert (G : forall q y d, y_sock y = Some d -> y_outs y = [] -> dht_sending y -> y_cmd y = q ->
        exists es y' h, run y es = Some (y', h) /\ Forall unaided es /\ y_phase y' <> y_phase y).
      { clear - C sha usize_max cap tcp_port a now target own t. induction q as [|[req c] q IH]; intros y d S O D Q.
        - destruct (@sending_next y D C) as (y' & E & N); [right; rewrite Q; exact C|]. exists [YSend], y', [(YSend, [])]. cbn [yrun]. rewrite E. split; [reflexivity|]. split; [|auto]. constructor; [|constructor]. unfold unaided; auto.
        - set (ev := match c with CQuery target qu => EQuery req target qu t | CReply target t' r => EReply target t' r end).
          assert (V : exists d' to m, dstep sha all_there d ev = Val (d', [OSend to m])).
          { subst ev. destruct c as [tg qu|tg t' r]; cbn [dstep]; [unfold send_query; destruct qu; cbn; eauto|unfold send_reply; eauto]. }
          destruct V as (d' & to & m & V). destruct (IH (with_sock (with_cmd y q) (Some d') []) d' eq_refl eq_refl) as (es & y' & h & E & U & N); [exact D|reflexivity|].
          exists ([YCmd t; YOut] ++ es), y', ([(YCmd t, []); (YOut, [(to, m)])] ++ h). split; [|split; [|exact N]].
          + eapply yrun_app; [|exact E]. cbn [yrun ystep]. rewrite S, O, Q. fold ev. rewrite V. cbn. reflexivity.
          + constructor; [unfold unaided; eauto|]. constructor; [unfold unaided; eauto|exact U]. }
      destruct (G _ y d S O D Q) as (es & y' & h & A & B & N). exists es, y', h. auto.
    + set (ev := match c with CQuery target qu => EQuery req target qu t | CReply target t' r => EReply target t' r end).
      set (y1 := after_sock (with_cmd y q) (dstep sha all_there d ev)).
      assert (R : run y [YCmd t] = Some (y1, [(YCmd t, [])])). { cbn [yrun ystep]. rewrite S, O, Q. reflexivity. }
      assert (P1 : y_phase y1 = y_phase y /\ y_cmd y1 = q). { unfold y1, after_sock. destruct (dstep sha all_there d ev) as [[? ?]| |]; split; reflexivity. } destruct P1 as (P1 & Q1).
      destruct (@sending_next y1) as (y' & E & N); [unfold dht_sending; rewrite P1; exact D|exact C|right; rewrite Q1; exact F2|].
      exists ([YCmd t] ++ [YSend]), y', ([(YCmd t, [])] ++ [(YSend, [])]). split; [|split; [|left; congruence]].
      * eapply yrun_app; [exact R|]. cbn [yrun]. rewrite E. reflexivity.
      * constructor; [unfold unaided; eauto|]. constructor; [unfold unaided; eauto|constructor].
  - destruct (y_outs y) as [|o os] eqn:O; [apply IH; [rewrite O; cbn; lia|auto|auto]|].
    destruct (le_lt_dec (c_cmd cap) (length (y_cmd y))) as [F|F].
    2:{ destruct (@sending_next y D C (or_intror F)) as (y' & E & N). exists [YSend], y', [(YSend, [])]. cbn [yrun]. rewrite E. split; [reflexivity|]. split; [|auto]. constructor; [|constructor]. unfold unaided; auto. }
    destruct (y_sock y) as [d|] eqn:S.
    2:{ destruct (@sending_next y D C (or_introl S)) as (y' & E & N). exists [YSend], y', [(YSend, [])]. cbn [yrun]. rewrite E. split; [reflexivity|]. split; [|auto]. constructor; [|constructor]. unfold unaided; auto. }
    assert (DA : dht_alive y = true) by (destruct D as (c & l & [P|P]); unfold dht_alive; rewrite P; reflexivity).
    assert (GO : forall y1 out, step y YOut = Some (y1, out) -> y_phase y1 = y_phase y -> length (y_outs y1) <= n ->
      exists es y' h, run y es = Some (y', h) /\ Forall unaided es /\ (y_phase y' <> y_phase y \/ deadlocked cap y' \/ waits_for_search cap y')).
    { intros y1 out E P1 L1. destruct (IH y1 L1) as (es & y' & h & R & U & X); [unfold dht_sending in *; rewrite P1; exact D|exact C|].
      exists (YOut :: es), y', ((YOut, out) :: h). split; [cbn [yrun]; rewrite E, R; reflexivity|]. split; [constructor; [unfold unaided; auto|exact U]|]. rewrite <- P1. exact X. }
    cbn [length] in L.
    assert (SO : forall z out, sock_out cap y d o os = Some (z, out) -> step y YOut = Some (z, out)) by (intros z out X; cbn [ystep]; rewrite S, O; exact X).
    destruct o as [to m|tg fr tt|ih fr tt|p ih|req r].
    + eapply GO; [apply SO; reflexivity|reflexivity|cbn; lia].
    + destruct (le_lt_dec (c_qry cap) (length (y_qry y))) as [G|G].
      * exists [], y, []. split; [reflexivity|]. split; [constructor|]. right. left. split; [congruence|]. split; [exact D|]. split; [exact F|]. eexists _, _. split; [exact O|]. right. split; [reflexivity|]. split; [discriminate|exact G].
      * eapply GO; [apply SO; cbn [sock_out]; unfold hand_over; rewrite DA; apply Nat.ltb_lt in G; rewrite G; reflexivity|reflexivity|cbn; lia].
    + destruct (le_lt_dec (c_qry cap) (length (y_qry y))) as [G|G].
      * exists [], y, []. split; [reflexivity|]. split; [constructor|]. right. left. split; [congruence|]. split; [exact D|]. split; [exact F|]. eexists _, _. split; [exact O|]. right. split; [reflexivity|]. split; [discriminate|exact G].
      * eapply GO; [apply SO; cbn [sock_out]; unfold hand_over; rewrite DA; apply Nat.ltb_lt in G; rewrite G; reflexivity|reflexivity|cbn; lia].
    + destruct (le_lt_dec (c_qry cap) (length (y_qry y))) as [G|G].
      * exists [], y, []. split; [reflexivity|]. split; [constructor|]. right. left. split; [congruence|]. split; [exact D|]. split; [exact F|]. eexists _, _. split; [exact O|]. right. split; [reflexivity|]. split; [discriminate|exact G].
      * eapply GO; [apply SO; cbn [sock_out]; unfold hand_over; rewrite DA; apply Nat.ltb_lt in G; rewrite G; reflexivity|reflexivity|cbn; lia].
    + destruct (Nat.eq_dec req DHT) as [->|NE].
      * destruct (le_lt_dec (c_rd cap) (length (y_rd y))) as [G|G].
        -- exists [], y, []. split; [reflexivity|]. split; [constructor|]. right. left. split; [congruence|]. split; [exact D|]. split; [exact F|]. eexists _, _. split; [exact O|]. left. eauto.
        -- eapply GO; [apply SO; cbn; unfold hand_over; rewrite DA; apply Nat.ltb_lt in G; rewrite G; reflexivity|reflexivity|cbn; lia].
      * apply Nat.eqb_neq in NE. destruct (y_fet y) as [f|] eqn:FE.
        -- destruct (le_lt_dec (c_rf cap) (length (y_rf y))) as [G|G].
           ++ exists [], y, []. split; [reflexivity|]. split; [constructor|]. right. right. split; [congruence|]. split; [congruence|]. split; [exact G|].
              exists req, r, os. split; [apply Nat.eqb_neq; exact NE|exact O].
           ++ eapply GO; [apply SO; cbn [sock_out]; rewrite NE; unfold hand_over; rewrite FE; apply Nat.ltb_lt in G; rewrite G; reflexivity|reflexivity|cbn; lia].
        -- eapply GO; [apply SO; cbn [sock_out]; rewrite NE; unfold hand_over; rewrite FE; reflexivity|reflexivity|cbn; lia].
Qed.
End sys.

(** Whatever the capacities of the channels, and from any start: the DHT can come
    to a standstill that lasts for ever. *)
Theorem C89_any_capacity : forall sha usize_max cap tcp_port own secret info m t, reachable t -> wf_id info -> 0 < c_cmd cap -> 0 < c_port cap ->
  exists es y h, yrun sha usize_max cap tcp_port (sys_start own secret info m t) es = Some (y, h) /\ deadlocked cap y.
Proof.
  intros sha usize_max cap tcp_port own secret info m t R W C P.
  destruct (@start_drains sha usize_max cap tcp_port (mk_addr x00 x00 x00 x00 0) [] (t_nodes t) (sys_start own secret info m t) (mk_dcon own secret []) C eq_refl eq_refl eq_refl eq_refl)
    as (es & y & h & E & _ & A1 & A2 & A3 & A4 & A5 & A6 & A7).
  destruct (@deadlock_from_rest sha usize_max cap tcp_port (mk_addr x00 x00 x00 x00 0) 0%N own own [] y P) as (es2 & y2 & h2 & E2 & _ & D).
  { unfold at_rest. rewrite A7. cbn. sp; auto. apply reachable_inv. exact R. }
  exists (es ++ es2), y2, (h ++ h2). split; [eapply yrun_app; eauto|exact D].
Qed.
(** The tasks of the DHT do not block each other for ever: refuted with the
    capacities used. After [es] nothing is ever sent or received again, and a
    shutdown goes unnoticed. *)
Theorem C89_no_deadlock_refuted : forall sha usize_max tcp_port own secret info m t, reachable t -> wf_id info ->
  exists es y h, yrun sha usize_max CAPS tcp_port (sys_start own secret info m t) es = Some (y, h) /\
    forall es' y' h', yrun sha usize_max CAPS tcp_port y es' = Some (y', h') ->
      sent h' = [] /\ (forall from q o, ~ In (YIn from q, o) h') /\ y_phase y' <> PGone /\ y_stored y' = None.
Proof.
  intros sha usize_max tcp_port own secret info m t R W.
  destruct (@C89_any_capacity sha usize_max CAPS tcp_port own secret info m t R W) as (es & y & h & E & D); [cbn; lia|cbn; lia|].
  exists es, y, h. split; [exact E|]. intros es' y' h' E'. destruct (@C89_forever sha usize_max CAPS tcp_port es' y y' h' D E') as (A & B & P & K & S & F).
  split; [exact B|]. split; [exact F|]. split; [rewrite P; destruct D as (_ & (c & l & [Q|Q]) & _); rewrite Q; discriminate|]. rewrite S.
  clear - E D. assert (I : y_phase y = PGone \/ y_stored y = None).
  { apply (@yrun_inv sha usize_max CAPS tcp_port (fun _ y => y_phase y = PGone \/ y_stored y = None) (sys_start own secret info m t)) with (es := es) (h := h); auto.
    clear. intros h y e y' o I H. assert (Z : forall z, y_stored z = y_stored y -> (y_phase z = PGone \/ y_phase z = y_phase y) -> y_phase z = PGone \/ y_stored z = None).
    { intros z A B. rewrite A. destruct I as [I|I]; [|auto]. rewrite I in B. tauto. }
    assert (Y : forall z, y_stored z = y_stored y -> y_phase y <> PGone -> y_phase z = PGone \/ y_stored z = None).
    { intros z A B. right. rewrite A. tauto. }
    destruct e as [from m| | | | |now pick sr| | | | | | | |]; cbn [ystep] in H.
    - inv_step H. match goal with |- context [after_sock ?y ?r] => destruct (@after_frame y r) as (-> & -> & _) end. exact I.
    - inv_step H. match goal with |- context [after_sock ?y ?r] => destruct (@after_frame y r) as (-> & -> & _) end. exact I.
    - destruct (y_sock y) as [d|]; [|discriminate]. destruct (y_outs y) as [|x os]; [discriminate|]. destruct (out_frame _ _ _ _ _ H) as (-> & -> & _). exact I.
    - inv_step H; apply Z; cbn; auto.
    - inv_step H; apply Z; cbn; auto.
    - destruct (y_phase y) eqn:P; try discriminate. assert (T : forall z i, y_stored z = y_stored y -> y_stored (dht_turn z now pick i) = y_stored y).
      { intros z i A. unfold dht_turn. destruct (gstep _ _ _ _) as [[? ?]| |]; cbn; exact A. }
      destruct sr; inv_step H; try (left; reflexivity); try (apply Y; [apply T; reflexivity|discriminate]).
    - inv_step H; try (left; reflexivity); try match goal with E : send_cmd _ _ _ _ = Some _ |- _ => apply send_frame in E; destruct E as (-> & _) end; apply Y; cbn; auto; congruence.
    - inv_step H; try (left; reflexivity); apply Y; cbn; auto; congruence.
    - inv_step H; apply Z; cbn; auto.
    - inv_step H; apply Z; cbn; auto.
    - inv_step H; apply Z; cbn; auto.
    - inv_step H; try match goal with E : send_cmd _ _ _ _ = Some _ |- _ => apply send_frame in E; destruct E as (-> & _) end; apply Z; cbn; auto.
    - inv_step H; apply Z; cbn; auto.
    - inv_step H; apply Z; cbn; auto. }
  destruct I as [I|I]; [|exact I]. destruct D as (_ & (c & l & [Q|Q]) & _); congruence.
Qed.
(** What holds: a DHT task waiting to send a command gets on, by steps of the
    socket task alone, unless the socket task itself waits for the DHT task or
    for the peer search. *)
Theorem C89_wait_ends_partial : forall sha usize_max cap tcp_port y, dht_sending y -> 0 < c_cmd cap ->
  exists es y' h, yrun sha usize_max cap tcp_port y es = Some (y', h) /\ Forall unaided es /\
    (y_phase y' <> y_phase y \/ deadlocked cap y' \/ waits_for_search cap y').
Proof. intros. eapply (@wait_ends sha usize_max cap tcp_port []); eauto. Qed.

(** ** C90: the peer search holding up the rest *)
Section search.
Variable sha : bytes -> bytes.
Variable usize_max : nat.
Variable cap : caps.
Variable tcp_port : N.
Notation step := (ystep sha usize_max cap tcp_port).
Notation run := (yrun sha usize_max cap tcp_port).

(** Once there is a search no other is started. *)
Lemma one_search : forall own secret info m t es y h, run (sys_start own secret info m t) es = Some (y, h) -> y_fet y <> None -> k_wait (y_dht y) = false.
Proof.
  intros own secret info m t es y h R.
  apply (@yrun_inv sha usize_max cap tcp_port (fun _ y => y_fet y <> None -> k_wait (y_dht y) = false) (sys_start own secret info m t)) with (es := es) (h := h); auto.
  { cbn. congruence. }
  clear. intros h y e y' o I H.
  assert (Z : forall z, y_fet z = y_fet y -> k_wait (y_dht z) = k_wait (y_dht y) -> y_fet z <> None -> k_wait (y_dht z) = false) by (intros z A B; rewrite A, B; exact I).
  destruct e as [from m| | | | |now pick sr| | | | | | | |]; cbn [ystep] in H.
  - inv_step H. match goal with |- context [after_sock ?y ?r] => destruct (@after_frame y r) as (_ & _ & _ & _ & -> & -> & _) end. exact I.
  - inv_step H. match goal with |- context [after_sock ?y ?r] => destruct (@after_frame y r) as (_ & _ & _ & _ & -> & -> & _) end. exact I.
  - destruct (y_sock y) as [d|]; [|discriminate]. destruct (y_outs y) as [|x os]; [discriminate|]. destruct (out_frame _ _ _ _ _ H) as (_ & _ & _ & -> & -> & _). exact I.
  - inv_step H; apply Z; cbn; auto.
  - inv_step H; apply Z; cbn; auto.
  - assert (T : forall z i, y_fet z = y_fet y -> k_wait (y_dht z) = k_wait (y_dht y) -> y_fet (dht_turn z now pick i) = y_fet y /\ k_wait (y_dht (dht_turn z now pick i)) = k_wait (y_dht y)).
    { intros z i A B. unfold dht_turn. destruct (gstep _ _ _ _) as [[? ?]| |]; cbn; auto. }
    destruct (y_phase y) eqn:P; try discriminate. destruct sr; inv_step H; apply Z; try reflexivity; apply T; reflexivity.
  - inv_step H; try match goal with E : send_cmd _ _ _ _ = Some _ |- _ => apply send_frame in E; destruct E as (-> & _) end; apply Z; cbn; auto.
  - inv_step H; try (apply Z; cbn; auto; fail). cbn. auto.
  - inv_step H; cbn; try congruence; intros _; apply I; congruence.
  - inv_step H; cbn; try congruence; intros _; apply I; congruence.
  - inv_step H; cbn; try congruence; intros _; apply I; congruence.
  - inv_step H; try match goal with E : send_cmd _ _ _ _ = Some _ |- _ => apply send_frame in E; destruct E as (-> & _) end; cbn; try congruence; intros _; apply I; congruence.
  - inv_step H; apply Z; cbn; auto.
  - inv_step H; apply Z; cbn; auto.
Qed.
Lemma held_step : forall y e y' o, waits_for_search cap y -> search_pausing y -> k_wait (y_dht y) = false -> e <> YTick -> step y e = Some (y', o) ->
  waits_for_search cap y' /\ search_pausing y' /\ k_wait (y_dht y') = false /\ o = [] /\ y_outs y' = y_outs y.
Proof.
  intros y e y' o (S & F & L & req & r & os & N & X) (P1 & f & P2 & P3) W NT H.
  assert (K : forall z, y_sock z = y_sock y -> y_fet z = y_fet y -> y_rf z = y_rf y -> y_outs z = y_outs y -> y_fout z = y_fout y -> k_wait (y_dht z) = k_wait (y_dht y) ->
    waits_for_search cap z /\ search_pausing z /\ k_wait (y_dht z) = false /\ @nil (addr * kmsg) = [] /\ y_outs z = y_outs y).
  { intros z E1 E2 E3 E4 E5 E6. split; [|split; [|split; [congruence|split; [reflexivity|exact E4]]]].
    - unfold waits_for_search. rewrite E1, E2, E3, E4. sp; eauto.
    - unfold search_pausing. rewrite E2, E5. eauto. }
  assert (NR : forall rf, fstep usize_max (mk_fet (fs_info f) (fs_port f) (fs_nodes f) (y_peers y) (fs_busy f)) (FResp rf) = Fail) by (intros []; cbn; rewrite P3; reflexivity).
  destruct e as [from m| | | | |now pick sr| | | | | | | |]; cbn [ystep] in H.
  - rewrite X in H. destruct (y_sock y); discriminate.
  - rewrite X in H. destruct (y_sock y); discriminate.
  - exfalso. rewrite X in H. destruct (y_sock y) as [d|]; [|discriminate]. cbn [sock_out] in H. apply Nat.eqb_neq in N. rewrite N, P2 in H.
    unfold hand_over in H. apply Nat.ltb_ge in L. rewrite L in H. discriminate.
  - rewrite X in H. destruct (y_sock y); discriminate.
  - rewrite X in H. destruct (y_sock y); discriminate.
  - assert (T : forall z i, y_sock z = y_sock y -> y_fet z = y_fet y -> y_rf z = y_rf y -> y_outs z = y_outs y -> y_fout z = y_fout y -> y_dht z = y_dht y ->
      waits_for_search cap (dht_turn z now pick i) /\ search_pausing (dht_turn z now pick i) /\ k_wait (y_dht (dht_turn z now pick i)) = false /\ @nil (addr * kmsg) = [] /\ y_outs (dht_turn z now pick i) = y_outs y).
    { intros z i E1 E2 E3 E4 E5 E6. apply K; unfold dht_turn; destruct (gstep _ _ _ _) as [[? ?]| |]; cbn; congruence. }
    destruct (y_phase y) eqn:P; try discriminate. destruct sr; inv_step H; try (apply K; reflexivity); apply T; reflexivity.
  - inv_step H; try match goal with E : send_cmd _ _ _ _ = Some _ |- _ => apply send_frame in E; destruct E as (-> & _) end; apply K; reflexivity.
  - rewrite W in H. cbn [andb] in H. inv_step H; apply K; reflexivity.
  - congruence.
  - rewrite P2, P1 in H. destruct (y_rf y) as [|x q]; [discriminate|]. cbn [with_rf y_peers] in H. rewrite NR in H. discriminate.
  - rewrite P2, P1 in H. cbn [fstep fs_busy] in H. rewrite P3 in H. discriminate.
  - rewrite P2, P1 in H. discriminate.
  - inv_step H; apply K; reflexivity.
  - inv_step H; apply K; reflexivity.
Qed.
(** While the search pauses with its channel full and one more response for it
    has come, the DHT neither takes in nor sends anything: no query of anybody is
    answered, until the search starts its next round. *)
Theorem C90_held_up : forall own secret info m t es0 y0 h0 es y h,
  run (sys_start own secret info m t) es0 = Some (y0, h0) -> waits_for_search cap y0 -> search_pausing y0 ->
  run y0 es = Some (y, h) -> ~ In YTick es ->
  sent h = [] /\ (forall from q o, ~ In (YIn from q, o) h) /\ waits_for_search cap y /\ search_pausing y.
Proof.
  intros own secret info m t es0 y0 h0 es y h R0 W P R. pose proof (one_search _ _ _ _ _ _ R0 (proj1 (proj2 W))) as K. clear R0. revert y0 y h W P K R.
  induction es as [|e es IH]; intros y0 y h W P K R NT.
  - injection R as <- <-. split; [reflexivity|]. split; [intros from q o []|]. auto.
  - cbn [yrun] in R. destruct (step y0 e) as [[y1 o]|] eqn:S; [|discriminate]. destruct (run y1 es) as [[y2 h2]|] eqn:E; [|discriminate]. injection R as <- <-.
    destruct (@held_step y0 e y1 o W P K) as (W1 & P1 & K1 & -> & O1); [intros ->; apply NT; left; reflexivity|exact S|].
    destruct (IH y1 y2 h2 W1 P1 K1 E) as (A & B & C); [intro X; apply NT; right; exact X|].
    split; [exact A|]. split; [|exact C]. intros from q o [X|X]; [|eapply B; eauto]. injection X as -> _.
    cbn [ystep] in S. destruct W as (W1' & _ & _ & req & r & os & _ & X). rewrite X in S. destruct (y_sock y0); discriminate.
Qed.

(** *** how it comes to this *)
(** The search's commands go out, with transaction ids [ts]. *)
Lemma fet_drains : forall l ts y d f, 0 < c_cmd cap -> length ts = length l -> NoDup ts -> (forall c, In c l -> exists a q, c = CQuery a q) ->
  y_sock y = Some d -> y_outs y = [] -> y_cmd y = [] -> y_fet y = Some f -> y_fout y = l ->
  exists es d' h, run y es = Some (with_fet (with_sock y (Some d') []) (Some f) [] (y_peers y), h) /\
    (forall i t a q, nth_error ts i = Some t -> nth_error l i = Some (CQuery a q) -> mget bytes_eqb t (d_pending d') = Some (kind_asked q, FETCHER)) /\
    (forall t, ~ In t ts -> mget bytes_eqb t (d_pending d') = mget bytes_eqb t (d_pending d)).
Proof.
  induction l as [|c l IH]; intros ts y d f C L ND Q S O Y F FO.
  - destruct ts; [|discriminate]. exists [], d, []. split.
    + cbn [yrun]. destruct y. cbn in *. subst. reflexivity.
    + split; [intros [|i] t a q E; discriminate|reflexivity].
  - destruct ts as [|t ts]; [discriminate|]. destruct (Q c (or_introl eq_refl)) as (a & q & ->).
    set (d1 := mk_dcon (d_own d) (d_secret d) (pend_insert (d_pending d) t (kind_asked q) FETCHER)).
    set (y1 := with_fet (with_sock y (Some d1) []) (Some f) l (y_peers y)). inversion ND as [|? ? NI ND2]; subst.
    destruct (IH ts y1 d1 f C) as (es & d' & h & R & A & B); auto.
    { intros c X. apply Q. right. exact X. }
    assert (M : mget bytes_eqb t (d_pending d1) = Some (kind_asked q, FETCHER)) by (cbn [d1 d_pending]; unfold pend_insert; apply (mget_mset_same _ bytes_eqb_eq)).
    exists ([YFetSend; YCmd t; YOut] ++ es), d', ([(YFetSend, []); (YCmd t, []); (YOut, [(a, query_message (d_own d) t q)])] ++ h). split; [eapply yrun_app; [|exact R]|split].
    + cbn [yrun ystep]. rewrite F, FO. unfold sock_alive. rewrite S. unfold send_cmd. rewrite Y. cbn [length app]. assert (X : (0 <? c_cmd cap) = true) by (apply Nat.ltb_lt; exact C). rewrite X.
      cbn [option_map with_fet with_cmd y_sock y_outs y_cmd y_fet y_fout]. rewrite S, O. cbn [dstep send_query].
      assert (V : send_query d FETCHER a q t = Val (d1, [OSend a (query_message (d_own d) t q)])) by (unfold send_query, d1; destruct q; reflexivity). rewrite V.
      cbn. subst y1. unfold with_fet, with_sock, with_cmd. cbn. rewrite Y. reflexivity.
    + intros [|i] t' a' q' E1 E2.
      * cbn in E1, E2. injection E1 as <-. injection E2 as <- <-. rewrite B by exact NI. exact M.
      * cbn in E1, E2. eapply A; eauto.
    + intros t' N'. rewrite B by (intro X; apply N'; right; exact X). cbn [d1 d_pending]. unfold pend_insert. apply (@mget_mset_other _ _ _ bytes_eqb_eq).
      intro X. apply N'. left. congruence.
Qed.
(** Late answers. *)
Lemma late : forall ts y d (f : fetcher) (own : ID) (token : bytes) (v : von), NoDup ts -> (forall t, In t ts -> mget bytes_eqb t (d_pending d) = Some (KGetPeers, FETCHER)) ->
  y_sock y = Some d -> y_outs y = [] -> y_fet y = Some f -> ts <> [] -> length (y_rf y) + length ts = S (c_rf cap) ->
  exists es y' h, run y es = Some (y', h) /\ waits_for_search cap y' /\ y_fet y' = Some f /\ y_fout y' = y_fout y.
Proof.
  induction ts as [|t ts IH]; intros y d f own token v ND Q S O F NE L; [congruence|]. clear NE. inversion ND as [|? ? NI ND2]; subst.
  set (a := mk_addr x00 x00 x00 x00 0%N).
  set (d1 := mk_dcon (d_own d) (d_secret d) (mdel bytes_eqb t (d_pending d))).
  assert (V : dstep sha all_there d (EIn a (get_peers_resp own token v t)) = Val (d1, [OResp FETCHER (FGetPeers a token v)])).
  { cbn [dstep get_peers_resp]. unfold handle_resp, pend_get. cbn [kind_of_resp]. rewrite (Q t (or_introl eq_refl)). reflexivity. }
  destruct ts as [|t2 ts].
  - exists [YIn a (get_peers_resp own token v t)]. eexists _, _. split; [cbn [yrun]; cbn [ystep]; rewrite S, O; rewrite V; reflexivity|].
    cbn [after_sock]. split; [|split; [exact F|reflexivity]]. unfold waits_for_search. cbn in *. sp; try congruence; try lia. eexists _, _, _. split; [|reflexivity]. discriminate.
  - set (y1 := with_rf (with_sock y (Some d1) []) (y_rf y ++ [FGetPeers a token v])).
    destruct (IH y1 d1 f own token v ND2) as (es & y' & h & R & A); auto.
    + intros t' X. cbn [d1 d_pending]. rewrite (@mget_mdel_other _ _ _ bytes_eqb_eq); [apply Q; right; exact X|]. intro Z. subst t'. contradiction.
    + discriminate.
    + cbn in *. rewrite app_length. cbn. lia.
    + exists ([YIn a (get_peers_resp own token v t); YOut] ++ es), y', ([(YIn a (get_peers_resp own token v t), []); (YOut, [])] ++ h). split; [|exact A].
      eapply yrun_app; [|exact R]. cbn [yrun]. cbn [ystep]. rewrite S, O, V. cbn [after_sock with_sock y_sock y_outs sock_out].
      assert (X : (FETCHER =? DHT) = false) by reflexivity. rewrite X. unfold hand_over. unfold with_sock. cbn [y_fet y_rf]. rewrite F.
      assert (Z : (length (y_rf y) <? c_rf cap) = true) by (apply Nat.ltb_lt; cbn in L; lia). rewrite Z. subst y1. unfold with_rf, with_sock. cbn. rewrite F. reflexivity.
Qed.
End search.

(** A client started with an empty table; one connected peer tells its DHT port
    and answers a ping there: the search starts and asks it for peers. It names
    65 nodes, which are asked in turn and do not answer within 3 seconds. *)
Definition ex_own : ID := repeat x00 20.
Definition ex_info : ID := repeat x55 20.
Definition ex_node : ID := repeat xaa 20.
Definition ex_addr (i : nat) : addr := mk_addr x01 x02 x03 x04 (N.of_nat i).
Definition ex_nodes (n : nat) : nodes := Closest (map (fun i => mk_node ex_node (ex_addr (S i)) None) (seq 0 n)).
Definition ex_pick : picker := fun _ l => l.
Definition ex_prefix (n : nat) : list yev :=
  [YSend; YPort (ex_addr 0); YTurn 0%N ex_pick SPort; YSend; YCmd [x01]; YOut; YCheck 0%N 0%N;
   YIn (ex_addr 0) (ping_resp ex_node [x01]); YOut; YTurn 0%N ex_pick SResp; YCheck 0%N 0%N;
   YTick; YFetSend; YCmd [x02]; YOut;
   YIn (ex_addr 0) (get_peers_resp ex_node [x07] (VNodes (ex_nodes n)) [x02]); YOut; YAnswer].
Definition ex_tids (n : nat) : list bytes := map (fun i => repeat x00 i) (seq 0 n).
Lemma ex_tids_nodup : forall n, NoDup (ex_tids n).
Proof.
  intro n. unfold ex_tids. apply FinFun.Injective_map_NoDup; [|apply seq_NoDup]. intros i j E. apply (f_equal (@length _)) in E. rewrite !repeat_length in E. exact E.
Qed.
(** A search waiting for its next round does not affect the rest of the DHT:
    refuted. After [es] no datagram is taken in or sent until the next round. *)
Theorem C90_search_independent_refuted : forall sha usize_max tcp_port secret,
  exists es y h, yrun sha usize_max CAPS tcp_port (sys_start ex_own secret ex_info [] (t_default ex_own)) es = Some (y, h) /\
    waits_for_search CAPS y /\ search_pausing y /\
    forall es' y' h', yrun sha usize_max CAPS tcp_port y es' = Some (y', h') -> ~ In YTick es' ->
      sent h' = [] /\ forall from q o, ~ In (YIn from q, o) h'.
Proof.
  intros sha usize_max tcp_port secret.
  assert (P : exists y d f h, yrun sha usize_max CAPS tcp_port (sys_start ex_own secret ex_info [] (t_default ex_own)) (ex_prefix 65) = Some (y, h) /\
    y_sock y = Some d /\ y_outs y = [] /\ y_cmd y = [] /\ y_rf y = [] /\ y_fet y = Some f /\ fs_busy f = true /\
    y_fout y = map (fun i => CQuery (ex_addr (S i)) (QGetPeers ex_info)) (seq 0 65) /\
    announce_peer (fs_port f) (fs_info f) (fs_nodes f) = [CQuery (ex_addr 0) (QAnnounce ex_info tcp_port [x07])]).
  { eexists _, _, _, _. split; [vm_compute; reflexivity|]. repeat (split; [reflexivity|]). vm_compute. reflexivity. }
  destruct P as (y & d & f & h & R & S & O & C & RF & F & B & FO & AN).
  destruct (@fet_drains sha usize_max CAPS tcp_port (map (fun i => CQuery (ex_addr (Datatypes.S i)) (QGetPeers ex_info)) (seq 0 65)) (ex_tids 65) y d f) as (es1 & d1 & h1 & R1 & K1 & _); auto.
  { cbn; lia. }
  { apply ex_tids_nodup. }
  { intros c I. apply in_map_iff in I. destruct I as (i & <- & _). eauto. }
  set (y1 := with_fet (with_sock y (Some d1) []) (Some f) [] (y_peers y)) in *.
  set (f2 := mk_fet (fs_info f) (fs_port f) (fs_nodes f) (y_peers y) false).
  set (y2 := with_fet y1 (Some f2) [CQuery (ex_addr 0) (QAnnounce ex_info tcp_port [x07])] (y_peers y)).
  assert (R2 : yrun sha usize_max CAPS tcp_port y1 [YQuiet] = Some (y2, [(YQuiet, [])])).
  { cbn [yrun ystep y1 with_fet y_fet y_fout y_peers fstep fs_busy]. rewrite B. unfold end_round. cbn [fs_info fs_port fs_nodes fs_peers]. rewrite AN. reflexivity. }
  destruct (@fet_drains sha usize_max CAPS tcp_port [CQuery (ex_addr 0) (QAnnounce ex_info tcp_port [x07])] [[x05]] y2 d1 f2) as (es3 & d3 & h3 & R3 & _ & K3); auto.
  { cbn; lia. }
  { repeat constructor. intros []. }
  { intros c [<-|[]]. eauto. }
  set (y3 := with_fet (with_sock y2 (Some d3) []) (Some f2) [] (y_peers y2)) in *.
  assert (N5 : ~ In [x05] (ex_tids 65)).
  { intro I. unfold ex_tids in I. apply in_map_iff in I. destruct I as (i & E & _). destruct i; discriminate. }
  destruct (@late sha usize_max CAPS tcp_port (ex_tids 65) y3 d3 f2 ex_node [x07] (VNodes (ex_nodes 0))) as (es4 & y4 & h4 & R4 & W & F4 & FO4); auto.
  { apply ex_tids_nodup. }
  { intros t I. rewrite K3 by (intros [<-|[]]; contradiction). destruct (In_nth_error _ _ I) as (i & E).
    assert (LI : i < 65). { assert (NN : nth_error (ex_tids 65) i <> None) by congruence. apply nth_error_Some in NN. rename NN into E'. clear E. rename E' into E. unfold ex_tids in E. rewrite map_length, seq_length in E. exact E. }
    apply (K1 i t (ex_addr (Datatypes.S i)) (QGetPeers ex_info) E). rewrite nth_error_map. rewrite (nth_error_nth' _ 0) by (rewrite seq_length; exact LI). rewrite seq_nth by exact LI. reflexivity. }
  { discriminate. }
  { cbn [y3 with_fet with_sock y_rf y2 y1]. rewrite RF. unfold ex_tids. rewrite map_length, seq_length. reflexivity. }
  assert (RR : yrun sha usize_max CAPS tcp_port (sys_start ex_own secret ex_info [] (t_default ex_own)) (ex_prefix 65 ++ (es1 ++ ([YQuiet] ++ (es3 ++ es4)))) = Some (y4, h ++ (h1 ++ ([(YQuiet, [])] ++ (h3 ++ h4))))).
  { eapply yrun_app; [exact R|]. eapply yrun_app; [exact R1|]. eapply yrun_app; [exact R2|]. eapply yrun_app; [exact R3|exact R4]. }
  assert (SP : search_pausing y4) by (split; [exact FO4|exists f2; auto]).
  eexists _, y4, _. split; [exact RR|]. split; [exact W|]. split; [exact SP|]. intros es' y' h' E NT.
  destruct (@C90_held_up _ _ _ _ _ _ _ _ _ _ _ _ _ _ _ RR W SP E NT) as (A & X & _). auto.
Qed.
(** The hypotheses of C89_wait_ends_partial can be met: a peer told its DHT port
    and the DHT task is about to send a ping. *)
Example C89_wait_example : exists es y h, yrun (fun x => x) 100 CAPS 6881%N (sys_start ex_own ex_own ex_info [] (t_default ex_own)) es = Some (y, h) /\
  dht_sending y /\ 0 < c_cmd CAPS.
Proof.
  exists [YSend; YPort (ex_addr 0); YTurn 0%N ex_pick SPort]. eexists _, _. split; [reflexivity|]. split.
  - eexists _, _. right. reflexivity.
  - apply Nat.ltb_lt. reflexivity.
Qed.
(** Those of C89_forever and C90_held_up are met in C89_no_deadlock_refuted and
    C90_search_independent_refuted; the table of a first start is [reachable]. *)
Example C89_example : reachable (t_default ex_own) /\ wf_id ex_info.
Proof. split; [apply rc_new|]; reflexivity. Qed.

Print Assumptions C89_forever.
Print Assumptions C89_any_capacity.
Print Assumptions C89_no_deadlock_refuted.
Print Assumptions C89_wait_ends_partial.
Print Assumptions C90_held_up.
Print Assumptions C90_search_independent_refuted.
