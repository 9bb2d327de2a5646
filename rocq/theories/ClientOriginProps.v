(** C96: where the peers the client connects to come from. *)
From Coq Require Import List NArith ZArith Lia Bool Arith Permutation.
From Coq Require Import Init.Byte.
From Verif Require Import Base Assoc BitmapModel BitmapProofs IdModel WireModel TableModel PeersModel PeersSpec PeersProofs PeersProps BencodeModel TrackerModel ManagerModel ManagerSpec ManagerProofs ManagerProofs2 ManagerProps
  KrpcModel DhtModel DhtSpec DhtMgrModel FetchModel TaskModel DhtSysModel DhtSysSpec DhtSysProps ClientModel ClientSpec ClientProps ClientInvProps.
Import ListNotations.
Set Implicit Arguments.

Section origin.
Variable sha : bytes -> bytes.
Variable usize_max : nat.
Variable cap : caps.
Variable tcp_port : N.
Variable secret info : ID.
Notation ystep := (ystep sha usize_max cap tcp_port).

(** All peers in the table, and all on the way there, are among [N]. *)
Record src (N : addr -> Prop) (y : sys) : Prop := mk_src {
  sr_sec : forall d, y_sock y = Some d -> d_secret d = secret;
  sr_info : g_info (k_mgr (y_dht y)) = info;
  sr_out : forall p, In (ONewPeer p info) (y_outs y) -> N p;
  sr_vals : forall req fr tok l p, In (OResp req (FGetPeers fr tok (VValues l))) (y_outs y) -> In p l -> N p;
  sr_qry : forall p, In (GNewPeer p info) (y_qry y) -> N p;
  sr_own : forall o, ~ In (GShared o) (y_qry y);
  sr_rf : forall fr tok l p, In (FGetPeers fr tok (VValues l)) (y_rf y) -> In p l -> N p;
  sr_nodup : NoDup (map fst (y_peers y));
  sr_peers : forall p, In p (map fst (y_peers y)) -> N p
}.
Lemma src_mono : forall (N N' : addr -> Prop) y, (forall p, N p -> N' p) -> src N y -> src N' y.
Proof. intros N N' y M [A B C D E F G H I]. split; eauto. Qed.
Lemma src_start : forall N own t, src N (DhtSysModel.sys_start own secret info [] t).
Proof. intros N own t. split; cbn; try (intros; contradiction); auto; [|constructor]. intros d E. injection E as <-. reflexivity. Qed.
Lemma src_peers : forall N y m, src N y -> NoDup (map fst m) -> (forall p, In p (map fst m) -> N p) -> src N (with_peers y m).
Proof. intros N y m [A B C D E F G H I] X Y. split; auto. Qed.
Lemma gstep_src : forall (N : addr -> Prop) now pick s i s' o, gstep now pick s i = Val (s', o) -> NoDup (map fst (g_peers s)) -> (forall p, In p (map fst (g_peers s)) -> N p) -> g_info s = info ->
  (forall p, i = GNewPeer p info -> N p) -> (forall op, i <> GShared op) -> g_info s' = info /\ NoDup (map fst (g_peers s')) /\ forall p, In p (map fst (g_peers s')) -> N p.
Proof.
  intros N now pick s i s' o H ND K I NP NS. destruct i as [tg fr t|ih fr t|p ih|r|dr|a|op]; cbn [gstep] in H.
  - unfold on_find_node in H. destruct (find_node _ _ _); try discriminate. injection H as <- <-. auto.
  - unfold on_get_peers in H. destruct (find_peers pick s ih) as [[m r]| |] eqn:F; try discriminate. cbn [rbind fst snd] in H.
    assert (A : NoDup (map fst m) /\ forall p, In p (map fst m) -> N p).
    { unfold find_peers in F. destruct (q_serve _ _); [|injection F as <- _; auto]. destruct (@step_keys (g_peers s) (QGood (DHT_MTU / COMPACT_PEER_LEN)) ND) as (m' & out & Q & N' & KK). cbn [q_step] in Q. rewrite F in Q. cbn [rmap] in Q. injection Q as <- _.
      split; [exact N'|]. intros p X. apply KK in X. destruct X as [[]|X]; auto. }
    destruct r as [l|]; [injection H as <- <-; cbn; auto|]. destruct (find_node _ _ _); try discriminate. injection H as <- <-. cbn. auto.
  - injection H as <- <-. unfold store_new_peer. destruct (q_serve _ _) eqn:Q; [|cbn; auto]. unfold q_serve in Q. apply bytes_eqb_eq in Q. subst ih. rewrite I in NP. cbn [g_info g_peers]. split; [auto|]. split; [apply NoDup_qset; exact ND|].
    intros q X. apply in_keys_qset in X. destruct X as [->|X]; auto.
  - unfold on_resp in H. destruct r.
    + destruct (touch_node _ _ _ _); try discriminate. injection H as <- <-. auto.
    + destruct (touch_node _ _ _ _); try discriminate. cbn [rbind] in H. destruct (unknown_addrs _ _); try discriminate. injection H as <- <-. auto.
    + injection H as <- <-. auto.
  - unfold refresh_table in H. destruct (iter_over_ids _ _ _); try discriminate. cbn [rbind] in H. destruct (find_nodes_for _ _ _); try discriminate. injection H as <- <-. auto.
  - injection H as <- <-. auto.
  - destruct (NS op eq_refl).
Qed.
Lemma enough_src : forall (N : addr -> Prop) m m' b, NoDup (map fst m) -> (forall p, In p (map fst m) -> N p) -> q_enough usize_max m = Val (m', b) -> NoDup (map fst m') /\ forall p, In p (map fst m') -> N p.
Proof.
  intros N m m' b ND K E. destruct (@step_keys m (QEnough usize_max) ND) as (m1 & out & Q & N' & KK). cbn [q_step] in Q. rewrite E in Q. cbn [rmap fst] in Q. injection Q as <- _. split; [exact N'|]. intros p X. apply KK in X. destruct X as [[]|X]; auto.
Qed.
Lemma fstep_src : forall (N : addr -> Prop) f e f' o, fstep usize_max f e = Val (f', o) -> NoDup (map fst (fs_peers f)) -> (forall p, In p (map fst (fs_peers f)) -> N p) ->
  (forall op, e <> FShared op) -> (forall fr tok l p, e = FResp (FGetPeers fr tok (VValues l)) -> In p l -> N p) -> NoDup (map fst (fs_peers f')) /\ forall p, In p (map fst (fs_peers f')) -> N p.
Proof.
  intros N f e f' o H ND K NS V. destruct e as [|r| |op]; cbn [fstep] in H.
  - destruct (fs_busy f); [discriminate|]. injection H as <- <-. auto.
  - destruct (fs_busy f); [|destruct r; discriminate]. destruct r as [id fr|n fr id|fr tok v]; try (injection H as <- <-; auto).
    destruct (mget addr_eqb fr (fs_nodes f)) as [old|]; [|injection H as <- <-; auto].
    destruct (on_answer usize_max f old fr tok v) as [[[f1 go] q]| |] eqn:A; try discriminate. cbn [rmap] in H.
    assert (E : NoDup (map fst (fs_peers f1)) /\ forall p, In p (map fst (fs_peers f1)) -> N p).
    { unfold on_answer in A. destruct v as [l|n].
      - assert (X : NoDup (map fst (q_extend (fs_peers f) l)) /\ forall p, In p (map fst (q_extend (fs_peers f) l)) -> N p).
        { destruct (@extend_keys l (fs_peers f) ND) as (B & C). split; [exact B|]. intros p X. apply C in X. destruct X as [X|X]; [eapply V; eauto|auto]. }
        destruct X as (X1 & X2). destruct (_ <=? _); [|injection A as <- _ _; auto]. destruct (q_enough _ _) as [[m' b]| |] eqn:Q; try discriminate. cbn [rmap fst] in A. injection A as <- _ _. cbn. eapply enough_src; eauto.
      - destruct (_ <=? _); [|injection A as <- _ _; auto]. destruct (q_enough _ _) as [[m' b]| |] eqn:Q; try discriminate. cbn [rmap fst] in A. injection A as <- _ _. cbn. eapply enough_src; eauto. }
    destruct go; injection H as <- <-; exact E.
  - destruct (fs_busy f); [|discriminate]. injection H as <- <-. auto.
  - destruct (NS op eq_refl).
Qed.
(** What the socket task makes of a message. *)
Lemma dstep_src : forall (N : addr -> Prop) d ev d' os, DhtModel.dstep sha all_there d ev = Val (d', os) -> d_secret d = secret ->
  (forall from m p, ev = EIn from m -> named sha secret info p (CDht (YIn from m)) -> N p) ->
  d_secret d' = secret /\ (forall p, In (ONewPeer p info) os -> N p) /\ forall req fr tok l p, In (OResp req (FGetPeers fr tok (VValues l))) os -> In p l -> N p.
Proof.
  intros N d ev d' os H S NM. destruct ev as [req tg q t|tg t r|from m]; cbn [DhtModel.dstep] in H.
  - unfold send_query in H. destruct (kind_of_msg _); try discriminate. cbn [rbind] in H. injection H as <- <-. cbn. split; [exact S|]. split; [intros p [X|[]]; discriminate|intros ? ? ? ? ? [X|[]]; discriminate].
  - unfold send_reply in H. injection H as <- <-. cbn. split; [exact S|]. split; [intros p [X|[]]; discriminate|intros ? ? ? ? ? [X|[]]; discriminate].
  - destruct m as [t v ro a|t v r|t v er].
    + destruct a; cbn [handle_query to_listener all_there e_listener] in H; unfold send_reply in H; try (injection H as <- <-; cbn; split; [exact S|]; split; [intros p [X|[]]; discriminate|intros ? ? ? ? ? [X|[]]; discriminate]).
      destruct (token_is_valid _ _ _ _) eqn:T; [|injection H as <- <-; cbn; split; [exact S|]; split; [tauto|intros; contradiction]]. cbn [rbind fst snd app] in H. injection H as <- <-. split; [exact S|]. split.
      * intros p [X|[X|[]]]; [|discriminate]. injection X as <- <-. eapply NM; [reflexivity|]. cbn. split; [reflexivity|]. split; [reflexivity|]. unfold token_is_valid, token_for in T. apply bytes_eqb_eq in T. rewrite S in T. exact T.
      * intros ? ? ? ? ? [X|[X|[]]]; discriminate.
    + cbn [handle_resp] in H. unfold handle_resp in H. destruct (pend_get _ _ _) as [pd [req|]]; cbn [all_there e_alive] in H; injection H as <- <-; cbn; (split; [exact S|]); (split; [intros p X; cbn in X; try (destruct X as [X|[]]; discriminate); contradiction|]).
      * intros rq fr tok l p [X|[]]. injection X as <- X. destruct r; cbn in X; try discriminate. injection X as <- <- ->. intro IN. eapply NM; [reflexivity|]. cbn. exact IN.
      * intros ? ? ? ? ? [].
    + injection H as <- <-. split; [exact S|]. split; [intros ? []|intros ? ? ? ? ? []].
Qed.
Lemma ystep_src : forall (N : addr -> Prop) y e y' o, src N y -> ystep y e = Some (y', o) -> (forall op, e <> YShared op) -> (forall p, named sha secret info p (CDht e) -> N p) -> src N y'.
Proof.
  intros N y e y' o S H NS NM. pose proof S as [A B C D E F G I J].
  assert (SOCK : forall z ev, src N z -> (forall from m, ev = EIn from m -> e = YIn from m) -> (exists d, y_sock z = Some d /\ src N (after_sock z (DhtModel.dstep sha all_there d ev))) \/ y_sock z = None).
  { intros z ev SZ EV. destruct (y_sock z) as [d|] eqn:SK; [left|right; reflexivity]. exists d. split; [reflexivity|]. pose proof SZ as [A1 B1 C1 D1 E1 F1 G1 I1 J1].
    destruct (DhtModel.dstep sha all_there d ev) as [[d' os]| |] eqn:DS; cbn [after_sock]; try (split; cbn; auto; try discriminate; intros; contradiction).
    destruct (@dstep_src N d ev d' os DS (A1 _ SK)) as (X & Y & Z). { intros from m p -> NN. apply NM. rewrite (EV from m eq_refl). exact NN. }
    split; cbn; auto. intros d0 E0; injection E0 as <-; exact X. }
  assert (TURN : forall z now pick i, src N z -> (forall p, i = GNewPeer p info -> N p) -> (forall op, i <> GShared op) -> src N (dht_turn z now pick i)).
  { intros z now pick i SZ NP NG. pose proof SZ as [A1 B1 C1 D1 E1 F1 G1 I1 J1]. unfold dht_turn. destruct (gstep now pick (mgr_of z) i) as [[s os]| |] eqn:GS; try (split; cbn; auto; fail).
    destruct (@gstep_src N _ _ _ _ _ _ GS I1 J1 B1 NP NG) as (X & Y & Z). split; cbn; auto. }
  destruct e as [from m|t| | | |now pick s| |n2 n3| | | | |a|op]; cbn [DhtSysModel.ystep] in H.
  - destruct (y_sock y) as [d|] eqn:SK; [|discriminate]. destruct (y_outs y); [|discriminate]. injection H as <- <-. destruct (SOCK y (EIn from m) S) as [(d' & SD & Z)|Z]; [intros f m' X; injection X as <- <-; reflexivity| |congruence]. assert (d' = d) by congruence. subst d'. exact Z.
  - destruct (y_sock y) as [d|] eqn:SK; [|discriminate]. destruct (y_outs y) eqn:OU; [|discriminate]. destruct (y_cmd y) as [|[req c] q]; [discriminate|].
    assert (SQ : src N (with_cmd y q)). { destruct S; split; auto. }
    destruct (SOCK (with_cmd y q) (match c with CQuery target qu => EQuery req target qu t | CReply target t' r => EReply target t' r end) SQ) as [(d' & SD & Z)|Z]; [destruct c; intros; discriminate| |cbn in Z; congruence].
    cbn in SD. assert (d' = d) by congruence. subst d'. injection H as <- <-. exact Z.
  - destruct (y_sock y) as [d|] eqn:SK; [|discriminate]. destruct (y_outs y) as [|x os] eqn:OU; [discriminate|].
    assert (SR : src N (with_sock y (Some d) os)).
    { split; cbn; auto; [intros p X; apply C; right; exact X|intros ? ? ? ? ? X Y; eapply D; [right; exact X|exact Y]]. }
    assert (SN : src N (with_sock y None [])) by (split; cbn; auto; try discriminate; intros; contradiction).
    destruct x as [to m|tg fr t|ih fr t|p ih|req r]; cbn [sock_out] in H; unfold hand_over in H.
    + injection H as <- <-. exact SR.
    + destruct (dht_alive y); [|injection H as <- <-; exact SN]. destruct (_ <? _); [|discriminate]. injection H as <- <-. destruct SR as [A1 B1 C1 D1 E1 F1 G1 I1 J1].
      split; cbn; auto; [intros p X; apply in_app_or in X; destruct X as [X|[X|[]]]; [auto|discriminate]|intros op X; apply in_app_or in X; destruct X as [X|[X|[]]]; [eapply F; eauto|discriminate]].
    + destruct (dht_alive y); [|injection H as <- <-; exact SN]. destruct (_ <? _); [|discriminate]. injection H as <- <-. destruct SR as [A1 B1 C1 D1 E1 F1 G1 I1 J1].
      split; cbn; auto; [intros p X; apply in_app_or in X; destruct X as [X|[X|[]]]; [auto|discriminate]|intros op X; apply in_app_or in X; destruct X as [X|[X|[]]]; [eapply F; eauto|discriminate]].
    + destruct (dht_alive y); [|injection H as <- <-; exact SN]. destruct (_ <? _); [|discriminate]. injection H as <- <-. destruct SR as [A1 B1 C1 D1 E1 F1 G1 I1 J1].
      split; cbn; auto; [intros q X; apply in_app_or in X; destruct X as [X|[X|[]]]; [auto|injection X as -> ->; apply C; left; reflexivity]|intros op X; apply in_app_or in X; destruct X as [X|[X|[]]]; [eapply F; eauto|discriminate]].
    + destruct (req =? DHT).
      * destruct (dht_alive y); [|injection H as <- <-; exact SN]. destruct (_ <? _); [|discriminate]. injection H as <- <-. destruct SR as [A1 B1 C1 D1 E1 F1 G1 I1 J1]. split; cbn; auto.
      * destruct (match y_fet y with Some _ => true | None => false end); [|injection H as <- <-; exact SN]. destruct (_ <? _); [|discriminate]. injection H as <- <-. destruct SR as [A1 B1 C1 D1 E1 F1 G1 I1 J1]. split; cbn; auto.
        intros fr tok l p X Y. apply in_app_or in X. destruct X as [X|[X|[]]]; [eapply G; eauto|]. subst r. eapply D; [left; reflexivity|exact Y].
  - destruct (y_sock y); [|discriminate]. destruct (y_outs y); [|discriminate]. injection H as <- <-. split; cbn; auto; try discriminate; intros; contradiction.
  - destruct (y_sock y); [|discriminate]. destruct (y_outs y); [|discriminate]. destruct (y_cmd y); [|discriminate]. destruct (y_fet y); [discriminate|]. destruct (dht_alive y); [discriminate|]. injection H as <- <-. split; cbn; auto; try discriminate; intros; contradiction.
  - destruct (y_phase y); try discriminate. destruct s.
    + destruct (y_rd y) as [|r q]; [discriminate|]. injection H as <- <-. apply TURN; [split; cbn; auto|discriminate|discriminate].
    + destruct (y_qry y) as [|i q] eqn:Q; [destruct (sock_alive y); [discriminate|]; injection H as <- <-; destruct S; split; auto|].
      injection H as <- <-. apply TURN; [split; cbn; auto; [intros p X; apply E; right; exact X|intros op X; apply (F op); right; exact X]|intros p ->; apply E; left; reflexivity|intros op ->; apply (F op); left; reflexivity].
    + destruct (y_port y) as [|r q]; [discriminate|]. injection H as <- <-. apply TURN; [split; cbn; auto|discriminate|discriminate].
    + destruct (y_port y); [|discriminate]. injection H as <- <-. split; cbn; auto.
    + injection H as <- <-. apply TURN; [exact S|discriminate|discriminate].
    + injection H as <- <-. split; cbn; auto.
  - destruct (y_phase y) as [l| |l|]; try discriminate.
    + destruct l as [|c l]; [injection H as <- <-; split; cbn; auto|]. destruct (sock_alive y); [|injection H as <- <-; split; cbn; auto]. unfold send_cmd in H. destruct (_ <? _); [|discriminate]. injection H as <- <-. split; cbn; auto.
    + destruct l as [|c l]; [discriminate|]. destruct (sock_alive y); [|injection H as <- <-; split; cbn; auto]. unfold send_cmd in H. destruct (_ <? _); [|discriminate]. injection H as <- <-. split; cbn; auto.
  - destruct (y_phase y) as [l| |l|]; try discriminate. destruct l; [|discriminate]. destruct (_ && _); [|injection H as <- <-; split; cbn; auto].
    destruct (spawn_fetcher _ _ _ _ _) as [[f|]| |]; injection H as <- <-; split; cbn; auto.
  - destruct (y_fet y) as [f|]; [|discriminate]. destruct (y_fout y); [|discriminate]. destruct (fstep _ _ _) as [[f' os]| |] eqn:FS; try discriminate; injection H as <- <-; [|split; cbn; auto].
    destruct (@fstep_src N _ _ _ _ FS I J) as (X & Y); [discriminate|discriminate|]. split; cbn; auto.
  - destruct (y_fet y) as [f|]; [|discriminate]. destruct (y_fout y); [|discriminate]. destruct (y_rf y) as [|r q] eqn:RF; [discriminate|]. destruct (fstep _ _ _) as [[f' os]| |] eqn:FS; try discriminate; injection H as <- <-.
    + destruct (@fstep_src N _ _ _ _ FS I J) as (X & Y); [discriminate|intros fr tok l p EQ IN; injection EQ as ->; eapply G; [left; reflexivity|exact IN]|]. split; cbn; auto. intros; eapply G; [right; eassumption|eassumption].
    + split; cbn; auto. intros; eapply G; [right; eassumption|eassumption].
  - destruct (y_fet y) as [f|]; [|discriminate]. destruct (y_fout y); [|discriminate]. destruct (fstep _ _ _) as [[f' os]| |] eqn:FS; try discriminate; injection H as <- <-; [|split; cbn; auto].
    destruct (@fstep_src N _ _ _ _ FS I J) as (X & Y); [discriminate|discriminate|]. split; cbn; auto.
  - destruct (y_fet y) as [f|]; [|discriminate]. destruct (y_fout y) as [|c l]; [discriminate|]. destruct (sock_alive y); [|injection H as <- <-; split; cbn; auto]. unfold send_cmd in H. destruct (_ <? _); [|discriminate]. injection H as <- <-. split; cbn; auto.
  - destruct (_ && _); [|discriminate]. injection H as <- <-. split; cbn; auto.
  - destruct (NS op eq_refl).
Qed.
End origin.

Lemma session_found : forall c t now d e t' o l, session_step c t now d e = Some (t', o) -> In (Found l) o -> exists r, e = Answer r /\ l = r_peers r.
Proof.
  intros c t now d e t' o l H I. destruct e; cbn [session_step] in H; destruct (t_phase t) as [| |iv| |]; try discriminate;
  try (injection H as <- <-; destruct I as [I|[]]; try discriminate; injection I as <-; eauto; fail); try (injection H as <- <-; destruct I; fail).
  - destruct (_ <=? _)%N; [|discriminate]. injection H as <- <-. destruct I as [I|[]]; discriminate.
  - destruct (_ <=? _)%N; [|discriminate]. unfold announce_again in H. destruct (left_bytes _ _); injection H as <- <-; cbn in I; intuition discriminate.
  - destruct (_ =? 0); [discriminate|]. destruct (_ <? _); [injection H as <- <-; destruct I|]. unfold announce_again in H. destruct (left_bytes _ _); injection H as <- <-; cbn in I; intuition discriminate.
  - destruct (left_bytes _ _); injection H as <- <-; cbn in I; intuition discriminate.
Qed.

Lemma gone_known : forall n m p c m', inv n m -> ManagerModel.handle_message m p c = Val m' -> peer_gone c = true -> In p (map fst (m_active m)) \/ m' = m.
Proof.
  intros n m p c m' I H G. destruct c; try discriminate; cbn [ManagerModel.handle_message] in H; unfold mark_inactive in H; destruct (aget p (m_active m)) as [inf|] eqn:E;
  try (left; apply (@aget_spec p _ inf (i_nodup I)) in E; apply (in_map fst) in E; exact E); right; congruence.
Qed.
Section client.
Variable sha : bytes -> bytes.
Variable usize_max : nat.
Variable cap : caps.
Variable tcp_port : N.
Variable cfgs : list tracker_cfg.
Variable hashes : list ID.
Variable secret info : ID.
Notation step := (cstep sha usize_max cap tcp_port cfgs).
Notation run := (crun sha usize_max cap tcp_port cfgs).

(** Named somewhere in a history. *)
Definition told_of (h : list (cev * list cout)) (p : addr) : Prop := exists e, In e (map fst h) /\ named sha secret info p e.
Record oinv (h : list (cev * list cout)) (s : client) : Prop := mk_oinv {
  oi_src : src secret info (told_of h) (q_dht s);
  oi_act : forall m p, q_mgr s = Some m -> In p (map fst (m_active m)) -> told_of h p;
  oi_ina : forall m p, q_mgr s = Some m -> In p (map fst (m_inactive m)) -> told_of h p;
  oi_past : forall h1 e o h2 p, h = h1 ++ (e, o) :: h2 -> In (CConnect p) o -> told_of h1 p
}.
Lemma told_app : forall h x p, told_of h p -> told_of (h ++ [x]) p.
Proof. intros h x p (e & I & N). exists e. split; [rewrite map_app; apply in_or_app; auto|exact N]. Qed.
Lemma told_now : forall h e o p, named sha secret info p e -> told_of (h ++ [(e, o)]) p.
Proof. intros h e o p N. exists e. split; [rewrite map_app; apply in_or_app; right; left; reflexivity|exact N]. Qed.
Lemma past_app : forall h e o, (forall h1 e o h2 p, h = h1 ++ (e, o) :: h2 -> In (CConnect p) o -> told_of h1 p) -> (forall p, In (CConnect p) o -> told_of h p) ->
  forall h1 e1 o1 h2 p, h ++ [(e, o)] = h1 ++ (e1, o1) :: h2 -> In (CConnect p) o1 -> told_of h1 p.
Proof.
  intros h e o P Q h1 e1 o1 h2 p E I. destruct h2 as [|x h2] using rev_ind.
  - apply app_inj_tail in E. destruct E as (-> & E). injection E as <- <-. auto.
  - rewrite app_comm_cons, app_assoc in E. apply app_inj_tail in E. destruct E as (-> & _). eauto.
Qed.
(** A step that leaves the manager alone. *)
Lemma quiet_oinv : forall h s e s' o, oinv h s -> q_mgr s' = q_mgr s -> src secret info (told_of (h ++ [(e, o)])) (q_dht s') -> (forall p, ~ In (CConnect p) o) -> oinv (h ++ [(e, o)]) s'.
Proof.
  intros h s e s' o [A B C D] M S O. split.
  - exact S.
  - intros m p E I. rewrite M in E. apply told_app. eauto.
  - intros m p E I. rewrite M in E. apply told_app. eauto.
  - apply past_app; [exact D|]. intros p I. destruct (O p I).
Qed.
Lemma src_later : forall h x y, src secret info (told_of h) y -> src secret info (told_of (h ++ [x])) y.
Proof. intros h x y S. eapply src_mono; [|exact S]. intros p. apply told_app. Qed.
Lemma deliver_src : forall (N : addr -> Prop) p m s s', src secret info N (q_dht s) -> deliver_all sha usize_max cap tcp_port s (WireModel.handle_message p m) = Some s' -> src secret info N (q_dht s').
Proof.
  intros N p m s s' S H. destruct m; cbn [WireModel.handle_message con_of_message deliver_all deliver] in H;
  try (destruct (tell_mgr s p _) as [s1|] eqn:T; [|discriminate]; injection H as <-; destruct (@tell_rec _ _ _ _ T) as (_ & _ & E & _); rewrite E; exact S).
  - injection H as <-. exact S.
  - destruct (dht_alive (q_dht s)); [|injection H as <-; exact S]. destruct (ystep _ _ _ _ _ _) as [[y o]|] eqn:Y; [|discriminate]. cbn [option_map fst] in H. injection H as <-.
    cbn [with_sys q_dht]. eapply ystep_src; [exact S|exact Y|discriminate|intros q []].
Qed.
Lemma oinv_step : forall h s e s' o, cinv hashes h s -> oinv h s -> step s e = Some (s', o) -> oinv (h ++ [(e, o)]) s'.
Proof.
  intros h s e s' o CI I H. pose proof H as H0. unfold cstep in H. destruct (q_exit s); [discriminate|].
  destruct e as [sent| |i ok|i m|i|i|i lk|i ix bs|i|e|i now e| | |ks ks'].
  - destruct (q_mgr s) as [m|] eqn:M; [|discriminate]. pose proof (reach_inv_m (ci_reach CI M)) as [INV ND]. cbn [fst snd] in INV, ND.
    destruct (@refresh_spec _ m _ INV ND) as (m1 & tab & o1 & RF & INV1 & ND1 & _ & SP). rewrite RF in H.
    destruct (@m_assign_spec _ m1 sent INV1) as (m2 & o2 & AS & INV2 & _ & KA & KI & CA & _). rewrite AS in H. injection H as <- <-.
    destruct (@refresh_conn _ _ _ _ _ RF) as (_ & _ & C3). destruct I as [S A B D].
    assert (X : (forall p, In p (map fst tab) -> told_of h p) /\ (forall p, In p (map fst (m_active m1)) -> told_of h p) /\ (forall p, In p (map fst (m_inactive m1)) -> told_of h p) /\ forall p, In (OSpawn p) o1 -> told_of h p).
    { destruct SP as [SP|(ps & Q & _ & _ & K & IE & _ & SW)].
      - injection SP as -> -> ->. split; [apply S|]. split; [intro; eapply A; eauto|]. split; [intro; eapply B; eauto|]. intros p [].
      - assert (T : forall p, In p (map fst (q_return (y_peers (q_dht s)) (m_inactive m))) -> told_of h p).
        { intros p P. apply (@return_keys (m_inactive m) _ ND) in P. destruct P as [P|P]; [eapply B; eauto|apply (sr_peers S); exact P]. }
        destruct (@return_keys (m_inactive m) _ ND) as (ND2 & _). destruct (@batch_spec (10 - length (m_active m)) _ ND2) as (m' & out & E & G). unfold q_batch in Q. rewrite E in Q. injection Q as -> ->.
        assert (PS : forall p, In p ps -> told_of h p). { intros p P. destruct (gb_eligible G _ P) as (st & r & ST & _). apply T. apply (in_map fst) in ST. exact ST. }
        split; [intros p P; apply T; rewrite <- (gb_same_peers G); exact P|]. split; [intros p P; apply K in P; destruct P as [P|P]; [auto|eapply A; eauto]|]. split; [rewrite IE; intros p []|].
        intros p P. destruct (SW _ P) as (q & EQ & IQ & _). injection EQ as ->. auto. }
    destruct X as (X1 & X2 & X3 & X4). split; cbn [with_mgr with_sys with_cons q_mgr q_dht].
    + apply src_later. apply src_peers; auto.
    + intros m' p E P. destruct (_ && _); [discriminate|]. injection E as <-. apply told_app. apply X2. rewrite <- KA. exact P.
    + intros m' p E P. destruct (_ && _); [discriminate|]. injection E as <-. apply told_app. apply X3. rewrite <- KI. exact P.
    + apply past_app; [exact D|]. intros p P. apply X4. apply in_flat_map in P. destruct P as (x & XI & P). destruct x; cbn in P; [destruct P as [P|[]]; injection P as ->; exact XI|destruct P].
  - destruct (q_mgr s) as [m|] eqn:M; [|discriminate]. destruct (q_rec s) as [|[p c] q] eqn:Q; [discriminate|]. injection H as <- <-. pose proof (reach_inv_m (ci_reach CI M)) as [INV ND]. cbn [fst snd] in INV, ND. destruct I as [S A B D].
    assert (KK : forall m' x, ManagerModel.handle_message m p c = Val m' -> In x (map fst (m_active m')) \/ In x (map fst (m_inactive m')) -> told_of h x).
    { intros m' x HM IN. destruct (@message_inv _ _ _ _ _ INV HM) as (_ & _ & _ & K). destruct (peer_gone c) eqn:G.
      - destruct K as (K1 & st & K2). destruct IN as [IN|IN].
        + rewrite K1 in IN. apply (@adel_keys _ _ _ (i_nodup INV)) in IN. eapply A; [exact M|apply IN].
        + destruct K2 as [K2|(K2 & _)]; rewrite K2 in IN; [|eapply B; eauto]. rewrite map_app in IN. apply in_app_or in IN. destruct IN as [IN|[IN|[]]]; [eapply B; eauto|]. cbn in IN. subst x.
          destruct (@gone_known _ m p c m' INV HM G) as [Z|Z]; [eapply A; eauto|]. subst m'. apply (f_equal (@length _)) in K2. rewrite app_length in K2. cbn in K2. lia.
      - destruct K as (K1 & K2). destruct IN as [IN|IN]; [rewrite K1 in IN; eauto|rewrite K2 in IN; eauto]. }
    split; cbn [with_mgr with_rec q_mgr q_dht].
    + apply src_later. exact S.
    + intros m' x E P. destruct (ManagerModel.handle_message m p c) as [m1| |] eqn:HM; try discriminate. injection E as ->. apply told_app. eauto.
    + intros m' x E P. destruct (ManagerModel.handle_message m p c) as [m1| |] eqn:HM; try discriminate. injection E as ->. apply told_app. eauto.
    + apply past_app; [exact D|]. intros x [].
  - destruct (nth_error (q_cons s) i) as [x|]; [|discriminate]. destruct (_ && _); [|discriminate]. destruct ok; [injection H as <- <-; apply (@quiet_oinv h s); auto; apply src_later; apply I|].
    destruct (tell_mgr s _ _) as [s1|] eqn:T; [|discriminate]. cbn [option_map] in H. injection H as <- <-. destruct (@tell_rec _ _ _ _ T) as (A & _ & B & _). apply (@quiet_oinv h s); auto; cbn [with_cons q_mgr q_dht]; auto. rewrite B. apply src_later. apply I.
  - destruct (nth_error (q_cons s) i) as [x|]; [|discriminate]. destruct (_ && _); [|discriminate]. destruct (deliver_all _ _ _ _ _ _) as [s1|] eqn:D; [|discriminate]. cbn [option_map] in H. injection H as <- <-.
    destruct (@deliver_frame _ _ _ _ _ _ _ _ D) as (A & _). apply (@quiet_oinv h s); auto. apply src_later. eapply deliver_src; [apply I|exact D].
  - destruct (nth_error (q_cons s) i) as [x|]; [|discriminate]. destruct (_ && _); [|discriminate]. injection H as <- <-. apply (@quiet_oinv h s); auto; apply src_later; apply I.
  - destruct (nth_error (q_cons s) i) as [x|]; [|discriminate]. destruct (_ && _); [|discriminate]. injection H as <- <-. apply (@quiet_oinv h s); auto; apply src_later; apply I.
  - destruct (nth_error (q_cons s) i) as [x|]; [|discriminate]. destruct (pc_dl x); [|discriminate]. injection H as <- <-. apply (@quiet_oinv h s); auto; apply src_later; apply I.
  - destruct (nth_error (q_cons s) i) as [x|]; [|discriminate]. destruct (pc_dl x); [|discriminate]. destruct (tell_mgr s _ _) as [s1|] eqn:T; [|discriminate]. cbn [option_map] in H. injection H as <- <-. destruct (@tell_rec _ _ _ _ T) as (A & _ & B & _). apply (@quiet_oinv h s); auto. rewrite B. apply src_later. apply I.
  - destruct (nth_error (q_cons s) i) as [x|]; [|discriminate]. destruct (q_mgr s) eqn:M; [discriminate|]. destruct (_ && _); [|discriminate]. injection H as <- <-. apply (@quiet_oinv h s); auto; apply src_later; apply I.
  - destruct (dht_ok s e) eqn:OK; [|discriminate]. destruct (ystep _ _ _ _ _ _) as [[y o']|] eqn:Y; [|discriminate]. cbn [option_map fst snd] in H. injection H as <- <-.
    apply (@quiet_oinv h s); auto; [|intros p IN; apply in_map_iff in IN; destruct IN as (? & ? & _); discriminate]. cbn [with_sys q_dht]. eapply ystep_src; [apply src_later; apply I|exact Y|intros op ->; discriminate OK|]. intros p N. apply told_now. exact N.
  - destruct (nth_error cfgs i) as [c|]; [|discriminate]. destruct (nth_error (q_trk s) i) as [t|]; [|discriminate]. destruct (trk_ok s e); [|discriminate]. destruct (session_step _ _ _ _ _) as [[t' o']|] eqn:SS; [|discriminate]. cbn [option_map fst snd] in H. injection H as <- <-.
    apply (@quiet_oinv h s); auto; [|intros p IN; apply in_flat_map in IN; destruct IN as (x & _ & IN); destruct x; cbn in IN; [destruct IN as [IN|[]]; discriminate|destruct IN]].
    cbn [with_sys with_trk q_dht]. pose proof (src_later (CTrk i now e, flat_map trk_out o') (oi_src I)) as S.
    assert (F : forall os m, (forall l, In (Found l) os -> In (Found l) o') -> NoDup (map fst m) -> (forall p, In p (map fst m) -> told_of (h ++ [(CTrk i now e, flat_map trk_out o')]) p) ->
      NoDup (map fst (fold_left trk_found os m)) /\ forall p, In p (map fst (fold_left trk_found os m)) -> told_of (h ++ [(CTrk i now e, flat_map trk_out o')]) p).
    { induction os as [|x os IH]; intros m SUB N1 N2; cbn [fold_left]; [auto|]. apply IH; [intros l L; apply SUB; right; exact L| |]; destruct x as [a|l]; cbn [trk_found]; auto; destruct (@extend_keys l m N1) as (E1 & E2); auto.
      intros p P. apply E2 in P. destruct P as [P|P]; [|auto]. destruct (@session_found _ _ _ _ _ _ _ l SS (SUB l (or_introl eq_refl))) as (r & -> & ->). apply told_now. exact P. }
    destruct (F o' (y_peers (q_dht s)) (fun l L => L) (sr_nodup S) (sr_peers S)) as (F1 & F2). apply src_peers; auto.
  - destruct (q_sig s); [discriminate|]. injection H as <- <-. apply (@quiet_oinv h s); auto; apply src_later; apply I.
  - destruct (_ && _); [|discriminate]. injection H as <- <-. apply (@quiet_oinv h s); auto; apply src_later; apply I.
  - injection H as <- <-. destruct I as [S A B D]. split; cbn [with_mgr with_sys q_mgr q_dht].
    + apply src_peers; [apply src_later; exact S| |].
      * eapply Permutation_NoDup; [apply Permutation_map; apply reorder_perm|apply S].
      * intros p P. apply told_app. apply (sr_peers S). eapply Permutation_in; [|exact P]. apply Permutation_sym. apply Permutation_map. apply reorder_perm.
    + intros m' p E P. destruct (q_mgr s) as [m|] eqn:M; [|discriminate]. injection E as <-. apply told_app. eapply A; [reflexivity|]. cbn [with_active m_active] in P. eapply Permutation_in; [|exact P]. apply Permutation_sym. apply Permutation_map. apply reorder_perm.
    + intros m' p E P. destruct (q_mgr s) as [m|] eqn:M; [|discriminate]. injection E as <-. apply told_app. eapply B; [reflexivity|exact P].
    + apply past_app; [exact D|]. intros p [].
Qed.
Lemma oinv_run : forall own fs_ok t now es s h, run (client_start cfgs own secret info hashes fs_ok t now) es = Some (s, h) -> oinv h s.
Proof.
  intros own fs_ok t now es s h R. enough (X : cinv hashes h s /\ oinv h s) by apply X.
  apply (@crun_inv sha usize_max cap tcp_port cfgs (fun h s => cinv hashes h s /\ oinv h s) (client_start cfgs own secret info hashes fs_ok t now)) with (es := es); [|clear es s h R|exact R].
  - cbv beta. apply conj; [apply (cinv_start sha)|]. apply mk_oinv; [apply src_start| | |].
    + intros m p E P. cbn in E. destruct fs_ok; [|discriminate]. destruct (m_init hashes) as [m0| |] eqn:MI; try discriminate. injection E as ->. unfold m_init in MI. destruct (bm_new _); try discriminate. injection MI as <-. destruct P.
    + intros m p E P. cbn in E. destruct fs_ok; [|discriminate]. destruct (m_init hashes) as [m0| |] eqn:MI; try discriminate. injection E as ->. unfold m_init in MI. destruct (bm_new _); try discriminate. injection MI as <-. destruct P.
    + intros h1 e o h2 p E. destruct h1; discriminate.
  - intros h s e s' o (A & B) H. split; [eapply cinv_step; eauto|eapply oinv_step; eauto].
Qed.
(** Every peer the client connects to was named to it before, by a tracker, by a
    DHT node asked for peers of this torrent, or by the peer itself announcing
    for this torrent with the token it had been given. *)
Theorem C96_origin : forall own fs_ok t now es s h h1 e o h2 p, run (client_start cfgs own secret info hashes fs_ok t now) es = Some (s, h) ->
  h = h1 ++ (e, o) :: h2 -> In (CConnect p) o -> exists e', In e' (map fst h1) /\ named sha secret info p e'.
Proof. intros own fs_ok t now es s h h1 e o h2 p R E I. exact (@oi_past _ _ (@oinv_run _ _ _ _ _ _ _ R) h1 e o h2 p E I). Qed.
End client.

(** A peer that announces itself with the token it was given is connected to,
    one that made up a token is not. *)
Definition ex_announce (token : bytes) : list cev :=
  [CDht YSend; CDht (YIn ex_peer (announce_peer_query ex_node ex_info 7000 token [])); CDht YOut; CDht YOut].
Example C96_origin_example : exists s h, crun (fun x => x) 100 CAPS 6881 [ex_cfg] (ex_client ex_own)
    (ex_announce (ex_own ++ addr_octets ex_peer) ++ [CDht (YTurn 0 ex_pick SQuery); CTick (fun _ => true)]) = Some (s, h)
  /\ connects h = [mk_addr x01 x02 x03 x04 7000] /\ Exists (named (fun x => x) ex_own ex_info (mk_addr x01 x02 x03 x04 7000)) (map fst h).
Proof. eexists _, _. split; [vm_compute; reflexivity|]. split; [reflexivity|]. right. left. cbn. auto. Qed.
Example C96_forged_example : exists s h, crun (fun x => x) 100 CAPS 6881 [ex_cfg] (ex_client ex_own) (firstn 2 (ex_announce [x00]) ++ [CTick (fun _ => true)]) = Some (s, h)
  /\ connects h = [] /\ map fst (y_peers (q_dht s)) = [].
Proof. eexists _, _. split; [vm_compute; reflexivity|]. auto. Qed.

Print Assumptions C96_origin.
