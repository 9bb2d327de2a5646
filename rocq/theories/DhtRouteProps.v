(** C92: responses reach the task that asked, each query's at most once; C83 for
    the DHT as a whole: one search, started when there is a good node. *)
From Coq Require Import List NArith ZArith Lia Bool Arith.
From Coq Require Import Init.Byte.
From Verif Require Import Base Assoc IdModel WireModel TableModel TableSpec PeersModel PeersSpec BencodeModel KrpcModel DhtModel DhtSpec DhtMgrModel FetchModel TaskModel TaskProps
  DhtSysModel DhtSysSpec DhtSysProps ReplyProps DhtRouteSpec.
Import ListNotations.
Set Implicit Arguments.

Section route.
Variable sha : bytes -> bytes.
Variable usize_max : nat.
Variable cap : caps.
Variable tcp_port : N.
Notation step := (ystep sha usize_max cap tcp_port).
Notation run := (yrun sha usize_max cap tcp_port).

(** ** whose commands are whose *)
Definition cmd_of (b : bool) (c : to_con) : Prop :=
  match c with CQuery _ (QPing | QFindNode _) => b = true | CQuery _ (QGetPeers _ | QAnnounce _ _ _) => b = false | CReply _ _ _ => True end.
Definition kind_dht (k : kind) : bool := match k with KPing | KFindNode => true | _ => false end.
Definition phase_of (p : phase) : Prop := match p with PStart l | PSend l => Forall (cmd_of true) l | _ => True end.
Record tidy (y : sys) : Prop := mk_tidy {
  td_cmd : Forall (fun c : nat * to_con => cmd_of (fst c =? DHT) (snd c)) (y_cmd y);
  td_phase : phase_of (y_phase y);
  td_fout : Forall (cmd_of false) (y_fout y);
  td_pend : forall d, y_sock y = Some d -> Forall (fun e : bytes * (kind * nat) => kind_dht (fst (snd e)) = (snd (snd e) =? DHT)) (d_pending d);
  td_outs : cnt (fun o => match o with OSend _ (MQuery _ _ _ _) => true | _ => false end) (y_outs y) = 0 \/ exists to m, y_outs y = [OSend to m] }.

Lemma gstep_cmds : forall now pick s i s' o, gstep now pick s i = Val (s', o) -> Forall (cmd_of true) o.
Proof.
  intros now pick s i s' o H. destruct i as [tg from t'|ih from t'|p ih|r|draws|ad|q]; cbn [gstep] in H.
  - unfold on_find_node in H. destruct (find_node now (g_table s) tg) as [[n|]| |]; try discriminate; injection H as <- <-; repeat constructor.
  - unfold on_get_peers in H. destruct (find_peers pick s ih) as [[m [l|]]| |]; try discriminate; cbn [rbind fst snd] in H.
    + injection H as <- <-. repeat constructor.
    + destruct (find_node now (g_table s) ih) as [[n|]| |]; try discriminate; injection H as <- <-; repeat constructor.
  - injection H as <- <-. constructor.
  - unfold on_resp in H. destruct r as [id from|n from id|from tk v].
    + destruct (touch_node now id from (g_table s)); try discriminate. injection H as <- <-. constructor.
    + destruct (touch_node now id from (g_table s)) as [tt| |]; try discriminate. cbn [rbind] in H. destruct (unknown_addrs tt (nodes_list n)); try discriminate. injection H as <- <-.
      apply Forall_forall. intros x X. apply in_map_iff in X. destruct X as (z & <- & _). reflexivity.
    + injection H as <- <-. constructor.
  - unfold refresh_table in H. destruct (iter_over_ids now (g_table s) draws) as [ids| |]; try discriminate. cbn [rbind] in H.
    destruct (find_nodes_for now (g_table s) ids) as [l| |] eqn:E; try discriminate. injection H as <- <-.
    revert l E. induction ids as [|i ids IH]; intros l E; cbn [find_nodes_for] in E; [injection E as <-; constructor|].
    destruct (get_closest_nodes now (g_table s) i) as [c| |]; try discriminate. cbn [rbind] in E. destruct (find_nodes_for now (g_table s) ids) as [l'| |]; try discriminate.
    injection E as <-. apply Forall_app. split; [|auto]. destruct c as [[|n ?]|]; repeat constructor.
  - injection H as <- <-. repeat constructor.
  - destruct (q_step (g_peers s) q) as [[? ?]| |]; try discriminate. injection H as <- <-. constructor.
Qed.
Lemma announce_cmds : forall p ih m, Forall (cmd_of false) (announce_peer p ih m).
Proof. intros. apply Forall_forall. intros c C. unfold announce_peer in C. apply in_map_iff in C. destruct C as ([ad tk] & <- & _). reflexivity. Qed.
Lemma new_nodes_cmds : forall ih l m, Forall (cmd_of false) (snd (new_nodes ih l m)).
Proof. intros ih l. induction l as [|n l IH]; intro m; cbn [new_nodes]; [constructor|]. destruct (mhas addr_eqb (n_addr n) m); [apply IH|]. cbn [snd]. constructor; [reflexivity|apply IH]. Qed.
Lemma fstep_cmds : forall f e f' o, fstep usize_max f e = Val (f', o) -> Forall (cmd_of false) o.
Proof.
  intros f e f' o H. destruct e as [|r| |q]; cbn [fstep] in H.
  - destruct (fs_busy f); try discriminate. injection H as <- <-. apply Forall_forall. intros c C. apply in_map_iff in C. destruct C as (z & <- & _). reflexivity.
  - destruct r as [id from|n from id|from tk v], (fs_busy f); try discriminate; try (injection H as <- <-; constructor; fail).
    destruct (mget addr_eqb from (fs_nodes f)) as [old|]; [|injection H as <- <-; constructor].
    unfold on_answer in H. destruct v as [l|n].
    + destruct (ACTIVE_CLOSE_NODES_CAP_HIGH <=? _).
      * destruct (q_enough usize_max _) as [[m [|]]| |]; try discriminate; cbn [rmap fst snd negb app] in H; injection H as <- <-; [apply announce_cmds|constructor].
      * cbn [rmap] in H. injection H as <- <-. constructor.
    + pose proof (new_nodes_cmds (fs_info f) (nodes_list n) (mset addr_eqb from (FPeerless (f_id old) tk) (fs_nodes f))) as Q.
      destruct (new_nodes (fs_info f) (nodes_list n) (mset addr_eqb from (FPeerless (f_id old) tk) (fs_nodes f))) as [m q].
      cbn [fst snd] in H, Q. destruct (ACTIVE_CLOSE_NODES_CAP_HIGH <=? _).
      * destruct (q_enough usize_max _) as [[m' [|]]| |]; try discriminate; cbn [rmap fst snd negb] in H; injection H as <- <-; [|auto].
        apply Forall_app. split; [auto|apply announce_cmds].
      * cbn [rmap] in H. injection H as <- <-. auto.
  - destruct (fs_busy f); try discriminate. injection H as <- <-. apply announce_cmds.
  - destruct (q_step (fs_peers f) q) as [[? ?]| |]; try discriminate. injection H as <- <-. constructor.
Qed.

(** ** the socket task *)
Variable b : bool.
Definition mine (req : nat) : bool := Bool.eqb (req =? DHT) b.
Definition r_out (o : out) : bool := match o with OResp req _ => mine req | _ => false end.
Definition q_out (o : out) : bool := match o with OSend to m => own_query b (to, m) | _ => false end.
Definition r_pend (e : bytes * (kind * nat)) : bool := mine (snd (snd e)).
Definition pend (y : sys) : nat := match y_sock y with Some d => cnt r_pend (d_pending d) | None => 0 end.
Definition queued (y : sys) : nat := if b then length (y_rd y) else length (y_rf y).

Lemma cnt_mset : forall t v (p : pending), cnt r_pend (mset bytes_eqb t v p) <= cnt r_pend p + (if mine (snd v) then 1 else 0).
Proof.
  intros t v p. induction p as [|[t' v'] p IH]; cbn [mset].
  - rewrite cnt_cons, cnt_nil. unfold r_pend. cbn [snd]. lia.
  - destruct (bytes_eqb t t'); rewrite !cnt_cons; [unfold r_pend at 1; cbn [snd]; lia|lia].
Qed.
Lemma mset_cnt : forall t v (p : pending), (if mine (snd v) then 1 else 0) <= cnt r_pend (mset bytes_eqb t v p).
Proof.
  intros t v p. induction p as [|[t' v'] p IH]; cbn [mset].
  - rewrite cnt_cons, cnt_nil. unfold r_pend. cbn [snd]. lia.
  - destruct (bytes_eqb t t'); rewrite !cnt_cons; [unfold r_pend at 1; cbn [snd]; lia|lia].
Qed.
Lemma cnt_mdel : forall t v (p : pending), mget bytes_eqb t p = Some v -> cnt r_pend (mdel bytes_eqb t p) + (if mine (snd v) then 1 else 0) = cnt r_pend p.
Proof.
  intros t v p. induction p as [|[t' v'] p IH]; cbn [mget mdel]; [discriminate|]. destruct (bytes_eqb t t'); intro H; rewrite !cnt_cons.
  - injection H as <-. unfold r_pend at 2. cbn [snd]. lia.
  - specialize (IH H). lia.
Qed.
Lemma mset_pend : forall (P : bytes * (kind * nat) -> Prop) t v p, (forall t, P (t, v)) -> Forall P p -> Forall P (mset bytes_eqb t v p).
Proof. intros P t v p H F. induction F as [|[t' v'] p X F IH]; cbn [mset]; [repeat constructor; auto|]. destruct (bytes_eqb t t'); constructor; auto. Qed.

Lemma in_route : forall d from m d' o, dstep sha all_there d (EIn from m) = Val (d', o) ->
  Forall (fun e : bytes * (kind * nat) => kind_dht (fst (snd e)) = (snd (snd e) =? DHT)) (d_pending d) ->
  Forall (fun e : bytes * (kind * nat) => kind_dht (fst (snd e)) = (snd (snd e) =? DHT)) (d_pending d') /\
  cnt (fun o => match o with OSend _ (MQuery _ _ _ _) => true | _ => false end) o = 0 /\
  cnt q_out o = 0 /\ cnt r_out o + cnt r_pend (d_pending d') <= cnt r_pend (d_pending d) /\ cnt r_out o <= (if own_answer b (YIn from m) then 1 else 0).
Proof.
  intros d from m d' o H F. destruct m as [t' y' q args|t' y' r|t' y' e]; cbn [dstep] in H.
  - unfold handle_query in H. destruct args as [id ih p token|id tg|id ih|id]; [destruct (token_is_valid sha d token from)| | |];
    cbn [to_listener all_there e_listener rbind fst snd send_reply app] in H; unfold send_reply in H; injection H as <- <-; (split; [exact F|]); unfold cnt; cbn; lia.
  - unfold handle_resp, pend_get in H. destruct (mget bytes_eqb t' (d_pending d)) as [[k req]|] eqn:G.
    + destruct (kind_eqb k (kind_of_resp r)) eqn:K; cbn [all_there e_alive] in H; injection H as <- <-; cbn [d_pending].
      * pose proof (cnt_mdel _ _ G) as C. cbn [snd] in C. rewrite !cnt_cons, !cnt_nil. cbn [r_out own_answer]. split.
        { apply Forall_forall. intros x X. apply mdel_incl in X. rewrite Forall_forall in F. auto. }
        assert (E : (answers r) = (req =? DHT)).
        { apply (@mget_in _ _ bytes_eqb) in G; [|intros; apply bytes_eqb_eq]. rewrite Forall_forall in F. specialize (F _ G). cbn [fst snd] in F. rewrite <- F. destruct k, r; try discriminate; reflexivity. }
        unfold mine in C |- *. rewrite E. split; [reflexivity|]. split; [reflexivity|]. destruct (Bool.eqb (req =? DHT) b); lia.
      * split; [exact F|]. unfold cnt; cbn; lia.
    + injection H as <- <-. split; [exact F|]. unfold cnt; unfold cnt; cbn; lia.
  - injection H as <- <-. split; [exact F|]. unfold cnt; cbn; lia.
Qed.
Lemma cmd_route : forall d req c t' d' o, dstep sha all_there d (match c with CQuery tg qu => EQuery req tg qu t' | CReply tg t' r => EReply tg t' r end) = Val (d', o) ->
  cmd_of (req =? DHT) c ->
  Forall (fun e : bytes * (kind * nat) => kind_dht (fst (snd e)) = (snd (snd e) =? DHT)) (d_pending d) ->
  Forall (fun e : bytes * (kind * nat) => kind_dht (fst (snd e)) = (snd (snd e) =? DHT)) (d_pending d') /\
  (exists to m, o = [OSend to m]) /\ cnt r_out o = 0 /\ cnt r_pend (d_pending d') <= cnt r_pend (d_pending d) + cnt q_out o /\ cnt q_out o <= cnt r_pend (d_pending d').
Proof.
  intros d req c t' d' o H C F. destruct c as [tg qu|tg t2 r]; cbn [dstep] in H.
  - unfold send_query in H. destruct qu; cbn [query_message kind_of_msg kind_of_args rbind tid] in H; injection H as <- <-; cbn [d_pending cmd_of] in *;
    (split; [apply mset_pend; [intro; cbn [fst snd kind_dht]; congruence|exact F]|]); (split; [eauto|]); (split; [reflexivity|]);
    unfold pend_insert; match goal with |- context [mset bytes_eqb ?t ?v ?p] => pose proof (cnt_mset t v p) as C1; pose proof (mset_cnt t v p) as C2 end; revert C1 C2; rewrite cnt_cons, cnt_nil; cbn [snd q_out own_query asks ping_query find_nodes_query get_peers_query announce_peer_query]; unfold mine; rewrite C; intros; lia.
  - unfold send_reply in H. injection H as <- <-. split; [exact F|]. split; [eauto|]. split; [reflexivity|]. rewrite cnt_cons, cnt_nil. destruct r; cbn [q_out own_query resp_message ping_resp find_nodes_resp get_peers_resp announce_peer_resp]; cbn; lia.
Qed.

Ltac yc := cbn [with_sock with_cmd with_qry with_rd with_rf with_port with_phase with_dht with_fet with_peers with_stored
  y_sock y_outs y_qry y_rd y_rf y_phase y_cmd y_fout y_fet y_dht phase_of].
Ltac cc := rewrite ?app_length, ?cnt_app, ?cnt_cons, ?cnt_nil; cbn [length snd fst].
(** One step keeps the order, and takes no more than was on its way. *)
Lemma route_step : forall y e y' o, tidy y -> cnt q_out (y_outs y) <= pend y -> step y e = Some (y', o) -> tidy y' /\
  (if takes b e then 1 else 0) + queued y' + cnt r_out (y_outs y') + pend y' + cnt q_out (y_outs y) <=
    queued y + cnt r_out (y_outs y) + pend y + cnt q_out (y_outs y') + cnt (own_query b) o /\
  (if takes b e then 1 else 0) + queued y' + cnt r_out (y_outs y') <= queued y + cnt r_out (y_outs y) + (if own_answer b e then 1 else 0) /\
  cnt q_out (y_outs y') <= pend y'.
Proof.
  intros y e y' o [T1 T2 T3 T4 T5] QP H. unfold pend in QP. destruct e as [from m|t'| | | |now pick sr| |now2 now3| | | | |ad|q]; cbn [ystep] in H.
  - destruct (y_sock y) as [d|] eqn:S; [|discriminate]. destruct (y_outs y) eqn:O; [|discriminate]. injection H as <- <-. unfold pend, queued. rewrite S. cbn [takes].
    match goal with |- context [after_sock ?z ?x] => destruct x as [[d' os]| |] eqn:D end; cbn [after_sock]; yc; rewrite ?cnt_nil.
    + destruct (@in_route d from m d' os D (T4 _ eq_refl)) as (A & A2 & B & C & E). split; [split; yc; auto; intros ? Q; injection Q as <-; exact A|]. split; [lia|]. cbn [own_answer] in *. lia.
    + split; [split; yc; auto; discriminate|]. lia.
    + split; [split; yc; auto; discriminate|]. lia.
  - destruct (y_sock y) as [d|] eqn:S; [|discriminate]. destruct (y_outs y) eqn:O; [|discriminate]. destruct (y_cmd y) as [|[req c] cq] eqn:C; [discriminate|]. injection H as <- <-.
    unfold pend, queued. rewrite S. inversion T1; subst. cbn [takes own_answer fst snd] in *.
    match goal with |- context [after_sock ?z ?x] => destruct x as [[d' os]| |] eqn:D end; cbn [after_sock]; yc; rewrite ?cnt_nil.
    + destruct (@cmd_route d req c t' d' os D H1 (T4 _ eq_refl)) as (A & B & E & G). split; [split; yc; auto; intros ? Q; injection Q as <-; exact A|]. lia.
    + split; [split; yc; auto; discriminate|]. lia.
    + split; [split; yc; auto; discriminate|]. lia.
  - destruct (y_sock y) as [d|] eqn:S; [|discriminate]. destruct (y_outs y) as [|x os] eqn:O; [discriminate|]. unfold pend, queued. rewrite S, !cnt_cons. cbn [takes own_answer].
    assert (TO : cnt (fun o => match o with OSend _ (MQuery _ _ _ _) => true | _ => false end) os = 0).
    { destruct T5 as [Z|(to & m & Z)]; [rewrite cnt_cons in Z; lia|]. injection Z as -> ->. reflexivity. }
    assert (QO : cnt q_out os = 0).
    { clear - TO. induction os as [|z os IH]; [reflexivity|]. rewrite cnt_cons in *. destruct z as [to [| |]| | | |]; cbn [q_out own_query] in *; try lia. }
    unfold sock_out, hand_over in H. destruct x as [to m|tg fr tt|ih fr tt|p ih|req r]; [| | | |destruct (req =? DHT) eqn:RD];
    repeat match type of H with context [if ?b then _ else _] => destruct b eqn:? end; try discriminate; injection H as <- <-;
    (split; [split; yc; auto; intros ? Q; first [discriminate Q|injection Q as <-; auto]|]); yc; cc; cbn [r_out q_out]; unfold mine; rewrite ?RD; try (destruct b; cbn [Bool.eqb]; cc; lia).
  - destruct (y_sock y) eqn:S; [|discriminate]. destruct (y_outs y) eqn:O; [|discriminate]. injection H as <- <-. unfold pend, queued. rewrite S. yc. cbn [takes own_answer].
    split; [split; yc; auto; discriminate|]. cc. lia.
  - inv_step H. unfold pend, queued. yc. cbn [takes own_answer]. rewrite ?Heql, ?Heqo0. split; [split; yc; rewrite ?Heql0; auto; discriminate|]. cc. lia.
  - destruct (y_phase y) eqn:P; try discriminate.
    assert (TR : forall z i, y_outs z = y_outs y -> y_cmd z = y_cmd y -> y_fout z = y_fout y -> y_sock z = y_sock y -> y_rf z = y_rf y ->
      tidy (dht_turn z now pick i) /\ y_outs (dht_turn z now pick i) = y_outs y /\ pend (dht_turn z now pick i) = pend y /\
      y_rd (dht_turn z now pick i) = y_rd z /\ y_rf (dht_turn z now pick i) = y_rf y).
    { intros z i E1 E2 E3 E4 E5. unfold dht_turn, pend. destruct (gstep now pick (mgr_of z) i) as [[s os]| |] eqn:G; yc; rewrite ?E1, ?E4, ?E5;
      (split; [split; yc; rewrite ?E1, ?E2, ?E3, ?E4; auto; try (eapply gstep_cmds; exact G)|]); auto. }
    assert (GO : forall z, z = y \/ (exists q, z = with_qry y q) \/ (exists q, z = with_port y q) -> forall i, tidy (dht_turn z now pick i) /\
      0 + queued (dht_turn z now pick i) + cnt r_out (y_outs (dht_turn z now pick i)) + pend (dht_turn z now pick i) + cnt q_out (y_outs y) <=
      queued y + cnt r_out (y_outs y) + pend y + cnt q_out (y_outs (dht_turn z now pick i)) + cnt (own_query b) (@nil (addr * kmsg)) /\
      0 + queued (dht_turn z now pick i) + cnt r_out (y_outs (dht_turn z now pick i)) <= queued y + cnt r_out (y_outs y) + 0 /\ cnt q_out (y_outs (dht_turn z now pick i)) <= pend (dht_turn z now pick i)).
    { intros z Z i. destruct (TR z i) as (A & B & C & D & E); try (destruct Z as [-> |[(q & ->)|(q & ->)]]; reflexivity).
      assert (Q : y_rd z = y_rd y) by (destruct Z as [-> |[(q & ->)|(q & ->)]]; reflexivity). split; [exact A|]. unfold queued. rewrite B, C, D, E, Q. unfold pend. cc. lia. }
    assert (GN : forall z, z = y \/ (exists t, z = with_stored y t) -> tidy (with_phase z PGone) /\
      0 + queued (with_phase z PGone) + cnt r_out (y_outs (with_phase z PGone)) + pend (with_phase z PGone) + cnt q_out (y_outs y) <=
      queued y + cnt r_out (y_outs y) + pend y + cnt q_out (y_outs (with_phase z PGone)) + cnt (own_query b) (@nil (addr * kmsg)) /\
      0 + queued (with_phase z PGone) + cnt r_out (y_outs (with_phase z PGone)) <= queued y + cnt r_out (y_outs y) + 0 /\ cnt q_out (y_outs (with_phase z PGone)) <= pend (with_phase z PGone)).
    { intros z [-> |(t & ->)]; (split; [split; yc; auto|]); unfold queued, pend; yc; cc; lia. }
    destruct sr; cbn [takes own_answer].
    + destruct (y_rd y) as [|r rq] eqn:RD; [discriminate|]. injection H as <- <-. destruct (TR (with_rd y rq) (GResp r)) as (A & B & C & D & E); auto. split; [exact A|].
      unfold queued. rewrite B, C, D, E, RD. unfold pend. yc. cc. destruct b; lia.
    + destruct (y_qry y) as [|i qq] eqn:Q.
      * inv_step H. apply GN. auto.
      * injection H as <- <-. apply GO. eauto.
    + destruct (y_port y); [discriminate|]. injection H as <- <-. apply GO. eauto.
    + inv_step H. apply GN. auto.
    + injection H as <- <-. apply GO. auto.
    + injection H as <- <-. apply GN. eauto.
  - inv_step H; try match goal with E : send_cmd _ _ _ _ = Some _ |- _ => apply send_frame in E; destruct E as (-> & _) end;
    cbn [phase_of] in T2; unfold queued, pend; yc; cbn [takes own_answer];
    (split; [split; yc; auto; try (apply Forall_app; split; [auto|repeat constructor; cbn [fst snd]; inversion T2; auto]); try (inversion T2; auto)|]); cc; lia.
  - inv_step H; unfold queued, pend; yc; cbn [takes own_answer]; (split; [split; yc; auto|]); cc; lia.
  - inv_step H; unfold queued, pend; yc; cbn [takes own_answer]; (split; [split; yc; auto; eapply fstep_cmds; eauto|]); cc; lia.
  - inv_step H; unfold queued, pend; yc; cbn [takes own_answer]; (split; [split; yc; auto; eapply fstep_cmds; eauto|]);
    match goal with E : y_rf y = _ |- _ => rewrite E end; destruct b; cbn [negb]; cc; lia.
  - inv_step H; unfold queued, pend; yc; cbn [takes own_answer]; (split; [split; yc; auto; eapply fstep_cmds; eauto|]); cc; lia.
  - inv_step H; try match goal with E : send_cmd _ _ _ _ = Some _ |- _ => apply send_frame in E; destruct E as (-> & _) end;
    unfold queued, pend; yc; cbn [takes own_answer];
    (split; [split; yc; auto; try (apply Forall_app; split; [auto|repeat constructor; cbn [fst snd]; inversion T3; auto]); try (inversion T3; auto)|]); cc; lia.
  - inv_step H. unfold queued, pend; yc; cbn [takes own_answer]. split; [split; yc; auto|]. cc. lia.
  - inv_step H. unfold queued, pend; yc; cbn [takes own_answer]. split; [split; yc; auto|]. cc. lia.
Qed.
Lemma tidy_start : forall own secret info m t, tidy (sys_start own secret info m t).
Proof.
  intros. split; cbn [sys_start y_cmd y_phase y_fout y_sock y_outs phase_of]; auto.
  - apply Forall_forall. intros c C. unfold start_pings in C. apply in_map_iff in C. destruct C as (n & <- & _). reflexivity.
  - intros d Q. injection Q as <-. constructor.
Qed.
End route.
(** A task takes at most as many responses as it asked for and as came in for
    it: the DHT task to its pings and find_nodes, the search to its get_peers
    and announces. No response goes to the wrong task or is taken twice. *)
Theorem C92_matched : forall sha usize_max cap tcp_port own secret info m t es y h b,
  yrun sha usize_max cap tcp_port (sys_start own secret info m t) es = Some (y, h) -> taken b h <= queries b h /\ taken b h <= answered b h.
Proof.
  intros sha usize_max cap tcp_port own secret info m t es y h b R.
  assert (I : tidy y /\ cnt (q_out b) (y_outs y) <= pend b y /\ taken b h + queued b y + cnt (r_out b) (y_outs y) + pend b y <= queries b h + cnt (q_out b) (y_outs y) /\
    taken b h + queued b y + cnt (r_out b) (y_outs y) <= answered b h).
  { revert R. apply (@yrun_inv sha usize_max cap tcp_port (fun h y => tidy y /\ cnt (q_out b) (y_outs y) <= pend b y /\
      taken b h + queued b y + cnt (r_out b) (y_outs y) + pend b y <= queries b h + cnt (q_out b) (y_outs y) /\
      taken b h + queued b y + cnt (r_out b) (y_outs y) <= answered b h)).
    - split; [apply tidy_start|]. unfold taken, queries, answered, queued, pend. cbn. destruct b; cbn; lia.
    - intros h1 y1 e y2 o (T & Q & A & B) S. destruct (@route_step sha usize_max cap tcp_port b y1 e y2 o T Q S) as (T' & A' & B' & Q'). split; [exact T'|]. split; [exact Q'|].
      unfold taken, queries, answered, sent in *. rewrite !map_app, flat_map_app, !filter_app, !app_length. cbn [map flat_map fst snd filter]. rewrite app_nil_r.
      unfold cnt in *. destruct (takes b e), (own_answer b e); cbn [length]; lia. }
  lia.
Qed.

(** ** one search *)
Section search.
Variable sha : bytes -> bytes.
Variable usize_max : nat.
Variable cap : caps.
Variable tcp_port : N.
Notation step := (ystep sha usize_max cap tcp_port).
Notation run := (yrun sha usize_max cap tcp_port).

Lemma search_step : forall y e y' o, step y e = Some (y', o) ->
  (y_fet y = None -> y_fet y' = None \/ exists now2 now3 f start, e = YCheck now2 now3 /\ y_fet y' = Some f /\ k_wait (y_dht y) = true /\ k_wait (y_dht y') = false /\
    (exists n, In n (t_nodes (g_table (k_mgr (y_dht y)))) /\ fresh now2 n = true) /\
    get_closest_nodes now3 (g_table (k_mgr (y_dht y))) (g_info (k_mgr (y_dht y))) = Val (Some start) /\
    f = f_start (g_info (k_mgr (y_dht y))) tcp_port start (y_peers y)) /\
  (k_wait (y_dht y) = false -> k_wait (y_dht y') = false) /\ g_info (k_mgr (y_dht y')) = g_info (k_mgr (y_dht y)).
Proof.
  intros y e y' o H.
  assert (GI : forall now pick s i s' o, gstep now pick s i = Val (s', o) -> g_info s' = g_info s).
  { clear. intros now pick s i s' o H. destruct i as [tg from t'|ih from t'|p ih|r|draws|ad|q]; cbn [gstep] in H.
    - unfold on_find_node in H. destruct (find_node now (g_table s) tg); try discriminate. injection H as <- <-. reflexivity.
    - unfold on_get_peers in H. destruct (find_peers pick s ih) as [[m [l|]]| |]; try discriminate; cbn [rbind fst snd] in H.
      + injection H as <- <-. reflexivity.
      + destruct (find_node now (g_table s) ih); try discriminate; injection H as <- <-. reflexivity.
    - injection H as <- <-. unfold store_new_peer. destruct (q_serve (g_info s) ih); reflexivity.
    - unfold on_resp in H. destruct r as [id from|n from id|from tk v].
      + destruct (touch_node now id from (g_table s)); try discriminate. injection H as <- <-. reflexivity.
      + destruct (touch_node now id from (g_table s)) as [tt| |]; try discriminate. cbn [rbind] in H. destruct (unknown_addrs tt (nodes_list n)); try discriminate. injection H as <- <-. reflexivity.
      + injection H as <- <-. reflexivity.
    - unfold refresh_table in H. destruct (iter_over_ids now (g_table s) draws) as [ids| |]; try discriminate. cbn [rbind] in H.
      destruct (find_nodes_for now (g_table s) ids); try discriminate. injection H as <- <-. reflexivity.
    - injection H as <- <-. reflexivity.
    - destruct (q_step (g_peers s) q) as [[? ?]| |]; try discriminate. injection H as <- <-. reflexivity. }
  assert (Z : forall z, y_fet z = y_fet y -> k_wait (y_dht z) = k_wait (y_dht y) -> g_info (k_mgr (y_dht z)) = g_info (k_mgr (y_dht y)) ->
    (y_fet y = None -> y_fet z = None \/ exists now2 now3 f start, e = YCheck now2 now3 /\ y_fet z = Some f /\ k_wait (y_dht y) = true /\ k_wait (y_dht z) = false /\
    (exists n, In n (t_nodes (g_table (k_mgr (y_dht y)))) /\ fresh now2 n = true) /\
    get_closest_nodes now3 (g_table (k_mgr (y_dht y))) (g_info (k_mgr (y_dht y))) = Val (Some start) /\
    f = f_start (g_info (k_mgr (y_dht y))) tcp_port start (y_peers y)) /\
    (k_wait (y_dht y) = false -> k_wait (y_dht z) = false) /\ g_info (k_mgr (y_dht z)) = g_info (k_mgr (y_dht y))).
  { intros z -> -> ->. auto. }
  destruct e as [from m| | | | |now pick sr| |now2 now3| | | | | |]; cbn [ystep] in H.
  - inv_step H. match goal with |- context [after_sock ?y ?r] => destruct (@after_frame y r) as (_ & _ & _ & _ & E1 & E2 & _) end. apply Z; rewrite ?E1, ?E2; reflexivity.
  - inv_step H. match goal with |- context [after_sock ?y ?r] => destruct (@after_frame y r) as (_ & _ & _ & _ & E1 & E2 & _) end. apply Z; rewrite ?E1, ?E2; reflexivity.
  - destruct (y_sock y) as [d|]; [|discriminate]. destruct (y_outs y) as [|x os]; [discriminate|]. destruct (out_frame _ _ _ _ _ H) as (_ & _ & _ & E1 & E2 & _). apply Z; rewrite ?E1, ?E2; reflexivity.
  - inv_step H; apply Z; reflexivity.
  - inv_step H; apply Z; auto.
  - assert (T : forall z i, y_fet z = y_fet y -> y_dht z = y_dht y -> y_fet (dht_turn z now pick i) = y_fet y /\ k_wait (y_dht (dht_turn z now pick i)) = k_wait (y_dht y) /\
      g_info (k_mgr (y_dht (dht_turn z now pick i))) = g_info (k_mgr (y_dht y))).
    { intros z i A B. unfold dht_turn. destruct (gstep _ _ _ _) as [[? ?]| |] eqn:G; cbn; rewrite ?A, ?B; auto. apply GI in G. rewrite G. unfold mgr_of. cbn. rewrite B. auto. }
    destruct (y_phase y) eqn:P; try discriminate. destruct sr; inv_step H; apply Z; try reflexivity; apply T; reflexivity.
  - inv_step H; try match goal with E : send_cmd _ _ _ _ = Some _ |- _ => apply send_frame in E; destruct E as (-> & _) end; apply Z; reflexivity.
  - inv_step H; try (apply Z; reflexivity). cbn [with_fet with_dht y_fet y_dht k_wait k_mgr].
    match goal with E : _ && _ = true |- _ => apply andb_true_iff in E; destruct E as (KW & GC) end. apply good_count in GC. split; [|auto]. intros _. right.
    match goal with E : spawn_fetcher _ _ _ _ _ = _ |- _ => rename E into SP end. unfold spawn_fetcher in SP.
    destruct (get_closest_nodes now3 (g_table (k_mgr (y_dht y))) (g_info (k_mgr (y_dht y)))) as [[st|]| |] eqn:GN; cbn [rmap option_map] in SP; try discriminate SP. injection SP as <-.
    do 4 eexists. split; [reflexivity|]. split; [reflexivity|]. split; [exact KW|]. split; [reflexivity|]. split; [exact GC|]. split; [exact GN|]. reflexivity.
  - inv_step H; cbn; (split; [intro X; congruence|auto]).
  - inv_step H; cbn; (split; [intro X; congruence|auto]).
  - inv_step H; cbn; (split; [intro X; congruence|auto]).
  - inv_step H; try match goal with E : send_cmd _ _ _ _ = Some _ |- _ => apply send_frame in E; destruct E as (-> & _) end; cbn; (split; [intro X; congruence|auto]).
  - inv_step H; apply Z; reflexivity.
  - inv_step H; apply Z; reflexivity.
Qed.
(** In the whole DHT a search begins only when the table has a good node, with
    the good nodes closest to our torrent, for our torrent and port and on the
    shared peers; and only once in a run, even if the first one ends. *)
Theorem C83_once_in_all : forall own secret info m t es y h e y' o, run (sys_start own secret info m t) es = Some (y, h) -> step y e = Some (y', o) -> starts_search y y' ->
  (exists now2 now3 start, e = YCheck now2 now3 /\ (exists n, In n (t_nodes (g_table (k_mgr (y_dht y)))) /\ fresh now2 n = true) /\
    get_closest_nodes now3 (g_table (k_mgr (y_dht y))) info = Val (Some start) /\ y_fet y' = Some (f_start info tcp_port start (y_peers y))) /\
  (forall es2 y2 h2 e2 y3 o2, run y' es2 = Some (y2, h2) -> step y2 e2 = Some (y3, o2) -> ~ starts_search y2 y3).
Proof.
  intros own secret info m t es y h e y' o R S (A & B).
  assert (GI : g_info (k_mgr (y_dht y)) = info).
  { apply (@yrun_inv sha usize_max cap tcp_port (fun _ y => g_info (k_mgr (y_dht y)) = info) (sys_start own secret info m t)) with (es := es) (h := h); auto.
    intros h1 y1 e1 y2 o1 I S1. destruct (search_step _ _ S1) as (_ & _ & G). congruence. }
  destruct (search_step _ _ S) as (X & KW & _). destruct (X A) as [Q|(now2 & now3 & f & start & -> & F & K1 & K2 & G1 & G2 & ->)]; [congruence|]. split.
  - exists now2, now3, start. rewrite GI in *. auto.
  - intros es2 y2 h2 e2 y3 o2 R2 S2 (A2 & B2). assert (W : k_wait (y_dht y2) = false).
    { apply (@yrun_inv sha usize_max cap tcp_port (fun _ y => k_wait (y_dht y) = false) y') with (es := es2) (h := h2); auto.
      intros h1 z e1 z' o1 I S1. destruct (search_step _ _ S1) as (_ & K & _). auto. }
    destruct (search_step _ _ S2) as (X2 & _). destruct (X2 A2) as [Q|(? & ? & ? & ? & _ & _ & K & _)]; congruence.
Qed.
End search.

(** A stored node is pinged at the start, pongs, and the search begins; then
    its get_peers goes out and is answered. *)
Definition rt_t : bytes := [x61; x61].
Definition rt_u : bytes := [x62; x62].
Definition rt_addr : addr := mk_addr x01 x02 x03 x04 5%N.
Definition rt_own : ID := repeat x11 20.
Definition rt_id : ID := repeat x7f 20.
Definition rt_info : ID := repeat x22 20.
Definition rt_pick : picker := fun n l => firstn n l.
Definition rt_pong : list yev :=
  [YSend; YPort rt_addr; YTurn 5 rt_pick SPort; YSend; YCheck 5 5; YCmd rt_t; YOut; YIn rt_addr (ping_resp rt_id rt_t); YOut; YTurn 6 rt_pick SResp].
Definition rt_search : list yev :=
  [YTick; YFetSend; YCmd rt_u; YOut; YIn rt_addr (get_peers_resp rt_id [x01] (VValues [rt_addr]) rt_u); YOut; YAnswer].
Definition rt_start : sys := sys_start rt_own rt_own rt_info [] (t_default rt_own).
Example C92_example : exists y h, yrun (fun x => x) 100 CAPS 6881%N rt_start (rt_pong ++ YCheck 6 6 :: rt_search) = Some (y, h) /\
  (taken true h, queries true h, answered true h, (taken false h, queries false h, answered false h)) = (1, 1, 1, (1, 1, 1)).
Proof. vm_compute. do 2 eexists. split; reflexivity. Qed.
Example C83_all_example : exists y h y', yrun (fun x => x) 100 CAPS 6881%N rt_start rt_pong = Some (y, h) /\
  ystep (fun x => x) 100 CAPS 6881%N y (YCheck 6 6) = Some (y', []) /\ starts_search y y'.
Proof.
  destruct (yrun (fun x => x) 100 CAPS 6881%N rt_start rt_pong) as [[y h]|] eqn:E; [|vm_compute in E; discriminate].
  vm_compute in E. injection E as <- <-. do 3 eexists. split; [reflexivity|]. split; [vm_compute; reflexivity|]. split; [reflexivity|discriminate].
Qed.
Print Assumptions C92_matched.
Print Assumptions C83_once_in_all.
