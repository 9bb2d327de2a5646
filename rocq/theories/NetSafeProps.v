(** C129: no client ends the DHT of another. *)
From Coq Require Import Strings.String.
From Coq Require Import List NArith ZArith Lia Bool Arith Permutation.
From Coq Require Import Init.Byte.
From Verif Require Import Base Assoc IdModel IdProofs WireModel TableModel TableProps PeersModel PeersSpec PeersProofs BencodeModel BencodeSpec BencodeProofs KrpcModel KrpcSpec KrpcProofs DhtModel DhtMgrModel FetchModel TaskModel DhtProps DhtSysModel DhtSysSpec DhtAskSpec DhtAskProps NetModel NetSpec NetProofs NetProps.
Import ListNotations.
Set Implicit Arguments.
Local Open Scope list_scope.

(** The socket task of the client at [a] runs. *)
Definition listening (n : net) (a : addr) : Prop := y_sock (h_sys (n_hosts n a)) <> None.
(** Identifiers of the right length to start with: the node id, the info hash and
    the id the stored table was made for. *)
Definition sound (c : client) : Prop := wf_id (v_own c) /\ wf_id (v_info c) /\ wf_id (t_own (v_table c)).
(** The random generator gives as many bytes and bits as are asked for. *)
Definition fed (e : nev) : Prop := forall a now pick draws, e = NDo a (YTurn now pick (STick draws)) -> enough draws.

(** ** what one client asks *)
Definition q_ok (q : to_query) : Prop := match q with QFindNode x => wf_id x | _ => True end.
Definition c_ok (c : to_con) : Prop := match c with CQuery _ q => q_ok q | _ => True end.
Definition m_ok (m : kmsg) : Prop := forall t v name id x, m = MQuery t v name (AFindNode id x) -> wf_id x.
Definition o_ok (o : out) : Prop := match o with OSend _ m => m_ok m | _ => True end.
Record aims (y : sys) : Prop := mk_aims {
  am_tab : wf_id (t_own (g_table (k_mgr (y_dht y))));
  am_cmd : Forall (fun c => c_ok (snd c)) (y_cmd y);
  am_phase : Forall c_ok (phase_cmds (y_phase y));
  am_fout : Forall c_ok (y_fout y);
  am_outs : Forall o_ok (y_outs y);
  am_qry : Forall from_socket (y_qry y) }.

Lemma flip_len : forall i k x, flip_bit i k = Val x -> List.length x = List.length i.
Proof. intros i k x H. unfold flip_bit in H. destruct (nth_error _ _); [|discriminate]. injection H as <-. apply upd_length. Qed.
Lemma refresh_wf : forall own b d x, wf_id own -> 20 <= List.length (fst d) -> 8 <= List.length (snd d) -> refresh_id own b d = Val x -> wf_id x.
Proof.
  intros own b d x W D1 D2 H. unfold refresh_id in H. destruct (b_depth b) as [|k]; [discriminate|]. destruct (flip_bit own k) as [i| |] eqn:F; try discriminate. cbn [rbind] in H.
  assert (Wi : wf_id i) by (unfold wf_id in *; rewrite (flip_len _ _ F); exact W).
  destruct (@randomize_spec i k (fst d) (snd d) Wi) as (x' & R & Wx & _); [rewrite Wi; eapply Nat.le_trans; [apply Nat.le_sub_l|exact D1]|eapply Nat.le_trans; [apply Nat.le_sub_l|lia]|]. rewrite R in H. injection H as <-. exact Wx.
Qed.
Lemma refreshes_wf : forall now own bs draws l, wf_id own -> enough draws -> refresh_ids now own bs draws = Val l -> Forall wf_id l.
Proof.
  intros now own bs. induction bs as [|b bs IH]; intros draws l W E H; cbn [refresh_ids] in H; [injection H as <-; constructor|]. destruct draws as [|d ds]; [discriminate|].
  inversion E as [|? ? (D1 & D2) E']; subst. destruct (is_full now b); [eauto|]. destruct (refresh_id own b d) as [x| |] eqn:R; try discriminate. cbn [rbind] in H. destruct (refresh_ids now own bs ds) as [r| |] eqn:RS; try discriminate. cbn [rmap] in H. injection H as <-.
  constructor; [eapply refresh_wf; eauto|eauto].
Qed.
Lemma iter_wf : forall now t draws l, wf_id (t_own t) -> enough draws -> iter_over_ids now t draws = Val l -> Forall wf_id l.
Proof.
  intros now t draws l W E H. unfold iter_over_ids in H. destruct (rev (t_data t)); [discriminate|]. destruct (refresh_ids _ _ _ _) as [r| |] eqn:R; try discriminate. cbn [rmap] in H. injection H as <-.
  apply Forall_app. split; [eapply refreshes_wf; eauto|]. destruct (_ || _); repeat constructor. exact W.
Qed.
Lemma find_for_ok : forall now t ids o, Forall wf_id ids -> find_nodes_for now t ids = Val o -> Forall c_ok o.
Proof.
  intros now t ids. induction ids as [|i ids IH]; intros o F H; cbn [find_nodes_for] in H; [injection H as <-; constructor|]. inversion F; subst.
  destruct (get_closest_nodes now t i) as [l| |]; try discriminate. cbn [rbind] in H. destruct (find_nodes_for now t ids) as [o1| |]; try discriminate. cbn [rmap] in H. injection H as <-.
  apply Forall_app. split; [|eauto]. destruct l as [[|n l]|]; repeat constructor. assumption.
Qed.
Lemma split_own : forall t t', t_split t = Val t' -> t_own t' = t_own t.
Proof. intros t t' H. unfold t_split in H. destruct (rev _); [discriminate|]. destruct (b_split _) as [[z o]| |]; try discriminate. cbn [rbind] in H. destruct (bit_based_order _ _ _ _) as [oo| |]; try discriminate. cbn [rbind] in H. injection H as <-. reflexivity. Qed.
Lemma touch_own : forall now id x t t', touch_node now id x t = Val t' -> t_own t' = t_own t.
Proof.
  intros now id x t t' H. unfold touch_node in H. destruct (find_bucket_idx t id) as [i| |]; try discriminate. cbn [rbind] in H. destruct (nth_error (t_data t) i) as [b|]; [|discriminate].
  destruct (get_node b id); [injection H as <-; reflexivity|]. revert t t' H. generalize (S MAX_BUCKETS) as fuel. induction fuel as [|fuel IH]; intros t t' H; cbn [insert_new_good] in H; [discriminate|].
  destruct (t_try_insert now id x t) as [t1| |] eqn:T; try discriminate.
  - injection H as <-. unfold t_try_insert in T. destruct (find_bucket_idx t id) as [j| |]; try discriminate. cbn [rbind] in T. destruct (nth_error _ _); [|discriminate]. destruct (b_try_insert _ _ _ _); try discriminate. cbn [rbind] in T. injection T as <-. reflexivity.
  - destruct (id_within_splittable t id) as [w| |]; try discriminate. cbn [rbind] in H. destruct (negb w); [injection H as <-; auto|]. destruct (max_depth_reached t); [injection H as <-; auto|].
    destruct (t_split t) as [t1| |] eqn:S; try discriminate. cbn [rbind] in H. rewrite (IH _ _ H). apply split_own. exact S.
Qed.
Lemma gstep_ok : forall now pick s i s' o, gstep now pick s i = Val (s', o) -> wf_id (t_own (g_table s)) -> (forall d, i = GRefresh d -> enough d) -> wf_id (t_own (g_table s')) /\ Forall c_ok o.
Proof.
  intros now pick s i s' o H W E. destruct i as [tg fr t|ih fr t|p ih|r|dr|a|op]; cbn [gstep] in H.
  - unfold on_find_node in H. destruct (find_node _ _ _) as [[n|]| |]; try discriminate; injection H as <- <-; split; auto; repeat constructor.
  - unfold on_get_peers in H. destruct (find_peers pick s ih) as [[m r]| |]; try discriminate. cbn [rbind fst snd] in H.
    destruct r as [l|]; [injection H as <- <-; cbn; split; auto; repeat constructor|]. destruct (find_node _ _ _) as [[n|]| |]; try discriminate; injection H as <- <-; cbn; split; auto; repeat constructor.
  - injection H as <- <-. unfold store_new_peer. destruct (q_serve _ _); cbn; split; auto.
  - unfold on_resp in H. destruct r as [id fr|n fr id|fr tok v].
    + destruct (touch_node _ _ _ _) as [t| |] eqn:TN; try discriminate. injection H as <- <-. cbn. rewrite (touch_own _ _ _ _ TN). auto.
    + destruct (touch_node _ _ _ _) as [t| |] eqn:TN; try discriminate. cbn [rbind] in H. destruct (unknown_addrs _ _) as [l| |]; try discriminate. injection H as <- <-. cbn. rewrite (touch_own _ _ _ _ TN). split; [exact W|].
      apply Forall_forall. intros c I. apply in_map_iff in I. destruct I as (a & <- & _). exact Logic.I.
    + injection H as <- <-. auto.
  - unfold refresh_table in H. destruct (iter_over_ids _ _ _) as [ids| |] eqn:I; try discriminate. cbn [rbind] in H. destruct (find_nodes_for _ _ _) as [os| |] eqn:F; try discriminate. cbn [rmap] in H. injection H as <- <-. split; [exact W|].
    eapply find_for_ok; [|exact F]. eapply iter_wf; [exact W|apply E; reflexivity|exact I].
  - injection H as <- <-. split; [exact W|]. repeat constructor.
  - destruct (q_step _ _) as [r| |]; try discriminate. injection H as <- <-. cbn. auto.
Qed.
Lemma announce_ok : forall p ih m, Forall c_ok (announce_peer p ih m).
Proof. intros. apply Forall_forall. intros c I. unfold announce_peer in I. apply in_map_iff in I. destruct I as ((a & tok) & <- & _). exact Logic.I. Qed.
Lemma new_nodes_ok : forall ih l m, Forall c_ok (snd (new_nodes ih l m)).
Proof.
  intros ih l. induction l as [|x l IH]; intro m; cbn [new_nodes]; [constructor|]. destruct (mhas _ _ _); [apply IH|]. specialize (IH (mset addr_eqb (n_addr x) (FUnknown (n_id x)) m)).
  destruct (new_nodes _ _ _) as [m1 q1]. cbn [fst snd] in *. constructor; [exact I|exact IH].
Qed.
Lemma fstep_ok : forall um f e f' o, fstep um f e = Val (f', o) -> Forall c_ok o.
Proof.
  intros um f e f' o H. destruct e as [|r| |op]; cbn [fstep] in H.
  - destruct (fs_busy f); [discriminate|]. injection H as <- <-. apply Forall_forall. intros c I. apply in_map_iff in I. destruct I as (a & <- & _). exact Logic.I.
  - destruct (fs_busy f); [|destruct r; discriminate]. destruct r as [id fr|n fr id|fr tok v]; try (injection H as <- <-; constructor).
    destruct (mget addr_eqb fr (fs_nodes f)) as [old|]; [|injection H as <- <-; constructor].
    destruct (on_answer um f old fr tok v) as [[[f1 go] q]| |] eqn:OA; try discriminate. cbn [rmap] in H.
    assert (Q : Forall c_ok q).
    { unfold on_answer in OA. destruct v as [l|n]; [|pose proof (new_nodes_ok (fs_info f) (nodes_list n) (mset addr_eqb fr (FPeerless (f_id old) tok) (fs_nodes f))) as NN; destruct (new_nodes _ _ _) as [m1 q1]; cbn [fst snd] in *];
      (destruct (_ <=? _); [destruct (q_enough _ _) as [[m' b]| |]; try discriminate; cbn [rmap fst] in OA|]); injection OA as _ _ <-; auto. }
    destruct go; injection H as <- <-; [exact Q|]. apply Forall_app. split; [exact Q|]. cbn [end_round snd]. apply announce_ok.
  - destruct (fs_busy f); [|discriminate]. injection H as <- <-. apply announce_ok.
  - destruct (q_step _ _) as [r| |]; try discriminate. cbn [rmap] in H. injection H as <- <-. constructor.
Qed.
Lemma resp_m_ok : forall own t tok r, m_ok (resp_message own t tok r).
Proof. intros own t tok r ? ? ? ? ? E. destruct r; discriminate. Qed.
Lemma dstep_in_ok : forall sha d from m d' o, dstep sha all_there d (EIn from m) = Val (d', o) -> Forall o_ok o.
Proof.
  intros sha d from m d' o H. destruct m as [t v name a|t v r|t v er]; cbn [dstep] in H.
  - destruct a; cbn [handle_query] in H; unfold to_listener, send_reply in H; cbn [e_listener all_there] in H; try (injection H as <- <-; repeat constructor; intros ? ? ? ? ? E; discriminate E).
    destruct (token_is_valid _ _ _ _); [|injection H as <- <-; repeat constructor]. cbn in H. injection H as <- <-. repeat constructor. intros ? ? ? ? ? E. discriminate E.
  - change (DhtModel.dstep sha all_there d (EIn from (MResp t v r)) = Val (d', o)) in H. rewrite dstep_resp in H. destruct (mget _ _ _) as [[k rq]|]; [|injection H as <- <-; constructor]. destruct (kind_eqb _ _); [|injection H as <- <-; constructor]. cbn [e_alive all_there] in H. injection H as <- <-. repeat constructor.
  - injection H as <- <-. constructor.
Qed.
Lemma dstep_query_ok : forall sha d req to q t d' o, q_ok q -> dstep sha all_there d (EQuery req to q t) = Val (d', o) -> Forall o_ok o.
Proof. intros sha d req to q t d' o Q H. rewrite dstep_query in H. injection H as <- <-. constructor; [|constructor]. intros t' v name id x E. destruct q; try discriminate E. injection E. intros. subst. exact Q. Qed.

Section client.
Variable sha : bytes -> bytes.
Variable usize_max : nat.
Variable cap : caps.
Variable tcp_port : N.
Notation ystep := (ystep sha usize_max cap tcp_port).
Lemma ystep_aims : forall y e y' o, aims y -> ystep y e = Some (y', o) -> (forall now pick draws, e = YTurn now pick (STick draws) -> enough draws) ->
  aims y' /\ forall to m, In (to, m) o -> m_ok m.
Proof.
  intros y e y' o S H D. pose proof S as [B1 B2 B3 B4 B5 B6].
  assert (NIL : forall (P : Prop), P -> P /\ forall (to : addr) m, In (to, m) [] -> m_ok m) by (intros P HH; split; [exact HH|intros ? ? []]).
  assert (TURN : forall z now pick i, aims z -> (forall d, i = GRefresh d -> enough d) -> aims (dht_turn z now pick i)).
  { intros z now pick i SZ E. pose proof SZ as [C1 C2 C3 C4 C5 C6]. unfold dht_turn. destruct (gstep now pick (mgr_of z) i) as [[s os]| |] eqn:GS; try (split; cbn; auto; fail).
    destruct (@gstep_ok _ _ _ _ _ _ GS C1 E) as (X & Y). split; cbn; auto. }
  assert (NONE : forall z, aims z -> aims (with_sock z None [])) by (intros z [C1 C2 C3 C4 C5 C6]; split; cbn; auto).
  assert (GONE : forall z, aims z -> aims (with_phase z PGone)) by (intros z [C1 C2 C3 C4 C5 C6]; split; cbn; auto).
  assert (IDLE : forall z, aims z -> aims (with_phase z PIdle)) by (intros z [C1 C2 C3 C4 C5 C6]; split; cbn; auto).
  assert (FET : forall z f os p, aims z -> Forall c_ok os -> aims (with_fet z f os p)) by (intros z f os p [C1 C2 C3 C4 C5 C6] F; split; cbn; auto).
  assert (ALL : forall A (l : list A) (Q : A -> Prop) x, Forall Q l -> Q x -> Forall Q (l ++ [x])) by (intros; apply Forall_app; auto).
  destruct e as [from m|t| | | |now pick s| |n2 n3| | | | |a|op]; cbn [DhtSysModel.ystep] in H.
  - destruct (y_sock y) as [d|]; [|discriminate]. destruct (y_outs y); [|discriminate]. destruct (DhtModel.dstep sha all_there d (EIn from m)) as [[d' os]| |] eqn:DS; cbn [after_sock] in H; injection H as <- <-; apply NIL; [|apply NONE; exact S|apply NONE; exact S].
    split; cbn; auto. eapply dstep_in_ok. exact DS.
  - destruct (y_sock y) as [d|]; [|discriminate]. destruct (y_outs y) eqn:OU; [|discriminate]. destruct (y_cmd y) as [|[req c] q]; [discriminate|]. inversion B2 as [|? ? M1 M2]; subst. cbn [snd] in M1.
    assert (SQ : aims (with_cmd y q)) by (split; cbn; rewrite ?OU; auto).
    destruct (DhtModel.dstep _ _ _ _) as [[d' os]| |] eqn:DS; cbn [after_sock] in H; injection H as <- <-; apply NIL; [|apply NONE; exact SQ|apply NONE; exact SQ].
    split; cbn; auto. destruct c as [to qu|to t' r]; [eapply dstep_query_ok; [exact M1|exact DS]|]. cbn in DS. unfold send_reply in DS. injection DS as <- <-. constructor; [apply resp_m_ok|constructor].
  - destruct (y_sock y) as [d|]; [|discriminate]. destruct (y_outs y) as [|x os] eqn:OU; [discriminate|]. inversion B5 as [|? ? M1 M2]; subst.
    assert (DROP : aims (with_sock y (Some d) os)) by (split; cbn; auto).
    destruct x as [to m|tg fr t|ih fr t|p ih|req r]; cbn [sock_out] in H; unfold hand_over in H.
    + injection H as <- <-. split; [exact DROP|]. intros to' m' [E|[]]. injection E as <- <-. exact M1.
    + destruct (dht_alive y); [|injection H as <- <-; apply NIL; apply NONE; exact S]. destruct (_ <? _); [|discriminate]. injection H as <- <-. apply NIL. split; cbn; auto; try (apply ALL; [exact B6|exact I]).
    + destruct (dht_alive y); [|injection H as <- <-; apply NIL; apply NONE; exact S]. destruct (_ <? _); [|discriminate]. injection H as <- <-. apply NIL. split; cbn; auto; try (apply ALL; [exact B6|exact I]).
    + destruct (dht_alive y); [|injection H as <- <-; apply NIL; apply NONE; exact S]. destruct (_ <? _); [|discriminate]. injection H as <- <-. apply NIL. split; cbn; auto; try (apply ALL; [exact B6|exact I]).
    + destruct (req =? DHT).
      * destruct (dht_alive y); [|injection H as <- <-; apply NIL; apply NONE; exact S]. destruct (_ <? _); [|discriminate]. injection H as <- <-. apply NIL. split; cbn; auto.
      * destruct (match y_fet y with Some _ => true | None => false end); [|injection H as <- <-; apply NIL; apply NONE; exact S]. destruct (_ <? _); [|discriminate]. injection H as <- <-. apply NIL. split; cbn; auto.
  - destruct (y_sock y); [|discriminate]. destruct (y_outs y); [|discriminate]. injection H as <- <-. apply NIL. apply NONE. exact S.
  - destruct (y_sock y); [|discriminate]. destruct (y_outs y); [|discriminate]. destruct (y_cmd y); [|discriminate]. destruct (y_fet y); [discriminate|]. destruct (dht_alive y); [discriminate|]. injection H as <- <-. apply NIL. apply NONE. exact S.
  - destruct (y_phase y) eqn:PH; try discriminate. destruct s.
    + destruct (y_rd y) as [|r q]; [discriminate|]. injection H as <- <-. apply NIL. apply TURN; [split; cbn; rewrite ?PH; auto|discriminate].
    + destruct (y_qry y) as [|i q] eqn:QR; [destruct (sock_alive y); [discriminate|]; injection H as <- <-; apply NIL; apply GONE; exact S|].
      injection H as <- <-. apply NIL. inversion B6 as [|? ? X1 X2]; subst. apply TURN; [split; cbn; rewrite ?PH; auto|]. intros dd ->. destruct X1.
    + destruct (y_port y) as [|r q]; [discriminate|]. injection H as <- <-. apply NIL. apply TURN; [split; cbn; rewrite ?PH; auto|discriminate].
    + destruct (y_port y); [|discriminate]. injection H as <- <-. apply NIL. apply GONE. exact S.
    + injection H as <- <-. apply NIL. apply TURN; [exact S|]. intros dd E. injection E as <-. eapply D. reflexivity.
    + injection H as <- <-. apply NIL. split; cbn; auto.
  - destruct (y_phase y) as [l| |l|] eqn:PH; try discriminate; cbn [phase_cmds] in B3.
    + destruct l as [|c l]; [injection H as <- <-; apply NIL; apply IDLE; exact S|]. destruct (sock_alive y); [|injection H as <- <-; apply NIL; apply GONE; exact S]. unfold send_cmd in H. destruct (_ <? _); [|discriminate]. injection H as <- <-. apply NIL. inversion B3; subst. split; cbn; auto.
    + destruct l as [|c l]; [discriminate|]. destruct (sock_alive y); [|injection H as <- <-; apply NIL; apply GONE; exact S]. unfold send_cmd in H. destruct (_ <? _); [|discriminate]. injection H as <- <-. apply NIL. inversion B3; subst. split; cbn; auto.
  - destruct (y_phase y) as [l| |l|]; try discriminate. destruct l; [|discriminate]. destruct (_ && _); [|injection H as <- <-; apply NIL; apply IDLE; exact S].
    destruct (spawn_fetcher _ _ _ _ _) as [[f|]| |]; injection H as <- <-; apply NIL; [|apply IDLE; exact S|apply GONE; exact S|apply GONE; exact S]. split; cbn; auto.
  - destruct (y_fet y) as [f|]; [|discriminate]. destruct (y_fout y); [|discriminate]. destruct (fstep _ _ _) as [[f' os]| |] eqn:FS; try discriminate; injection H as <- <-; apply NIL; apply FET; auto. eapply fstep_ok. exact FS.
  - destruct (y_fet y) as [f|]; [|discriminate]. destruct (y_fout y) eqn:FO; [|discriminate]. destruct (y_rf y) as [|r q]; [discriminate|]. assert (SR : aims (with_rf y q)) by (split; cbn; rewrite ?FO; auto).
    destruct (fstep _ _ _) as [[f' os]| |] eqn:FS; try discriminate; injection H as <- <-; apply NIL; apply FET; auto. eapply fstep_ok. exact FS.
  - destruct (y_fet y) as [f|]; [|discriminate]. destruct (y_fout y); [|discriminate]. destruct (fstep _ _ _) as [[f' os]| |] eqn:FS; try discriminate; injection H as <- <-; apply NIL; apply FET; auto. eapply fstep_ok. exact FS.
  - destruct (y_fet y) as [f|]; [|discriminate]. destruct (y_fout y) as [|c l]; [discriminate|]. destruct (sock_alive y); [|injection H as <- <-; apply NIL; apply FET; auto]. unfold send_cmd in H. destruct (_ <? _); [|discriminate]. injection H as <- <-. apply NIL. inversion B4; subst. split; cbn; auto.
  - destruct (_ && _); [|discriminate]. injection H as <- <-. apply NIL. split; cbn; auto.
  - destruct (q_step _ _) as [[m ot]| |]; try discriminate. injection H as <- <-. apply NIL. split; cbn; auto.
Qed.
End client.

(** ** what is read never panics *)
Lemma ids_args : forall a, match a with APing id => wf_id id | AFindNode id x => wf_id id /\ wf_id x | AGetPeers id x => wf_id id /\ wf_id x | AAnnounce id x _ _ => wf_id id /\ wf_id x end -> dict_ids (args_bval a).
Proof.
  intros a W d k x E K L. destruct a; unfold args_bval, kdict in E; cbn in E; injection E as <-; repeat (destruct K as [<-|K]; [cbn in L; try discriminate L; injection L as <-; apply W|]); destruct K.
Qed.
Lemma ids_resp : forall r, wf_id (resp_id r) -> dict_ids (resp_bval r).
Proof.
  intros r W d k x E K L. destruct r as [id tok [l|n]|id n|id|id]; unfold resp_bval, kdict in E; cbn in E; injection E as <-; repeat (destruct K as [<-|K]; [cbn in L; try discriminate L; injection L as <-; apply W|]); destruct K.
Qed.
Lemma ids_query : forall t v name a, dict_ids (args_bval a) -> ids_ok (kmsg_bval (MQuery t v name a)).
Proof.
  intros t v name a W d k d' k' x E K L K' L'. unfold kmsg_bval, kdict in E. cbn -[args_bval] in E. injection E as <-. destruct K as [<-|[<-|[]]]; cbn -[args_bval] in L; [|discriminate L]. injection L as L. eapply W; eauto.
Qed.
Lemma ids_reply : forall t v r, dict_ids (resp_bval r) -> ids_ok (kmsg_bval (MResp t v r)).
Proof.
  intros t v r W d k d' k' x E K L K' L'. unfold kmsg_bval, kdict in E. cbn -[resp_bval] in E. injection E as <-. destruct K as [<-|[<-|[]]]; cbn -[resp_bval] in L; [discriminate L|]. injection L as L. eapply W; eauto.
Qed.

Section net.
Variable sha : bytes -> bytes.
Variable who : addr -> option client.
Notation nstep := (nstep sha who).
Notation nrun := (nrun sha who).
Notation T1 := (fun (_ : ID) (_ : addr) => True).
Notation T2 := (fun (_ : addr) (_ : ID) => True).
Definition asked_right (c : client) (m : kmsg) : Prop :=
  (exists t tok r, m = resp_message (v_own c) t tok r) \/
  exists t q, m = query_message (v_own c) t q /\ match q with QPing => True | QFindNode x => wf_id x | QGetPeers ih | QAnnounce ih _ _ => ih = v_info c end.
Definition good_host (c : client) (h : host) : Prop := fine T1 T2 c h /\ aims (h_sys h).
Definition nsafe (n : net) : Prop :=
  (forall a c, who a = Some c -> good_host c (n_hosts n a)) /\
  forall d, In d (n_air n) -> exists c m, who (g_from d) = Some c /\ g_data d = kmsg_bytes m /\ asked_right c m.
Lemma step_good : forall c y e y' o, truth (v_own c) (v_info c) T1 T2 y -> asks (v_tcp c) (v_own c) (v_info c) yes1 yes2 yes3 y -> aims y ->
  ystep sha (v_max c) (v_caps c) (v_tcp c) y e = Some (y', o) -> (forall now pick draws, e = YTurn now pick (STick draws) -> enough draws) ->
  truth (v_own c) (v_info c) T1 T2 y' /\ asks (v_tcp c) (v_own c) (v_info c) yes1 yes2 yes3 y' /\ aims y' /\ forall to m, In (to, m) o -> asked_right c m.
Proof.
  intros c y e y' o T A B H D. destruct (@ystep_truth _ _ _ _ _ _ _ _ _ _ _ _ T H ltac:(auto)) as (T' & S1).
  assert (A' : asks (v_tcp c) (v_own c) (v_info c) yes1 yes2 yes3 y' /\ forall to m, In (to, m) o -> may_send (v_tcp c) (v_own c) (v_info c) yes1 yes2 to m).
  { eapply ystep_asks; [| | | | | |exact A|exact H]; unfold yes1, yes2, yes3; auto. }
  destruct A' as (A' & S2). destruct (@ystep_aims _ _ _ _ _ _ _ _ B H D) as (B' & S3). split; [exact T'|]. split; [exact A'|]. split; [exact B'|]. intros to m I. destruct (S1 _ _ I) as (X & Y). specialize (S2 _ _ I). specialize (S3 _ _ I). destruct m as [t v name a|t v r|t v er].
  - destruct (S2 _ _ _ _ eq_refl) as (q & E & _ & Q). right. exists t, q. split; [exact E|]. destruct q as [|x|ih|ih p tok]; [exact Logic.I| |exact Q|apply Q]. injection E as -> -> ->. eapply S3. reflexivity.
  - destruct (X _ _ _ eq_refl) as (tok & pr & E). left. eauto.
  - destruct (Y _ _ _ eq_refl).
Qed.
Lemma none_good : forall c y, truth (v_own c) (v_info c) T1 T2 y -> asks (v_tcp c) (v_own c) (v_info c) yes1 yes2 yes3 y -> aims y ->
  truth (v_own c) (v_info c) T1 T2 (with_sock y None []) /\ asks (v_tcp c) (v_own c) (v_info c) yes1 yes2 yes3 (with_sock y None []) /\ aims (with_sock y None []).
Proof. intros c y T A B. split; [destruct T; split; cbn; auto; discriminate|]. split; [destruct A; split; cbn; auto; discriminate|]. destruct B; split; cbn; auto. Qed.
Lemma receive_good : forall c h from dg h', good_host c h -> receive sha c h from dg = Some h' -> good_host c h'.
Proof.
  intros c h from dg h' ((T & A & B) & M) H. unfold receive in H. destruct (y_sock (h_sys h)) as [d|] eqn:SK; [|discriminate]. destruct (y_outs (h_sys h)) eqn:OU; [|discriminate].
  assert (L : List.length (recv_into (h_buf h) dg) = BUF_LEN) by (unfold recv_into; rewrite app_length, firstn_length, skipn_length, B; lia). destruct (kmsg_from_bytes _) as [m| |] eqn:K.
  - destruct (DhtSysModel.ystep _ _ _ _ _ _) as [[y o]|] eqn:ST; [|discriminate]. cbn in H. injection H as <-.
    destruct (@step_good _ _ _ _ _ T A M ST) as (T' & A' & M' & _); [discriminate|]. split; [split; [exact T'|split; [exact A'|exact L]]|exact M'].
  - injection H as <-. split; [split; [exact T|split; [exact A|exact L]]|exact M].
  - injection H as <-. destruct (@none_good _ _ T A M) as (T' & A' & M'). split; [split; [exact T'|split; [exact A'|exact L]]|exact M'].
Qed.
Lemma put_good : forall n a c h air, who a = Some c -> nsafe n -> good_host c h -> (forall d, In d air -> exists c m, who (g_from d) = Some c /\ g_data d = kmsg_bytes m /\ asked_right c m) -> nsafe (put_host n a h air).
Proof.
  intros n a c h air W (N1 & N2) F A. split; cbn [put_host n_hosts n_air].
  - intros b c' W'. destruct (addr_eqb b a) eqn:E; [|auto]. apply addr_eqb_spec in E. subst b. rewrite W in W'. injection W' as <-. exact F.
  - intros d I. apply in_app_or in I. destruct I; auto.
Qed.
Lemma arrive_good : forall n from to dg n', nsafe n -> arrive sha who n from to dg = Some n' -> nsafe n'.
Proof.
  intros n from to dg n' N H. unfold arrive in H. destruct (who to) as [c|] eqn:W; [|discriminate]. destruct (receive _ _ _ _ _) as [h|] eqn:R; [|discriminate]. cbn in H. injection H as <-.
  eapply put_good; [exact W|exact N| |intros ? []]. eapply receive_good; [apply N; exact W|exact R].
Qed.
Lemma nstep_good : forall n e n', nsafe n -> nstep n e = Some n' -> fed e -> nsafe n'.
Proof.
  intros n e n' N H F. pose proof N as (N1 & N2). destruct e as [a e|k|from to dg]; cbn [NetModel.nstep] in H.
  - destruct (who a) as [c|] eqn:W; [|discriminate]. destruct (is_in e) eqn:I; [discriminate|]. destruct (DhtSysModel.ystep _ _ _ _ _ _) as [[y o]|] eqn:ST; [|discriminate]. injection H as <-.
    destruct (N1 _ _ W) as ((T & A & B) & M). destruct (@step_good _ _ _ _ _ T A M ST) as (T' & A' & M' & O). { intros now pick draws ->. eapply F. reflexivity. }
    eapply put_good; [exact W|exact N|split; [split; [exact T'|split; [exact A'|exact B]]|exact M']|]. intros d J. apply in_map_iff in J. destruct J as ((to & m) & <- & J). exists c, m. split; [exact W|]. split; [reflexivity|eauto].
  - destruct (nth_error (n_air n) k) as [d|] eqn:E; [|discriminate]. eapply arrive_good; eauto.
  - destruct (who from) eqn:W; [discriminate|]. eapply arrive_good; eauto.
Qed.
Lemma nrun_good : forall es n n', nsafe n -> nrun n es = Some n' -> (forall e, In e es -> fed e) -> nsafe n'.
Proof.
  induction es as [|e es IH]; intros n n' N H S; cbn [NetModel.nrun] in H; [injection H as <-; exact N|]. destruct (nstep n e) as [n1|] eqn:ST; [|discriminate].
  eapply IH; [|exact H|intros; apply S; right; assumption]. eapply nstep_good; [exact N|exact ST|]. apply S. left. reflexivity.
Qed.
Hypothesis WF : forall a c, who a = Some c -> sound c.
Lemma start_good : nsafe (net_start who).
Proof.
  assert (N : ninv who T1 T2 (net_start who)) by (apply start_inv; intros ? ? _ ? _; exact I).
  destruct N as (N1 & _). split; [|intros ? []]. intros a c W. split; [apply N1; exact W|]. cbn [net_start n_hosts]. rewrite W. cbn [host_start h_sys]. destruct (WF W) as (W1 & W2 & W3).
  split; cbn; auto. unfold start_pings. apply Forall_forall. intros x I. apply in_map_iff in I. destruct I as (y & <- & _). exact Logic.I.
Qed.
Lemma asked_ids : forall c m, sound c -> asked_right c m -> ids_ok (kmsg_bval m) /\ ordered (kmsg_bval m).
Proof.
  intros c m (W1 & W2 & _) [(t & tok & r & ->)|(t & q & -> & Q)].
  - split; [|apply ordered_reply]. assert (X : exists r', resp_message (v_own c) t tok r = MResp t x72 r' /\ resp_id r' = v_own c) by (destruct r; eexists; split; reflexivity). destruct X as (r' & -> & E). apply ids_reply. apply ids_resp. rewrite E. exact W1.
  - split; [|apply ordered_query]. destruct q as [|x|ih|ih p tok]; cbn [query_message]; apply ids_query; apply ids_args; auto; rewrite Q; auto.
Qed.
Lemma receive_listening : forall c h from m h', List.length (h_buf h) = BUF_LEN -> ids_ok (kmsg_bval m) -> ordered (kmsg_bval m) -> receive sha c h from (kmsg_bytes m) = Some h' -> y_sock (h_sys h') <> None.
Proof.
  intros c h from m h' B I O H. unfold receive in H. destruct (y_sock (h_sys h)) as [d|] eqn:SK; [|discriminate]. destruct (y_outs (h_sys h)) eqn:OU; [|discriminate].
  destruct (kmsg_from_bytes (recv_into (h_buf h) (kmsg_bytes m))) as [m'| |] eqn:K.
  - cbn [DhtSysModel.ystep] in H. rewrite SK, OU in H. destruct (@dstep_total sha all_there d (EIn from m') eq_refl ltac:(reflexivity)) as (d' & os & E). rewrite E in H. cbn in H. injection H as <-. cbn. discriminate.
  - injection H as <-. cbn. rewrite SK. discriminate.
  - exfalso. unfold kmsg_bytes in K. rewrite (@read_enc _ _ B O (nest_kmsg m) m (or_intror K)) in K. exact (@safe_kmsg sha [] _ I K).
Qed.

Lemma put_same : forall n a h air, n_hosts (put_host n a h air) a = h.
Proof. intros. cbn. rewrite (proj2 (addr_eqb_spec a a) eq_refl). reflexivity. Qed.
Lemma put_other : forall n a h air b, b <> a -> n_hosts (put_host n a h air) b = n_hosts n b.
Proof. intros n a h air b D. cbn. destruct (addr_eqb b a) eqn:E; [|reflexivity]. apply addr_eqb_spec in E. contradiction. Qed.
Lemma get_listening : forall n k d n', nsafe n -> nth_error (n_air n) k = Some d -> nstep n (NGet k) = Some n' -> listening n' (g_to d).
Proof.
  intros n k d n' (N1 & N2) E H. cbn [NetModel.nstep] in H. rewrite E in H. apply nth_error_In in E. destruct (N2 _ E) as (c & m & W & D & A). unfold arrive in H. destruct (who (g_to d)) as [c'|] eqn:W'; [|discriminate].
  destruct (receive _ _ _ _ _) as [h|] eqn:R; [|discriminate]. cbn in H. injection H as <-. unfold listening. rewrite put_same. destruct (asked_ids (WF W) A) as (I & O). rewrite D in R. eapply receive_listening; [apply (N1 _ _ W')|exact I|exact O|exact R].
Qed.
(** Why the socket task ends in a step of its own. *)
Lemma step_ends : forall c y e y' o, ystep sha (v_max c) (v_caps c) (v_tcp c) y e = Some (y', o) -> is_in e = false -> y_sock y <> None -> y_sock y' = None ->
  e = YSockErr \/ (e = YNobody /\ y_phase y = PGone /\ y_fet y = None) \/ (e = YOut /\ (y_phase y = PGone \/ y_fet y = None)).
Proof.
  intros c y e y' o H IN L D. assert (DA : dht_alive y = false -> y_phase y = PGone) by (unfold dht_alive; destruct (y_phase y); congruence).
  assert (TURN : forall z now pick i, y_sock (dht_turn z now pick i) = y_sock z) by (intros; unfold dht_turn; destruct (gstep _ _ _ _) as [[s os]| |]; reflexivity).
  destruct e as [from m|t| | | |now pick s| |n2 n3| | | | |a|op]; cbn [DhtSysModel.ystep] in H; try discriminate IN; auto.
  - exfalso. destruct (y_sock y) as [d|]; [|discriminate]. destruct (y_outs y); [|discriminate]. destruct (y_cmd y) as [|[req x] q]; [discriminate|].
    destruct (@dstep_total sha all_there d (match x with CQuery target qu => EQuery req target qu t | CReply target t' r => EReply target t' r end) eq_refl ltac:(reflexivity)) as (d' & os & E). rewrite E in H. injection H as <- <-. discriminate D.
  - destruct (y_sock y) as [d|]; [|discriminate]. destruct (y_outs y) as [|x os]; [discriminate|]. right. right. split; [reflexivity|].
    destruct x as [to m|tg fr t|ih fr t|p ih|req r]; cbn [sock_out] in H; unfold hand_over in H.
    + injection H as <- <-. discriminate D.
    + destruct (dht_alive y); [|auto]. destruct (_ <? _); [|discriminate]. injection H as <- <-. discriminate D.
    + destruct (dht_alive y); [|auto]. destruct (_ <? _); [|discriminate]. injection H as <- <-. discriminate D.
    + destruct (dht_alive y); [|auto]. destruct (_ <? _); [|discriminate]. injection H as <- <-. discriminate D.
    + destruct (req =? DHT).
      * destruct (dht_alive y); [|auto]. destruct (_ <? _); [|discriminate]. injection H as <- <-. discriminate D.
      * destruct (y_fet y); [|auto]. destruct (_ <? _); [|discriminate]. injection H as <- <-. discriminate D.
  - right. left. split; [reflexivity|]. destruct (y_sock y); [|discriminate]. destruct (y_outs y); [|discriminate]. destruct (y_cmd y); [|discriminate]. destruct (y_fet y); [discriminate|]. destruct (dht_alive y); [discriminate|]. auto.
  - exfalso. destruct (y_phase y); try discriminate. destruct s.
    + destruct (y_rd y); [discriminate|]. injection H as <- <-. rewrite TURN in D. exact (L D).
    + destruct (y_qry y); [destruct (sock_alive y); [discriminate|]|]; injection H as <- <-; [exact (L D)|rewrite TURN in D; exact (L D)].
    + destruct (y_port y); [discriminate|]. injection H as <- <-. rewrite TURN in D. exact (L D).
    + destruct (y_port y); [|discriminate]. injection H as <- <-. exact (L D).
    + injection H as <- <-. rewrite TURN in D. exact (L D).
    + injection H as <- <-. exact (L D).
  - exfalso. destruct (y_phase y) as [[|x l]| |[|x l]|]; try discriminate; try (injection H as <- <-; exact (L D)); (destruct (sock_alive y); [|injection H as <- <-; exact (L D)]); unfold send_cmd in H; (destruct (_ <? _); [|discriminate]); injection H as <- <-; exact (L D).
  - exfalso. destruct (y_phase y) as [| |[|x l]|]; try discriminate. destruct (_ && _); [destruct (spawn_fetcher _ _ _ _ _) as [[f|]| |]|]; injection H as <- <-; exact (L D).
  - exfalso. destruct (y_fet y); [|discriminate]. destruct (y_fout y); [|discriminate]. destruct (fstep _ _ _) as [[f' os]| |]; try discriminate; injection H as <- <-; exact (L D).
  - exfalso. destruct (y_fet y); [|discriminate]. destruct (y_fout y); [|discriminate]. destruct (y_rf y); [discriminate|]. destruct (fstep _ _ _) as [[f' os]| |]; try discriminate; injection H as <- <-; exact (L D).
  - exfalso. destruct (y_fet y); [|discriminate]. destruct (y_fout y); [|discriminate]. destruct (fstep _ _ _) as [[f' os]| |]; try discriminate; injection H as <- <-; exact (L D).
  - exfalso. destruct (y_fet y); [|discriminate]. destruct (y_fout y); [discriminate|]. destruct (sock_alive y); [|injection H as <- <-; exact (L D)]. unfold send_cmd in H. destruct (_ <? _); [|discriminate]. injection H as <- <-. exact (L D).
  - exfalso. destruct (_ && _); [|discriminate]. injection H as <- <-. exact (L D).
  - exfalso. destruct (q_step _ _) as [[m ot]| |]; try discriminate. injection H as <- <-. exact (L D).
Qed.
Lemma ends : forall n e n' a, nsafe n -> nstep n e = Some n' -> listening n a -> ~ listening n' a ->
  (exists from dg, e = NStranger from a dg /\ who from = None) \/ e = NDo a YSockErr \/
  (e = NDo a YNobody /\ y_phase (h_sys (n_hosts n a)) = PGone) \/
  (e = NDo a YOut /\ (y_phase (h_sys (n_hosts n a)) = PGone \/ y_fet (h_sys (n_hosts n a)) = None)).
Proof.
  intros n e n' a N H L D.
  assert (AT : forall b h air, n' = put_host n b h air -> b = a).
  { intros b h air ->. destruct (addr_eqb a b) eqn:E; [apply addr_eqb_spec in E; congruence|]. exfalso. apply D. unfold listening. rewrite put_other; [exact L|]. intros ->. rewrite (proj2 (addr_eqb_spec b b) eq_refl) in E. discriminate. }
  destruct e as [b e|k|from to dg].
  - cbn [NetModel.nstep] in H. destruct (who b) as [c|]; [|discriminate]. destruct (is_in e) eqn:I; [discriminate|]. destruct (DhtSysModel.ystep _ _ _ _ _ _) as [[y o]|] eqn:ST; [|discriminate]. injection H as H. symmetry in H. pose proof (AT _ _ _ H) as ->. subst n'.
    unfold listening in D. rewrite put_same in D. cbn [h_sys] in D. destruct (@step_ends c _ _ _ _ ST I L) as [->|[(-> & P & _)|(-> & P)]]; auto. destruct (y_sock y); [destruct D; discriminate|reflexivity].
  - destruct (nth_error (n_air n) k) as [d|] eqn:E; [|cbn [NetModel.nstep] in H; rewrite E in H; discriminate]. pose proof (get_listening _ N E H) as G. cbn [NetModel.nstep] in H. rewrite E in H. unfold arrive in H. destruct (who (g_to d)); [|discriminate].
    destruct (receive _ _ _ _ _) as [h|]; [|discriminate]. injection H as H. symmetry in H. rewrite (AT _ _ _ H) in G. contradiction.
  - cbn [NetModel.nstep] in H. destruct (who from) eqn:W; [discriminate|]. unfold arrive in H. destruct (who to); [|discriminate]. destruct (receive _ _ _ _ _) as [h|]; [|discriminate]. injection H as H. symmetry in H. rewrite (AT _ _ _ H) in *. left. eauto.
Qed.
End net.

(** In any run with clients of sound identifiers, strangers included: whatever
    datagram of a client arrives anywhere, in whatever state, the receiver goes on
    listening. *)
Theorem C129_harmless : forall sha who es n k d n', (forall a c, who a = Some c -> sound c) -> (forall e, In e es -> fed e) ->
  nrun sha who (net_start who) es = Some n -> nth_error (n_air n) k = Some d -> nstep sha who n (NGet k) = Some n' -> listening n' (g_to d).
Proof. intros sha who es n k d n' W F R E H. eapply get_listening; [exact W|eapply nrun_good; [apply start_good; exact W|exact R|exact F]|exact E|exact H]. Qed.
(** What ends the listening of a client: a stranger's datagram, an error of its
    own socket, or its own DHT task or search being gone. *)
Theorem C129_causes : forall sha who es n e n' a, (forall a c, who a = Some c -> sound c) -> (forall e, In e es -> fed e) ->
  nrun sha who (net_start who) es = Some n -> nstep sha who n e = Some n' -> listening n a -> ~ listening n' a ->
  (exists from dg, e = NStranger from a dg /\ who from = None) \/ e = NDo a YSockErr \/
  (e = NDo a YNobody /\ y_phase (h_sys (n_hosts n a)) = PGone) \/
  (e = NDo a YOut /\ (y_phase (h_sys (n_hosts n a)) = PGone \/ y_fet (h_sys (n_hosts n a)) = None)).
Proof. intros sha who es n e n' a W F R. eapply ends; [exact W|]. eapply nrun_good; [apply start_good; exact W|exact R|exact F]. Qed.

(** Three clients and a stranger: a client's ping arrives and is answered; the
    stranger's with an id of one byte ends the listening. *)
Definition ex_ping : list nev :=
  [NDo addr_a YSend; NDo addr_b YSend; NStranger addr_x addr_b [x65]; NDo addr_a (YPort addr_b); NDo addr_a (YTurn 0 pk SPort); NDo addr_a YSend; NDo addr_a (YCheck 0 0); NDo addr_a (YCmd [x61]); NDo addr_a YOut].
Definition hears (n : net) (a : addr) : bool := match y_sock (h_sys (n_hosts n a)) with Some _ => true | None => false end.
Definition busy (n : net) (a : addr) : bool := match y_outs (h_sys (n_hosts n a)) with [] => false | _ => true end.
Lemma hears_ok : forall n a, hears n a = true <-> listening n a.
Proof. intros n a. unfold hears, listening. destruct (y_sock _); split; congruence. Qed.
Definition ex_both (n : net) : bool :=
  match nth_error (n_air n) 0, nstep ex_sha ex_who n (NGet 0), nstep ex_sha ex_who n (NStranger addr_x addr_b (kmsg_bytes (ping_query [x01] [x61]))) with
  | Some d, Some n1, Some n2 => addr_eqb (g_to d) addr_b && busy n1 addr_b && hears n addr_b && negb (hears n2 addr_b)
  | _, _, _ => false
  end.
Lemma ex_pings : exists n, nrun ex_sha ex_who (net_start ex_who) ex_ping = Some n /\ ex_both n = true.
Proof. apply checked. vm_compute. reflexivity. Qed.
Lemma ex_sound : forall a c, ex_who a = Some c -> sound c.
Proof. intros a c W. unfold ex_who in W. repeat (destruct (addr_eqb _ _) in W; [injection W as <-; repeat split; vm_compute; reflexivity|]). discriminate. Qed.
Lemma ex_fed : forall e, In e ex_ping -> fed e.
Proof. intros e I a now pick draws ->. unfold ex_ping in I. cbn [In] in I. repeat (destruct I as [I|I]; [discriminate I|]). destruct I. Qed.
Example C129_example : (forall a c, ex_who a = Some c -> sound c) /\ (forall e, In e ex_ping -> fed e) /\
  exists n d n1 n2, nrun ex_sha ex_who (net_start ex_who) ex_ping = Some n /\ nth_error (n_air n) 0 = Some d /\ g_to d = addr_b /\ listening n addr_b /\
    nstep ex_sha ex_who n (NGet 0) = Some n1 /\ busy n1 addr_b = true /\
    nstep ex_sha ex_who n (NStranger addr_x addr_b (kmsg_bytes (ping_query [x01] [x61]))) = Some n2 /\ ~ listening n2 addr_b.
Proof.
  split; [exact ex_sound|]. split; [exact ex_fed|]. destruct ex_pings as (n & R & E). unfold ex_both in E. destruct (nth_error (n_air n) 0) as [d|] eqn:ED; [|discriminate]. destruct (nstep ex_sha ex_who n (NGet 0)) as [n1|] eqn:E1; [|discriminate]. destruct (nstep ex_sha ex_who n (NStranger _ _ _)) as [n2|] eqn:E2; [|discriminate].
  apply andb_true_iff in E. destruct E as (E & X4). apply andb_true_iff in E. destruct E as (E & X3). apply andb_true_iff in E. destruct E as (X1 & X2). apply addr_eqb_spec in X1. apply hears_ok in X3. apply negb_true_iff in X4.
  exists n, d, n1, n2. repeat (split; [assumption||reflexivity|]). rewrite <- hears_ok. congruence.
Qed.

Print Assumptions C129_harmless.
Print Assumptions C129_causes.
