(** C137: clients understand each other. *)
From Coq Require Import Strings.String.
From Coq Require Import List NArith ZArith Lia Bool Arith Permutation.
From Coq Require Import Init.Byte.
From Verif Require Import Base Assoc IdModel WireModel TableModel TableSpec TableProofs TableProofs2 TableProps LookupProps PeersModel PeersSpec PeersProofs PeersProps BencodeModel BencodeSpec BencodeProofs KrpcModel Utf8Spec Utf8Proofs KrpcSpec KrpcProofs KrpcProps ReadProps DhtModel DhtSpec DhtMgrModel DhtMgrSpec DhtMgrProps FetchModel TaskModel DhtProps DhtSysModel DhtSysSpec DhtSysProps DhtAskSpec DhtAskProps NetModel NetSpec NetProofs NetProps NetSafeProps DhtLifeProps.
Import ListNotations.
Set Implicit Arguments.
Local Open Scope list_scope.

(** A client as it can be started, its peers at addresses with 16-bit ports, its
    own TCP port one. *)
Definition equipped (a : addr) (c : client) : Prop := fit a c /\ (v_tcp c < 65536)%N /\ Forall wf_addr (map fst (v_peers c)).
(** [choose_multiple] gives at most as many as asked for, from those there are. *)
Definition modest (pick : picker) : Prop := forall k l, List.length (pick k l) <= k /\ incl (pick k l) l.
(** Transaction ids are drawn with two bytes (krpc_message.rs:109-111), ports
    have 16 bits, the generators give what is asked of them. *)
Definition usual (e : nev) : Prop :=
  match e with
  | NStranger from _ _ => wf_addr from
  | NDo _ (YCmd t) => List.length t = 2
  | NDo _ (YTurn _ pick s) => modest pick /\ match s with STick draws => enough draws | _ => True end
  | NDo _ (YShared o) => Forall wf_addr (names o)
  | _ => True
  end.
(** What client [c] says: a question with a transaction id of two bytes, or an
    answer with its token of 20 bytes. *)
Definition says (c : client) (m : kmsg) : Prop :=
  (exists t q, m = query_message (v_own c) t q /\ List.length t = 2) \/
  exists t tok r, m = resp_message (v_own c) t tok r /\ List.length t = 2 /\ List.length tok = 20.

(** ** the peer table *)
Definition wf_keys (m : peers) : Prop := NoDup (map fst m) /\ Forall wf_addr (map fst m).
Lemma keys_step : forall m o m' out, wf_keys m -> Forall wf_addr (names o) -> q_step m o = Val (m', out) -> wf_keys m'.
Proof.
  intros m o m' out (N & F) W H. destruct (@step_keys m o N) as (m1 & o1 & E & N1 & K). rewrite H in E. injection E as <- <-. split; [exact N1|].
  rewrite Forall_forall in *. intros x X. apply K in X. destruct X; auto.
Qed.
Lemma keys_extend : forall m l, wf_keys m -> Forall wf_addr l -> wf_keys (q_extend m l).
Proof. intros m l K F. refine (@keys_step m (QExtend l) _ [] K F eq_refl). Qed.
Lemma keys_insert : forall m p, wf_keys m -> wf_addr p -> wf_keys (q_insert m p).
Proof. intros m l K F. refine (@keys_step m (QInsert l) _ [] K _ eq_refl). cbn. auto. Qed.
Lemma keys_enough : forall u m m' b, wf_keys m -> q_enough u m = Val (m', b) -> wf_keys m'.
Proof. intros u m m' b K H. refine (@keys_step m (QEnough u) _ [] K _ _); [constructor|]. cbn [q_step]. rewrite H. reflexivity. Qed.
Lemma keys_good : forall m k m' r, wf_keys m -> q_good m k = Val (m', r) -> wf_keys m' /\ forall l, r = Some l -> List.length l <= k /\ Forall wf_addr l.
Proof.
  intros m k m' r K H. split.
  - refine (@keys_step m (QGood k) _ (match r with Some x => x | None => [] end) K _ _); [constructor|]. cbn [q_step]. rewrite H. reflexivity.
  - intros l ->. destruct K as (N & F). destruct (@C25_good_peers m k N) as (m1 & out & E & G). rewrite H in E. injection E as -> E. destruct out as [|x out]; [discriminate|]. injection E as ->.
    split; [apply (gb_size G)|]. rewrite Forall_forall in *. intros p P. destruct (gb_eligible G p P) as (st & rk & S & _). apply F. apply in_map_iff. exists (p, st). auto.
Qed.

(** ** one client *)
Section one.
Variable T : addr -> bytes -> Prop.
Variable own : ID.
Definition few (r : to_resp) : Prop := wf_answer r /\ n_nodes r <= 15 /\ n_values r <= 216.
Definition fit_send (to : addr) (m : kmsg) : Prop :=
  (exists t q, m = query_message own t q /\ List.length t = 2) \/
  exists t tok r, m = resp_message own t tok r /\ T to t /\ few r /\ List.length tok = 20.
Definition fit_r (r : from_resp) : Prop :=
  match r with FTouch id from | FNewNodes _ from id => wf_id id /\ wf_addr from | FGetPeers _ _ v => match v with VValues l => Forall wf_addr l | VNodes _ => True end end.
Definition fit_o (o : out) : Prop :=
  match o with
  | OSend to m => fit_send to m
  | OFindNode x from t | OGetPeers x from t => wf_id x /\ T from t
  | ONewPeer p _ => wf_addr p
  | OResp _ r => fit_r r
  end.
Definition fit_q (i : gin) : Prop :=
  match i with GFindNode x from t | GGetPeers x from t => wf_id x /\ T from t | GNewPeer p _ => wf_addr p | GResp r => fit_r r | GShared _ => False | _ => True end.
Definition fit_c (c : to_con) : Prop := match c with CQuery _ _ => True | CReply to t r => T to t /\ few r end.
Definition map_fit (m : peer_map) : Prop := forall ih l, In (ih, l) m -> Forall wf_addr l.
Record talk (y : sys) : Prop := mk_talk {
  tk_tab : reachable (g_table (k_mgr (y_dht y)));
  tk_map : map_fit (g_map (k_mgr (y_dht y)));
  tk_peers : wf_keys (y_peers y);
  tk_outs : Forall fit_o (y_outs y);
  tk_qry : Forall fit_q (y_qry y);
  tk_rd : Forall fit_r (y_rd y);
  tk_rf : Forall fit_r (y_rf y);
  tk_cmd : Forall (fun c => fit_c (snd c)) (y_cmd y);
  tk_phase : Forall fit_c (phase_cmds (y_phase y));
  tk_fout : Forall fit_c (y_fout y);
  tk_own : forall d, y_sock y = Some d -> d_own d = own }.
Lemma find_fit : forall now t id n, reachable t -> wf_id id -> find_node now t id = Val (Some n) -> wf_nodes n /\ List.length (nodes_list n) <= 15.
Proof.
  intros now t id n R W H. destruct (@find_node_total now t id R W) as (o & E & F). rewrite H in E. injection E as <-. destruct F as (F1 & F2). split; [|exact F1].
  unfold wf_nodes. change (nodes_of n) with (nodes_list n). eapply Forall_impl; [|exact F2]. intros x X. split; [|apply (reachable_addrs R); exact X].
  apply in_nodes in X. destruct X as (j & b & X1 & X2). destruct (i_bkt (reachable_inv R) _ X1) as (_ & _ & Q5). apply (Q5 x X2).
Qed.
Lemma gstep_fit : forall now pick s i s' o, gstep now pick s i = Val (s', o) -> modest pick -> reachable (g_table s) -> map_fit (g_map s) -> wf_keys (g_peers s) -> fit_q i ->
  reachable (g_table s') /\ map_fit (g_map s') /\ wf_keys (g_peers s') /\ Forall fit_c o.
Proof.
  intros now pick s i s' o H M R MF K F.
  assert (ONE : forall fr t r, T fr t -> few r -> Forall fit_c [CReply fr t r]) by (intros; constructor; [split; assumption|constructor]).
  assert (TOUCH : forall id from t, wf_id id -> wf_addr from -> touch_node now id from (g_table s) = Val t -> reachable t) by (intros id from t W1 W2 E; exact (@rc_touch (g_table s) (mk_touch now id from) t R (conj W1 W2) E)).
  destruct i as [tg fr t|ih fr t|p ih|r|dr|a|op]; cbn [gstep fit_q] in *.
  - destruct F as (F1 & F2). unfold on_find_node in H. destruct (find_node _ _ _) as [[n|]| |] eqn:E; try discriminate; injection H as <- <-; (split; [exact R|]; split; [exact MF|]; split; [exact K|]); [|constructor].
    destruct (@find_fit _ _ _ _ R F1 E) as (N1 & N2). apply ONE; [exact F2|]. split; [exact N1|]. split; [exact N2|cbn; lia].
  - destruct F as (F1 & F2). unfold on_get_peers in H. destruct (find_peers pick s ih) as [[m r]| |] eqn:E; try discriminate. cbn [rbind fst snd] in H.
    assert (X : wf_keys m /\ forall l, r = Some l -> List.length l <= 216 /\ Forall wf_addr l).
    { unfold find_peers in E. change (DHT_MTU / COMPACT_PEER_LEN) with 216 in E. destruct (q_serve _ _); [exact (@keys_good _ _ _ _ K E)|]. injection E as <- <-. split; [exact K|]. intros l L. destruct (mget bytes_eqb ih (g_map s)) as [l0|] eqn:G; [|discriminate]. cbn [option_map] in L. injection L as <-.
      destruct (M 216 l0) as (M1 & M2). split; [exact M1|]. apply (mget_in bytes_eqb bytes_eqb_eq) in G. specialize (MF _ _ G). rewrite Forall_forall in *. intros x X. apply MF. apply M2. exact X. }
    destruct X as (X1 & X2). destruct r as [l|].
    + injection H as <- <-. cbn. split; [exact R|]. split; [exact MF|]. split; [exact X1|]. destruct (X2 _ eq_refl) as (X3 & X4). apply ONE; [exact F2|]. split; [exact X4|]. split; [cbn; lia|exact X3].
    + destruct (find_node _ _ _) as [[n|]| |] eqn:G; try discriminate; injection H as <- <-; cbn; (split; [exact R|]; split; [exact MF|]; split; [exact X1|]); [|constructor].
      destruct (@find_fit _ _ _ _ R F1 G) as (N1 & N2). apply ONE; [exact F2|]. split; [exact N1|]. split; [exact N2|cbn; lia].
  - injection H as <- <-. unfold store_new_peer. destruct (q_serve _ _); cbn; (split; [exact R|]); [split; [exact MF|]; split; [apply keys_insert; auto|constructor]|]. split; [|split; [exact K|constructor]].
    intros ih' l I. apply mset_in_b in I. destruct I as [I|I]; [|eapply MF; exact I]. injection I as -> ->. destruct (mget bytes_eqb ih (g_map s)) as [l|] eqn:E; [|constructor; auto].
    apply (mget_in bytes_eqb bytes_eqb_eq) in E. specialize (MF _ _ E). unfold set_add. destruct (existsb _ l); [exact MF|constructor; auto].
  - unfold on_resp in H. destruct r as [id fr|n fr id|fr tok v]; cbn [fit_r] in F.
    + destruct F as (F1 & F2). destruct (touch_node _ _ _ _) as [t| |] eqn:TN; try discriminate. injection H as <- <-. cbn. split; [eapply TOUCH; eauto|]. split; [exact MF|]. split; [exact K|constructor].
    + destruct F as (F1 & F2). destruct (touch_node _ _ _ _) as [t| |] eqn:TN; try discriminate. cbn [rbind] in H. destruct (unknown_addrs _ _) as [l| |]; try discriminate. injection H as <- <-. cbn. split; [eapply TOUCH; eauto|]. split; [exact MF|]. split; [exact K|].
      apply Forall_forall. intros c I. apply in_map_iff in I. destruct I as (a & <- & _). exact Logic.I.
    + injection H as <- <-. split; [exact R|]. split; [exact MF|]. split; [exact K|constructor].
  - unfold refresh_table in H. destruct (iter_over_ids _ _ _) as [ids| |]; try discriminate. cbn [rbind] in H. destruct (find_nodes_for _ _ _) as [os| |] eqn:E; try discriminate. injection H as <- <-. split; [exact R|]. split; [exact MF|]. split; [exact K|].
    apply Forall_forall. intros c I. destruct (@refresh_in _ _ _ _ _ E I) as (a & id & -> & _). exact Logic.I.
  - injection H as <- <-. split; [exact R|]. split; [exact MF|]. split; [exact K|repeat constructor].
  - destruct F.
Qed.
Lemma announce_fit : forall p ih m, Forall fit_c (announce_peer p ih m).
Proof. intros. apply Forall_forall. intros c I. unfold announce_peer in I. apply in_map_iff in I. destruct I as ((a & tok) & <- & _). exact Logic.I. Qed.
Lemma new_nodes_fit : forall ih l m, Forall fit_c (snd (new_nodes ih l m)).
Proof.
  intros ih l. induction l as [|x l IH]; intro m; cbn [new_nodes]; [constructor|]. destruct (mhas _ _ _); [apply IH|]. specialize (IH (mset addr_eqb (n_addr x) (FUnknown (n_id x)) m)).
  destruct (new_nodes _ _ _) as [m1 q1]. cbn [fst snd] in *. constructor; [exact I|exact IH].
Qed.
Lemma fstep_fit : forall um f e f' o, fstep um f e = Val (f', o) -> wf_keys (fs_peers f) -> (forall r, e = FResp r -> fit_r r) -> (forall op, e <> FShared op) -> wf_keys (fs_peers f') /\ Forall fit_c o.
Proof.
  intros um f e f' o H K R NS. destruct e as [|r| |op]; cbn [fstep] in H; [| | |destruct (NS op eq_refl)].
  - destruct (fs_busy f); [discriminate|]. injection H as <- <-. split; [exact K|]. apply Forall_forall. intros c I. apply in_map_iff in I. destruct I as (a & <- & _). exact Logic.I.
  - specialize (R _ eq_refl). destruct (fs_busy f); [|destruct r; discriminate]. destruct r as [id fr|n fr id|fr tok v]; try (injection H as <- <-; split; [exact K|constructor]).
    destruct (mget addr_eqb fr (fs_nodes f)) as [old|]; [|injection H as <- <-; split; [exact K|constructor]].
    destruct (on_answer um f old fr tok v) as [[[f1 go] q]| |] eqn:OA; try discriminate. cbn [rmap] in H.
    assert (Q : wf_keys (fs_peers f1) /\ Forall fit_c q).
    { unfold on_answer in OA. destruct v as [l|n].
      - pose proof (keys_extend K R) as KE. destruct (_ <=? _); [destruct (q_enough _ _) as [[m' b]| |] eqn:QE; try discriminate; cbn [rmap fst] in OA|]; injection OA as <- _ <-; (split; [|constructor]); cbn [fs_peers]; [eapply keys_enough; eauto|exact KE].
      - pose proof (new_nodes_fit (fs_info f) (nodes_list n) (mset addr_eqb fr (FPeerless (f_id old) tok) (fs_nodes f))) as NN. destruct (new_nodes _ _ _) as [m1 q1]. cbn [fst snd] in *.
        destruct (_ <=? _); [destruct (q_enough _ _) as [[m' b]| |] eqn:QE; try discriminate; cbn [rmap fst] in OA|]; injection OA as <- _ <-; (split; [|exact NN]); cbn [fs_peers]; [eapply keys_enough; eauto|exact K]. }
    destruct Q as (Q1 & Q2). destruct go; injection H as <- <-; [auto|]. cbn [end_round fs_peers]. split; [exact Q1|]. apply Forall_app. split; [exact Q2|]. apply announce_fit.
  - destruct (fs_busy f); [|discriminate]. injection H as <- <-. split; [exact K|]. apply announce_fit.
Qed.

Variable sha : bytes -> bytes.
Hypothesis SHA : forall s, List.length (sha s) = 20.
Variable usize_max : nat.
Variable cap : caps.
Variable tcp_port : N.
Notation ystep := (ystep sha usize_max cap tcp_port).
(** The events of one client. *)
Definition usual_y (e : yev) : Prop :=
  match e with
  | YIn from m => wf_addr from /\ sized m /\ forall t v name a, m = MQuery t v name a -> T from t
  | YCmd t => List.length t = 2
  | YTurn _ pick _ => modest pick
  | YShared o => Forall wf_addr (names o)
  | _ => True
  end.
Lemma reply_fit : forall d to t r, d_own d = own -> T to t -> few r -> fit_o (OSend to (resp_message (d_own d) t (token_for sha d to) r)).
Proof. intros d to t r O TT F. right. exists t, (token_for sha d to), r. rewrite O. split; [reflexivity|]. split; [exact TT|]. split; [exact F|]. apply SHA. Qed.
Lemma few_small : few PPing /\ few PAnnounce.
Proof. split; (split; [exact I|]; split; cbn; lia). Qed.
Lemma dstep_in_fit : forall d from m d' o, d_own d = own -> wf_addr from -> sized m -> (forall t v name a, m = MQuery t v name a -> T from t) -> DhtModel.dstep sha all_there d (EIn from m) = Val (d', o) -> d_own d' = own /\ Forall fit_o o.
Proof.
  intros d from m d' o O W S TT H. destruct m as [t v name a|t v r|t v er].
  - cbn [DhtModel.dstep] in H. specialize (TT _ _ _ _ eq_refl). destruct S as (_ & _ & S). destruct few_small as (FP & FA). destruct a as [id ih p tok|id x|id ih|id]; cbn [handle_query] in H; unfold to_listener, send_reply in H; cbn [e_listener all_there] in H.
    + destruct (token_is_valid _ _ _ _); [|injection H as <- <-; split; [exact O|constructor]]. cbn [rbind fst snd app] in H. injection H as <- <-. split; [exact O|]. constructor; [apply S|]. constructor; [exact (@reply_fit d from t PAnnounce O TT FA)|constructor].
    + injection H as <- <-. split; [exact O|]. constructor; [split; [apply S|exact TT]|constructor].
    + injection H as <- <-. split; [exact O|]. constructor; [split; [apply S|exact TT]|constructor].
    + injection H as <- <-. split; [exact O|]. constructor; [exact (@reply_fit d from t PPing O TT FP)|constructor].
  - rewrite dstep_resp in H. destruct (mget _ _ _) as [[k rq]|]; [|injection H as <- <-; split; [exact O|constructor]]. destruct (kind_eqb _ _); [|injection H as <- <-; split; [exact O|constructor]]. cbn [e_alive all_there] in H. injection H as <- <-. split; [exact O|]. constructor; [|constructor].
    destruct S as (_ & S). destruct r as [id tok v0|id n|id|id]; cbn [told fit_o fit_r]; try (split; [apply S|exact W]); [|destruct S]. destruct v0; [apply S|exact I].
  - cbn in H. injection H as <- <-. split; [exact O|constructor].
Qed.
Lemma ystep_talk : forall y e y' o, talk y -> ystep y e = Some (y', o) -> usual_y e -> talk y' /\ forall to m, In (to, m) o -> fit_send to m.
Proof.
  intros y e y' o S H D. pose proof S as [B1 B2 B3 B4 B5 B6 B7 B8 B9 B10 B11].
  assert (NIL : forall (P : Prop), P -> P /\ forall (to : addr) m, In (to, m) [] -> fit_send to m) by (intros P HH; split; [exact HH|intros ? ? []]).
  assert (TURN : forall z now pick i, talk z -> modest pick -> fit_q i -> talk (dht_turn z now pick i)).
  { intros z now pick i SZ MP E. pose proof SZ as [C1 C2 C3 C4 C5 C6 C7 C8 C9 C10 C11]. unfold dht_turn. destruct (gstep now pick (mgr_of z) i) as [[s os]| |] eqn:GS; try (split; cbn; auto; fail).
    destruct (@gstep_fit _ _ _ _ _ _ GS MP C1 C2 C3 E) as (X1 & X2 & X3 & X4). split; cbn; auto. }
  assert (NONE : forall z, talk z -> talk (with_sock z None [])) by (intros z [C1 C2 C3 C4 C5 C6 C7 C8 C9 C10 C11]; split; cbn; auto; discriminate).
  assert (GONE : forall z, talk z -> talk (with_phase z PGone)) by (intros z [C1 C2 C3 C4 C5 C6 C7 C8 C9 C10 C11]; split; cbn; auto).
  assert (IDLE : forall z, talk z -> talk (with_phase z PIdle)) by (intros z [C1 C2 C3 C4 C5 C6 C7 C8 C9 C10 C11]; split; cbn; auto).
  assert (FET : forall z f os p, talk z -> wf_keys p -> Forall fit_c os -> talk (with_fet z f os p)) by (intros z f os p [C1 C2 C3 C4 C5 C6 C7 C8 C9 C10 C11] K F; split; cbn; auto).
  assert (ALL : forall A (l : list A) (Q : A -> Prop) x, Forall Q l -> Q x -> Forall Q (l ++ [x])) by (intros; apply Forall_app; auto).
  destruct e as [from m|t| | | |now pick s| |n2 n3| | | | |a|op]; cbn [DhtSysModel.ystep] in H; cbn [usual_y] in D.
  - destruct (y_sock y) as [d|] eqn:SK; [|discriminate]. destruct (y_outs y); [|discriminate]. destruct (DhtModel.dstep sha all_there d (EIn from m)) as [[d' os]| |] eqn:DS; cbn [after_sock] in H; injection H as <- <-; apply NIL; [|apply NONE; exact S|apply NONE; exact S].
    destruct D as (D1 & D2 & D3). destruct (@dstep_in_fit _ _ _ _ _ (B11 _ eq_refl) D1 D2 D3 DS) as (X1 & X2). split; cbn; auto. intros d0 E. injection E as <-. exact X1.
  - destruct (y_sock y) as [d|] eqn:SK; [|discriminate]. destruct (y_outs y) eqn:OU; [|discriminate]. destruct (y_cmd y) as [|[req c] q]; [discriminate|]. inversion B8 as [|? ? M1 M2]; subst. cbn [snd] in M1.
    assert (SQ : talk (with_cmd y q)) by (split; cbn; rewrite ?OU, ?SK; auto).
    destruct (DhtModel.dstep _ _ _ _) as [[d' os]| |] eqn:DS; cbn [after_sock] in H; injection H as <- <-; apply NIL; [|apply NONE; exact SQ|apply NONE; exact SQ].
    assert (X : d_own d' = own /\ Forall fit_o os).
    { pose proof (B11 _ eq_refl) as O. destruct c as [to qu|to t' r].
      - rewrite dstep_query in DS. injection DS as <- <-. split; [exact O|]. constructor; [|constructor]. left. exists t, qu. rewrite O. auto.
      - cbn in DS. unfold send_reply in DS. injection DS as <- <-. split; [exact O|]. constructor; [|constructor]. apply reply_fit; [exact O|apply M1|apply M1]. }
    destruct X as (X1 & X2). split; cbn; auto. intros d0 E. injection E as <-. exact X1.
  - destruct (y_sock y) as [d|] eqn:SK; [|discriminate]. destruct (y_outs y) as [|x os] eqn:OU; [discriminate|]. inversion B4 as [|? ? M1 M2]; subst.
    assert (DROP : talk (with_sock y (Some d) os)) by (split; cbn; auto).
    destruct x as [to m|tg fr t|ih fr t|p ih|req r]; cbn [sock_out] in H; unfold hand_over in H.
    + injection H as <- <-. split; [exact DROP|]. intros to' m' [E|[]]. injection E as <- <-. exact M1.
    + destruct (dht_alive y); [|injection H as <- <-; apply NIL; apply NONE; exact S]. destruct (_ <? _); [|discriminate]. injection H as <- <-. apply NIL. split; cbn; auto; try (apply ALL; [exact B5|exact M1]).
    + destruct (dht_alive y); [|injection H as <- <-; apply NIL; apply NONE; exact S]. destruct (_ <? _); [|discriminate]. injection H as <- <-. apply NIL. split; cbn; auto; try (apply ALL; [exact B5|exact M1]).
    + destruct (dht_alive y); [|injection H as <- <-; apply NIL; apply NONE; exact S]. destruct (_ <? _); [|discriminate]. injection H as <- <-. apply NIL. split; cbn; auto; try (apply ALL; [exact B5|exact M1]).
    + destruct (req =? DHT).
      * destruct (dht_alive y); [|injection H as <- <-; apply NIL; apply NONE; exact S]. destruct (_ <? _); [|discriminate]. injection H as <- <-. apply NIL. split; cbn; auto.
      * destruct (match y_fet y with Some _ => true | None => false end); [|injection H as <- <-; apply NIL; apply NONE; exact S]. destruct (_ <? _); [|discriminate]. injection H as <- <-. apply NIL. split; cbn; auto.
  - destruct (y_sock y); [|discriminate]. destruct (y_outs y); [|discriminate]. injection H as <- <-. apply NIL. apply NONE. exact S.
  - destruct (y_sock y); [|discriminate]. destruct (y_outs y); [|discriminate]. destruct (y_cmd y); [|discriminate]. destruct (y_fet y); [discriminate|]. destruct (dht_alive y); [discriminate|]. injection H as <- <-. apply NIL. apply NONE. exact S.
  - destruct (y_phase y) eqn:PH; try discriminate. destruct s.
    + destruct (y_rd y) as [|r q]; [discriminate|]. inversion B6; subst. injection H as <- <-. apply NIL. apply TURN; [split; cbn; rewrite ?PH; auto|exact D|assumption].
    + destruct (y_qry y) as [|i q] eqn:QR; [destruct (sock_alive y); [discriminate|]; injection H as <- <-; apply NIL; apply GONE; exact S|].
      injection H as <- <-. apply NIL. inversion B5 as [|? ? X1 X2]; subst. apply TURN; [split; cbn; rewrite ?PH; auto|exact D|exact X1].
    + destruct (y_port y) as [|r q]; [discriminate|]. injection H as <- <-. apply NIL. apply TURN; [split; cbn; rewrite ?PH; auto|exact D|exact I].
    + destruct (y_port y); [|discriminate]. injection H as <- <-. apply NIL. apply GONE. exact S.
    + injection H as <- <-. apply NIL. apply TURN; [exact S|exact D|exact I].
    + injection H as <- <-. apply NIL. split; cbn; auto.
  - destruct (y_phase y) as [l| |l|] eqn:PH; try discriminate; cbn [phase_cmds] in B9.
    + destruct l as [|c l]; [injection H as <- <-; apply NIL; apply IDLE; exact S|]. destruct (sock_alive y); [|injection H as <- <-; apply NIL; apply GONE; exact S]. unfold send_cmd in H. destruct (_ <? _); [|discriminate]. injection H as <- <-. apply NIL. inversion B9; subst. split; cbn; auto.
    + destruct l as [|c l]; [discriminate|]. destruct (sock_alive y); [|injection H as <- <-; apply NIL; apply GONE; exact S]. unfold send_cmd in H. destruct (_ <? _); [|discriminate]. injection H as <- <-. apply NIL. inversion B9; subst. split; cbn; auto.
  - destruct (y_phase y) as [l| |l|]; try discriminate. destruct l; [|discriminate]. destruct (_ && _); [|injection H as <- <-; apply NIL; apply IDLE; exact S].
    destruct (spawn_fetcher _ _ _ _ _) as [[f|]| |]; injection H as <- <-; apply NIL; [|apply IDLE; exact S|apply GONE; exact S|apply GONE; exact S]. split; cbn; auto.
  - destruct (y_fet y) as [f|]; [|discriminate]. destruct (y_fout y); [|discriminate]. destruct (fstep _ _ _) as [[f' os]| |] eqn:FS; try discriminate; injection H as <- <-; apply NIL; [|apply FET; auto].
    destruct (@fstep_fit _ _ _ _ _ FS B3) as (X1 & X2); try discriminate. apply FET; auto.
  - destruct (y_fet y) as [f|]; [|discriminate]. destruct (y_fout y) eqn:FO; [|discriminate]. destruct (y_rf y) as [|r q]; [discriminate|]. inversion B7; subst. assert (SR : talk (with_rf y q)) by (split; cbn; rewrite ?FO; auto).
    destruct (fstep _ _ _) as [[f' os]| |] eqn:FS; try discriminate; injection H as <- <-; apply NIL; [|apply FET; auto]. destruct (@fstep_fit _ _ _ _ _ FS B3) as (X1 & X2); [intros r0 E; injection E as <-; assumption|discriminate|]. apply FET; auto.
  - destruct (y_fet y) as [f|]; [|discriminate]. destruct (y_fout y); [|discriminate]. destruct (fstep _ _ _) as [[f' os]| |] eqn:FS; try discriminate; injection H as <- <-; apply NIL; [|apply FET; auto].
    destruct (@fstep_fit _ _ _ _ _ FS B3) as (X1 & X2); try discriminate. apply FET; auto.
  - destruct (y_fet y) as [f|]; [|discriminate]. destruct (y_fout y) as [|c l]; [discriminate|]. destruct (sock_alive y); [|injection H as <- <-; apply NIL; apply FET; auto]. unfold send_cmd in H. destruct (_ <? _); [|discriminate]. injection H as <- <-. apply NIL. inversion B10; subst. split; cbn; auto.
  - destruct (_ && _); [|discriminate]. injection H as <- <-. apply NIL. split; cbn; auto.
  - destruct (q_step _ _) as [[m ot]| |] eqn:QS; try discriminate. injection H as <- <-. apply NIL. pose proof (@keys_step _ _ _ _ B3 D QS). split; cbn; auto.
Qed.
End one.

(** ** what is said fits and is understood *)
Lemma reply_len : forall own t tok r, wf_id own -> List.length t = 2 -> List.length tok = 20 -> few r -> List.length (kmsg_bytes (resp_message own t tok r)) <= BUF_LEN.
Proof.
  intros own t token r W TL K (A & NN & NV). rewrite (proj2 (@C73_sent own t W) token r A).
  pose proof (@ostr_len t 2 ltac:(change (10 ^ N.of_nat 2)%N with 100%N; lia) ltac:(lia)) as LT.
  pose proof (@ostr_len token 2 ltac:(change (10 ^ N.of_nat 2)%N with 100%N; lia) ltac:(lia)) as LK. unfold wf_id in W. change ID_LEN with 20 in W.
  assert (LN : forall n, wf_nodes n -> List.length (nodes_list n) <= 15 -> List.length (ostr (flat_map compact_node (nodes_of n))) <= 394).
  { intros n WN LE. change (nodes_list n) with (nodes_of n) in LE.
    assert (FL : List.length (flat_map compact_node (nodes_of n)) = 26 * List.length (nodes_of n)).
    { apply compact_nodes_len. eapply Forall_impl; [|exact WN]. intros x (X & _). exact X. }
    pose proof (@ostr_len (flat_map compact_node (nodes_of n)) 3 ltac:(change (10 ^ N.of_nat 3)%N with 1000%N; lia) ltac:(lia)). lia. }
  destruct r as [|n|[l|n]|]; cbn [bep5_answer wf_answer n_values n_nodes] in *; rewrite ?len_app, ?values_len, ?W;
    try (pose proof (LN n A NN)); rewrite ?K in *; unfold BUF_LEN; cbn [List.length str String.list_byte_of_string]; cbn; lia.
Qed.
Lemma query_len : forall own t q, wf_id own -> wf_query q -> List.length t = 2 -> (forall ih p tok, q = QAnnounce ih p tok -> List.length tok = 20) -> List.length (kmsg_bytes (query_message own t q)) <= BUF_LEN.
Proof.
  intros own t q W A TL K. rewrite (proj1 (@C73_sent own t W) q A).
  pose proof (@ostr_len t 2 ltac:(change (10 ^ N.of_nat 2)%N with 100%N; lia) ltac:(lia)) as LT. unfold wf_id in W. change ID_LEN with 20 in W.
  destruct q as [|g|ih|ih p tok]; cbn [bep5_query wf_query] in *; unfold wf_id in *; change ID_LEN with 20 in *; rewrite ?len_app, ?W, ?A; try (unfold BUF_LEN; cbn [List.length str String.list_byte_of_string]; cbn; lia).
  destruct A as (A & P). specialize (K _ _ _ eq_refl). pose proof (@ostr_len tok 2 ltac:(change (10 ^ N.of_nat 2)%N with 100%N; lia) ltac:(lia)) as LK.
  pose proof (@enc_num_len p 5 ltac:(change (10 ^ N.of_nat 5)%N with 100000%N; lia) ltac:(lia)) as LP. rewrite A. unfold BUF_LEN. cbn [List.length str String.list_byte_of_string]. cbn. lia.
Qed.

Section net.
Variable sha : bytes -> bytes.
Variable who : addr -> option client.
Hypothesis SHA : forall s, List.length (sha s) = 20.
Hypothesis EQ : forall a c, who a = Some c -> equipped a c.
Definition two (a : addr) (t : bytes) : Prop := who a <> None -> List.length t = 2.
Definition tok20 (a : addr) (tok : bytes) : Prop := who a <> None -> List.length tok = 20.
(** A message as it may be said to a client. *)
Definition plain (c : client) (m : kmsg) : Prop :=
  says c m /\ wf_kmsg m /\ List.length (kmsg_bytes m) <= BUF_LEN /\ (forall t v name a, m = MQuery t v name a -> List.length t = 2) /\ forall t v id tok vn, m = MResp t v (RGetPeers id tok vn) -> List.length tok = 20.
Definition chatty (c : client) (y : sys) : Prop := talk two (v_own c) y /\ asks (v_tcp c) (v_own c) (v_info c) yes1 tok20 yes3 y /\ aims y.
Definition ntalk (n : net) : Prop :=
  (forall a c, who a = Some c -> chatty c (h_sys (n_hosts n a)) /\ List.length (h_buf (n_hosts n a)) = BUF_LEN) /\
  forall d, In d (n_air n) -> exists c, who (g_from d) = Some c /\ (who (g_to d) <> None -> exists m, g_data d = kmsg_bytes m /\ plain c m).
Lemma send_plain : forall a c to m, who a = Some c -> fit_send two (v_own c) to m -> may_send (v_tcp c) (v_own c) (v_info c) yes1 tok20 to m -> m_ok m -> who to <> None -> plain c m.
Proof.
  intros a c to m W F S M C. destruct (EQ W) as (((W1 & W2 & W3) & _) & TP & _). destruct F as [(t & q & -> & L)|(t & tok & r & -> & TT & F & L)].
  - assert (Q : exists v name ar, query_message (v_own c) t q = MQuery t v name ar) by apply query_tid. destruct Q as (v & name & ar & E). destruct (S _ _ _ _ E) as (q' & E' & _ & Q).
    assert (q' = q) by (destruct q, q'; try discriminate E'; try reflexivity; injection E'; intros; subst; reflexivity). subst q'.
    assert (WQ : wf_query q). { destruct q as [|x|ih|ih p tok]; cbn [wf_query]; [exact I| |subst ih; exact W2|destruct Q as (-> & -> & _); auto]. eapply M. reflexivity. }
    assert (K : forall ih p tok, q = QAnnounce ih p tok -> List.length tok = 20) by (intros ih p tok ->; destruct Q as (_ & _ & Q); exact (Q C)).
    split; [left; eauto|]. split; [|split; [apply query_len; auto|split; [|destruct q; discriminate]]].
    + destruct q as [|x|ih|ih p tok]; cbn [query_message wf_query] in *; (split; [reflexivity|]); (split; [apply utf8_ok_iff; reflexivity|]); cbn; tauto.
    + intros t' v' n' a' E2. rewrite E in E2. injection E2 as <- _ _ _. exact L.
  - specialize (TT C). split; [right; exists t, tok, r; auto|]. split; [|split; [apply reply_len; auto|split; [destruct r; discriminate|]]].
    + destruct F as (F & _). destruct r as [|n|v|]; cbn in *; tauto.
    + intros t' v' id tk vn E. destruct r; try discriminate E. injection E as _ _ _ <- _. exact L.
Qed.
Lemma step_chatty : forall a c y e y' o, who a = Some c -> chatty c y -> ystep sha (v_max c) (v_caps c) (v_tcp c) y e = Some (y', o) -> usual_y two e ->
  (forall now pick draws, e = YTurn now pick (STick draws) -> enough draws) -> (forall from t v id tok vn, e = YIn from (MResp t v (RGetPeers id tok vn)) -> tok20 from tok) ->
  chatty c y' /\ forall to m, In (to, m) o -> who to <> None -> plain c m.
Proof.
  intros a c y e y' o W (T & A & B) H U D K. destruct (@ystep_talk two (v_own c) sha SHA _ _ _ _ _ _ _ T H U) as (T' & S1).
  assert (A' : asks (v_tcp c) (v_own c) (v_info c) yes1 tok20 yes3 y' /\ forall to m, In (to, m) o -> may_send (v_tcp c) (v_own c) (v_info c) yes1 tok20 to m).
  { eapply ystep_asks; [| | | | | |exact A|exact H]; unfold yes1, yes3; auto. intros from t v r E _. split; [auto|]. intros id tok vn ->. eapply K. exact E. }
  destruct A' as (A' & S2). destruct (@ystep_aims _ _ _ _ _ _ _ _ B H D) as (B' & S3). split; [split; [exact T'|split; [exact A'|exact B']]|].
  intros to m I C. eapply send_plain; eauto.
Qed.
Lemma none_chatty : forall c y, chatty c y -> chatty c (with_sock y None []).
Proof. intros c y (T & A & B). split; [destruct T; split; cbn; auto; discriminate|]. split; [destruct A; split; cbn; auto; discriminate|]. destruct B; split; cbn; auto. Qed.
Lemma receive_chatty : forall a c h from dg h', who a = Some c -> chatty c (h_sys h) -> List.length (h_buf h) = BUF_LEN -> wf_addr from -> receive sha c h from dg = Some h' ->
  (forall m, kmsg_from_bytes (recv_into (h_buf h) dg) = Val m -> (forall t v name x, m = MQuery t v name x -> two from t) /\ forall t v id tok vn, m = MResp t v (RGetPeers id tok vn) -> tok20 from tok) ->
  chatty c (h_sys h') /\ List.length (h_buf h') = BUF_LEN.
Proof.
  intros a c h from dg h' W C B WA H M. unfold receive in H. destruct (y_sock (h_sys h)); [|discriminate]. destruct (y_outs (h_sys h)); [|discriminate]. assert (L : List.length (recv_into (h_buf h) dg) = BUF_LEN) by (unfold recv_into; rewrite app_length, firstn_length, skipn_length, B; lia). destruct (kmsg_from_bytes _) as [m| |] eqn:K.
  - destruct (DhtSysModel.ystep _ _ _ _ _ _) as [[y o]|] eqn:ST; [|discriminate]. injection H as <-. destruct (M _ eq_refl) as (M1 & M2). destruct (@step_chatty _ _ _ _ _ _ W C ST) as (C' & _); [|discriminate| |auto].
    + split; [exact WA|]. split; [eapply C118_sizes; exact K|exact M1].
    + intros f t v id tok vn E. injection E as <- ->. eapply M2. reflexivity.
  - injection H as <-. auto.
  - injection H as <-. split; [apply none_chatty; exact C|exact L].
Qed.
Lemma put_chatty : forall n a c h air, who a = Some c -> ntalk n -> chatty c (h_sys h) -> List.length (h_buf h) = BUF_LEN ->
  (forall d, In d air -> exists c, who (g_from d) = Some c /\ (who (g_to d) <> None -> exists m, g_data d = kmsg_bytes m /\ plain c m)) -> ntalk (put_host n a h air).
Proof.
  intros n a c h air W (N1 & N2) F B A. split; cbn [put_host n_hosts n_air].
  - intros b c' W'. destruct (addr_eqb b a) eqn:E; [|auto]. apply addr_eqb_spec in E. subst b. rewrite W in W'. injection W' as <-. auto.
  - intros d I. apply in_app_or in I. destruct I; auto.
Qed.
(** What is said to a client is read as it was meant. *)
Lemma plain_read : forall c m buf, plain c m -> List.length buf = BUF_LEN -> kmsg_from_bytes (recv_into buf (kmsg_bytes m)) = Val (seen m).
Proof. intros c m buf (_ & W & L & _) B. unfold recv_into. rewrite firstn_all2 by exact L. apply C40_round_trip_partial. exact W. Qed.
Lemma nstep_talk : forall n e n', ntalk n -> nstep sha who n e = Some n' -> usual e -> ntalk n'.
Proof.
  intros n e n' N H U. pose proof N as (N1 & N2). destruct e as [a e|k|from to dg]; cbn [NetModel.nstep] in H.
  - destruct (who a) as [c|] eqn:W; [|discriminate]. destruct (is_in e) eqn:I; [discriminate|]. destruct (DhtSysModel.ystep _ _ _ _ _ _) as [[y o]|] eqn:ST; [|discriminate]. injection H as <-.
    destruct (N1 _ _ W) as (C & B). destruct (@step_chatty _ _ _ _ _ _ W C ST) as (C' & O).
    + destruct e; cbn in *; try exact Logic.I; try discriminate; try exact U. apply U.
    + intros now pick draws ->. apply U.
    + intros from t v id tok vn ->. discriminate.
    + eapply put_chatty; [exact W|exact N|exact C'|exact B|]. intros d J. apply in_map_iff in J. destruct J as ((to & m) & <- & J). exists c. split; [exact W|]. cbn [g_to g_data fst snd]. intro X. exists m. split; [reflexivity|eauto].
  - destruct (nth_error (n_air n) k) as [d|] eqn:E; [|discriminate]. apply nth_error_In in E. destruct (N2 _ E) as (c & W & X). unfold arrive in H. destruct (who (g_to d)) as [c'|] eqn:W'; [|discriminate]. destruct X as (m & D & P); [discriminate|].
    destruct (receive _ _ _ _ _) as [h|] eqn:R; [|discriminate]. injection H as <-. destruct (N1 _ _ W') as (C & B). destruct (@receive_chatty _ _ _ _ _ _ W' C B (proj1 (proj2 (proj1 (EQ W)))) R) as (C' & B').
    + rewrite D. intros m' K. rewrite (@plain_read _ _ _ P B) in K. injection K as <-. destruct P as (_ & _ & _ & P1 & P2). split.
      * intros t v name x Q _. destruct m as [t0 v0 n0 a0|t0 v0 r0|t0 v0 e0]; try discriminate Q. injection Q as -> -> -> ->. eapply P1. reflexivity.
      * intros t v id tok vn Q _. destruct m as [t0 v0 n0 a0|t0 v0 r0|t0 v0 e0]; try discriminate Q. cbn [seen] in Q. injection Q as _ _ Q. destruct r0 as [i0 tk [l0|n0]|? ?|?|?]; try discriminate Q; injection Q as _ <- _; eapply P2; reflexivity.
    + eapply put_chatty; [exact W'|exact N|exact C'|exact B'|intros ? []].
  - destruct (who from) eqn:W; [discriminate|]. unfold arrive in H. destruct (who to) as [c'|] eqn:W'; [|discriminate]. destruct (receive _ _ _ _ _) as [h|] eqn:R; [|discriminate]. injection H as <-. destruct (N1 _ _ W') as (C & B).
    destruct (@receive_chatty _ _ _ _ _ _ W' C B U R) as (C' & B').
    + intros m _. split; intros; intro X; destruct (X W).
    + eapply put_chatty; [exact W'|exact N|exact C'|exact B'|intros ? []].
Qed.
Lemma nrun_talk : forall es n n', ntalk n -> nrun sha who n es = Some n' -> (forall e, In e es -> usual e) -> ntalk n'.
Proof.
  induction es as [|e es IH]; intros n n' N H S; cbn [NetModel.nrun] in H; [injection H as <-; exact N|]. destruct (nstep sha who n e) as [n1|] eqn:ST; [|discriminate].
  eapply IH; [|exact H|intros; apply S; right; assumption]. eapply nstep_talk; [exact N|exact ST|]. apply S. left. reflexivity.
Qed.
Lemma start_talk : ntalk (net_start who).
Proof.
  split; [|intros ? []]. intros a c W. cbn [net_start n_hosts]. rewrite W. split; [|reflexivity]. cbn [host_start h_sys]. destruct (EQ W) as (((W1 & W2 & W3) & _ & R & ND) & _ & WA). 
  assert (P : Forall (fun c => match c with CQuery _ QPing => True | _ => False end) (start_pings (v_table c))) by (unfold start_pings; apply Forall_forall; intros x I; apply in_map_iff in I; destruct I as (y & <- & _); exact Logic.I).
  split; [|split].
  - split; cbn; auto.
    + intros ih l [E|[]]. injection E as <- <-. exact WA.
    + split; [exact ND|exact WA].
    + eapply Forall_impl; [|exact P]. intros [x q|x t r] H; [exact I|destruct H].
    + intros d E. injection E as <-. reflexivity.
  - eapply asks_mono; [| | |apply asks_start]; unfold yes1, yes3; auto. intros x t (id & v & h1 & h2 & t0 & y & o & E & _). destruct h1; discriminate E.
  - split; cbn; auto. eapply Forall_impl; [|exact P]. intros [x q|x t r] H; [destruct q; try destruct H; exact I|destruct H].
Qed.
End net.

(** Whatever strangers send and however the network behaves: a datagram one
    client sends to another is no longer than the receiver's buffer, and into
    whatever that buffer held before, it is read as what was meant - the lookup
    results, peers and tokens included. *)
Theorem C137_understood : forall sha who es n d, (forall s, List.length (sha s) = 20) -> (forall a c, who a = Some c -> equipped a c) -> (forall e, In e es -> usual e) ->
  nrun sha who (net_start who) es = Some n -> In d (n_air n) -> who (g_to d) <> None ->
  exists c m, who (g_from d) = Some c /\ says c m /\ g_data d = kmsg_bytes m /\ List.length (g_data d) <= 2600 /\
    forall buf, List.length buf = 2600 -> kmsg_from_bytes (recv_into buf (g_data d)) = Val (seen m).
Proof.
  intros sha who es n d SHA EQ U R I C. destruct (@nrun_talk sha who SHA EQ _ _ _ (@start_talk who EQ) R U) as (_ & N). destruct (N _ I) as (c & W & X). destruct (X C) as (m & D & P). exists c, m. split; [exact W|]. split; [apply P|]. split; [exact D|]. rewrite D. split; [apply P|]. intros buf B. exact (@plain_read _ _ _ P B).
Qed.

(** The example of NetProps.v: the second client is asked by the first and the
    third, and answers with nodes and with peers. *)
Definition drawn (e : nev) : nev := match e with NDo a (YCmd []) => NDo a (YCmd [x00; x00]) | _ => e end.
Definition ex_talk : list nev := map drawn ex_run.
Definition ex_peer (r : res kmsg) : bool :=
  match r with Val (MResp _ _ (RGetPeers _ tok (VValues [p]))) => (List.length tok =? 20) && addr_eqb p (mk_addr x01 x01 x01 x01 6001) | _ => false end.
Lemma ex_peer_ok : forall x, ex_peer x = true -> exists t v id tok p, x = Val (MResp t v (RGetPeers id tok (VValues [p]))).
Proof. intros x E. unfold ex_peer in E. destruct x as [[t v nm a|t v r|t v er]| |]; try discriminate E. destruct r as [id tok [[|p [|p2 l]]|n]|? ?|?|?]; try discriminate E. exists t, v, id, tok, p. reflexivity. Qed.
Definition ex_values (d : dgram) : bool :=
  addr_eqb (g_from d) addr_b && addr_eqb (g_to d) addr_c &&
  ex_peer (kmsg_from_bytes (g_data d)).
Lemma ex_talks : exists n, nrun ex_sha ex_who (net_start ex_who) ex_talk = Some n /\ existsb ex_values (n_air n) = true.
Proof. apply (@checked _ (fun n => existsb ex_values (n_air n))). vm_compute. reflexivity. Qed.
Lemma ex_equipped : forall a c, ex_who a = Some c -> equipped a c.
Proof.
  intros a c W. split; [apply ex_fit; exact W|]. unfold ex_who in W. repeat (destruct (addr_eqb _ _) in W; [injection W as <-; split; [reflexivity|constructor]|]). discriminate.
Qed.
Lemma pk_modest : modest pk.
Proof. intros k l. split; [apply firstn_le_length|]. intros x X. rewrite <- (firstn_skipn k l). apply in_or_app. left. exact X. Qed.
Example C137_example : (forall s, List.length (ex_sha s) = 20) /\ (forall a c, ex_who a = Some c -> equipped a c) /\ (forall e, In e ex_talk -> usual e) /\
  exists n d, nrun ex_sha ex_who (net_start ex_who) ex_talk = Some n /\ In d (n_air n) /\ ex_who (g_to d) <> None /\
    exists t v id tok p, kmsg_from_bytes (g_data d) = Val (MResp t v (RGetPeers id tok (VValues [p]))).
Proof.
  split; [|split; [exact ex_equipped|split]].
  - intro s. unfold ex_sha. rewrite firstn_length, app_length, repeat_length. lia.
  - apply Forall_forall. unfold ex_talk, ex_run, meet, search, announce. cbn [app map drawn]. repeat apply Forall_cons; try apply Forall_nil; cbn [usual]; try exact I; try reflexivity; split; try exact pk_modest; exact I.
  - destruct ex_talks as (n & R & E). apply existsb_exists in E. destruct E as (d & D & E). unfold ex_values in E. apply andb_true_iff in E. destruct E as (E & E3). apply andb_true_iff in E. destruct E as (_ & E2). apply addr_eqb_spec in E2.
    exists n, d. split; [exact R|]. split; [exact D|]. split; [rewrite E2; discriminate|]. exact (ex_peer_ok _ E3).
Qed.

Print Assumptions C137_understood.
