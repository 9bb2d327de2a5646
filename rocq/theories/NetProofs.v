(** Lemmas about a network of clients. *)
From Coq Require Import Strings.String.
From Coq Require Import List NArith ZArith Lia Bool Arith Permutation Sorting.Sorted.
From Coq Require Import Init.Byte.
From Verif Require Import Base Assoc IdModel WireModel TableModel PeersModel PeersSpec PeersProofs BencodeModel BencodeSpec BencodeProofs KrpcModel KrpcSpec KrpcProofs DhtModel DhtMgrModel FetchModel TaskModel DhtSysModel DhtSysSpec DhtAskSpec DhtAskProps NetModel NetSpec.
Import ListNotations.
Set Implicit Arguments.
Local Open Scope list_scope.

(** ** what a client's datagrams are read as *)
Lemma ordered_kdict : forall l, sortedb (map fst (fold_right key_ins [] l)) = true -> Forall (fun kv => ordered (snd kv)) (fold_right key_ins [] l) -> ordered (kdict l).
Proof. intros l S F. constructor; [exact F|apply sortedb_ok; exact S]. Qed.
Lemma ordered_args : forall a, ordered (args_bval a).
Proof. intros []; (apply ordered_kdict; [reflexivity|]); cbn; repeat constructor. Qed.
Lemma ordered_query : forall own t q, ordered (kmsg_bval (query_message own t q)).
Proof. intros own t []; (apply ordered_kdict; [reflexivity|]); cbn -[args_bval]; repeat apply Forall_cons; try apply Forall_nil; cbn -[args_bval]; try apply o_str; apply ordered_args. Qed.
Lemma ordered_reply : forall own t tok r, ordered (kmsg_bval (resp_message own t tok r)).
Proof.
  intros own t tok r. assert (H : exists r', resp_message own t tok r = MResp t x72 r') by (destruct r; eexists; reflexivity). destruct H as (r' & ->).
  apply ordered_kdict; [reflexivity|]; cbn -[resp_bval]; repeat apply Forall_cons; try apply Forall_nil; cbn -[resp_bval]; try apply o_str. apply wire_resp.
Qed.
(** A whole value is read, or nothing if the datagram is too long. *)
Lemma read_enc : forall buf v, length buf = BUF_LEN -> ordered v -> nest v <= 3 -> forall m, kmsg_from_bytes (recv_into buf (enc v)) = Val m \/ kmsg_from_bytes (recv_into buf (enc v)) = Panic ->
  kmsg_from_bytes (recv_into buf (enc v)) = p_kmsg v.
Proof.
  intros buf v B O N m H. pose proof depth3 as D3. unfold recv_into in *. destruct (le_lt_dec (length (enc v)) BUF_LEN) as [L|L].
  - rewrite firstn_all2 in * by exact L. unfold kmsg_from_bytes, decode in *. rewrite decode_enc in * by (auto; lia). destruct (ints_ok v); [reflexivity|destruct H; discriminate].
  - exfalso. rewrite (@skipn_all2 _ _ buf) in H by lia. rewrite app_nil_r in H. unfold kmsg_from_bytes in H. destruct (decode (firstn BUF_LEN (enc v))) as [[w tl]|] eqn:D; [|destruct H; discriminate].
    apply decode_inv in D. destruct D as (E & Ow & Nw).
    pose proof (@decode_enc (3 + MAX_DEPTH) w (tl ++ skipn BUF_LEN (enc v)) Ow ltac:(lia)) as D1. rewrite app_assoc, <- E, firstn_skipn in D1.
    pose proof (@decode_enc (3 + MAX_DEPTH) v [] O ltac:(lia)) as D2. rewrite app_nil_r in D2. rewrite D2 in D1. injection D1 as -> D1.
    assert (Z : skipn BUF_LEN (enc w) = []) by (destruct tl; [symmetry; exact D1|discriminate]). apply (f_equal (@length _)) in Z. rewrite skipn_length in Z. cbn [length] in Z. lia.
Qed.
Definition resp_id (r : resp) : ID := match r with RGetPeers id _ _ | RFindNode id _ | RPing id | RAnnounce id => id end.
Lemma p_id_inv : forall s i, p_id (BStr s) = Val i -> i = s.
Proof. intros s i H. unfold p_id, id_deserialize in H. destruct (_ =? _); [injection H as <-; reflexivity|discriminate]. Qed.
Lemma p_id_str : forall s, p_id (BStr s) = Val s \/ p_id (BStr s) = Panic.
Proof. intros s. unfold p_id, id_deserialize. destruct (_ =? _); auto. Qed.
Lemma p_resp_id : forall r r', p_resp (resp_bval r) = Val r' -> resp_id r' = resp_id r.
Proof.
  intros r r' H. assert (X : exists l, resp_bval r = BDict l /\ lookup (str "id") l = Some (BStr (resp_id r))) by (destruct r as [id tok [l|n]|id n|id|id]; eexists; split; reflexivity).
  destruct X as (l & E & L). rewrite E in H. unfold p_resp, field in H. rewrite L in H. destruct (p_id_str (resp_id r)) as [P|P]; rewrite P in H; [|discriminate]. cbn [rmap rbind need] in H.
  repeat match type of H with
  | orelse ?a _ = _ => let x := fresh "x" in destruct a as [x| |] eqn:?; cbn [orelse] in H
  end; try discriminate; subst.
  all: repeat match goal with
  | X : rbind ?a _ = Val _ |- _ => let x := fresh "x" in destruct a as [x| |] eqn:?; cbn [rbind] in X; try discriminate
  | X : Val _ = Val _ |- _ => injection X as <-
  end; try reflexivity.
Qed.
Lemma read_reply : forall buf own t tok r m, length buf = BUF_LEN -> kmsg_from_bytes (recv_into buf (kmsg_bytes (resp_message own t tok r))) = Val m ->
  exists v r', m = MResp t v r' /\ resp_id r' = own.
Proof.
  intros buf own t tok r m B H. unfold kmsg_bytes in H. assert (R : kmsg_from_bytes (recv_into buf (enc (kmsg_bval (resp_message own t tok r)))) = p_kmsg (kmsg_bval (resp_message own t tok r))).
  { eapply read_enc; [exact B|apply ordered_reply|apply nest_kmsg|left; exact H]. }
  rewrite R in H. clear R. assert (X : exists r', resp_message own t tok r = MResp t x72 r' /\ resp_id r' = own) by (destruct r; eexists; split; reflexivity). destruct X as (r1 & E & E1). rewrite E in H. clear E.
  unfold p_kmsg, kmsg_bval, kdict in H. cbn [fold_right key_ins fst str] in H. unfold field in H. cbn -[p_resp resp_bval p_type] in H. destruct (p_resp (resp_bval r1)) as [r2| |] eqn:P; cbn -[p_type] in H; try discriminate.
  cbn in H. injection H as <-. exists x72, r2. split; [reflexivity|]. rewrite <- E1. eapply p_resp_id. exact P.
Qed.
Lemma read_query : forall buf own t q m, length buf = BUF_LEN -> kmsg_from_bytes (recv_into buf (kmsg_bytes (query_message own t q))) = Val m ->
  exists v name a, m = MQuery t v name a /\ forall id ih p tok, a = AAnnounce id ih p tok -> q = QAnnounce ih p tok.
Proof.
  intros buf own t q m B H. unfold kmsg_bytes in H. assert (R : kmsg_from_bytes (recv_into buf (enc (kmsg_bval (query_message own t q)))) = p_kmsg (kmsg_bval (query_message own t q))).
  { eapply read_enc; [exact B|apply ordered_query|apply nest_kmsg|left; exact H]. }
  rewrite R in H. clear R.
  assert (X : exists name a, query_message own t q = MQuery t x71 name a /\ utf8_ok name = true /\ forall a', p_args (args_bval a) = Val a' -> forall id ih p tok, a' = AAnnounce id ih p tok -> q = QAnnounce ih p tok).
  { destruct q as [|g|ih|ih p tok]; (do 2 eexists; split; [reflexivity|]; split; [reflexivity|]); intros a' P id' ih' p' tok' ->; unfold p_args, args_bval, kdict, field in P; cbn -[p_id p_uint] in P;
    repeat match type of P with context [p_id (BStr ?s)] => let Q := fresh in destruct (p_id_str s) as [Q|Q]; rewrite Q in P; cbn -[p_id p_uint] in P; try discriminate end.
    destruct (p_uint 65535 (BInt (Z.of_N p))) as [u| |] eqn:U; cbn -[p_uint] in P; try discriminate.
    unfold p_uint in U. destruct (_ && _); [|discriminate]. injection U as <-. injection P as <- <- <- <-. rewrite N2Z.id. reflexivity. }
  destruct X as (name & a & E & U & X). rewrite E in H. clear E. unfold p_kmsg, kmsg_bval, kdict in H. cbn [fold_right key_ins fst str] in H. unfold field in H. cbn -[p_args args_bval p_type p_string] in H. destruct (p_args (args_bval a)) as [a'| |] eqn:P; cbn -[p_type p_string] in H; try discriminate.
  unfold p_string in H. rewrite U in H. cbn in H. injection H as <-. exists x71, name, a'. split; [reflexivity|]. eapply X. reflexivity.
Qed.

(** ** pairs of id and address in the table *)
Section pairs.
Variable P : ID -> addr -> Prop.
Definition all_pairs (t : table) : Prop := forall n, In n (t_nodes t) -> P (n_id n) (n_addr n).
Lemma all_pairs_slots : forall t, all_pairs t <-> forall b n, In b (t_data t) -> In (Some n) (b_data b) -> P (n_id n) (n_addr n).
Proof.
  intro t. unfold all_pairs, t_nodes. split.
  - intros H b n B I. apply H. apply in_flat_map. exists b. split; [exact B|]. unfold iter_nodes, flatten. apply in_flat_map. exists (Some n). split; [exact I|left; reflexivity].
  - intros H n I. apply in_flat_map in I. destruct I as (b & B & I). unfold iter_nodes, flatten in I. apply in_flat_map in I. destruct I as ([m|] & M & I); [|destruct I]. destruct I as [->|[]]. eauto.
Qed.
Lemma touch_first_pairs : forall now id l n, In (Some n) (touch_first now id l) -> exists m, In (Some m) l /\ n_addr m = n_addr n /\ n_id m = n_id n.
Proof.
  intros now id l. induction l as [|s l IH]; intros n H; [destruct H|]. cbn [touch_first] in H. destruct (slot_has id s).
  - destruct H as [H|H]; [|exists n; split; [right; exact H|auto]]. destruct s as [m|]; [|discriminate]. injection H as <-. exists m. split; [left; reflexivity|auto].
  - destruct H as [->|H]; [exists n; split; [left; reflexivity|auto]|]. destruct (IH _ H) as (m & M & E). exists m. split; [right; exact M|exact E].
Qed.
Lemma split_pairs : forall t t', t_split t = Val t' -> all_pairs t -> all_pairs t'.
Proof.
  intros t t' H A. rewrite all_pairs_slots in *. intros b' n B I. unfold t_split in H. destruct (rev (t_data t)) as [|b l] eqn:R; [discriminate|]. destruct (b_split b) as [[z o]| |] eqn:S; try discriminate. cbn [rbind] in H.
  destruct (bit_based_order _ _ _ _) as [oo| |] eqn:BO; try discriminate. cbn [rbind] in H. injection H as <-. cbn [t_data] in B.
  assert (BI : In b (t_data t)) by (apply in_rev; rewrite R; left; reflexivity).
  apply in_app_or in B. destruct B as [B|B].
  { apply (A b' n); [|exact I]. clear - B. revert B. induction (t_data t) as [|x [|y q] IH]; intro B; [destruct B|destruct B|]. cbn [removelast] in B. destruct B as [->|B]; [left; reflexivity|right; apply IH; exact B]. }
  assert (X : b' = z \/ b' = o).
  { unfold bit_based_order in BO. destruct (get_bit _ _) as [[]| |]; try discriminate; cbn in BO; injection BO as <-; cbn in B; intuition. }
  unfold b_split in S. destruct (split_loop _ _ _ _ _ _) as [[zs os]| |] eqn:SL; try discriminate. cbn [rbind fst snd] in S. injection S as <- <-.
  assert (Y : In (Some n) zs \/ In (Some n) os) by (destruct X as [->| ->]; cbn in I; auto).
  destruct (@split_loop_in _ _ _ _ _ _ _ _ n SL Y) as [J|[J|J]]; [|destruct (no_some _ _ J)..].
  apply (A b n BI). unfold iter_nodes, flatten in J. apply in_flat_map in J. destruct J as ([m|] & M & J); [|destruct J]. destruct J as [->|[]]. exact M.
Qed.
Lemma upd_pairs : forall t i b b', nth_error (t_data t) i = Some b -> all_pairs t ->
  (forall n, In (Some n) (b_data b') -> P (n_id n) (n_addr n) \/ exists m, In (Some m) (b_data b) /\ n_addr m = n_addr n /\ n_id m = n_id n) ->
  all_pairs (mk_table (t_own t) (upd (t_data t) i b')).
Proof.
  intros t i b b' N A H. rewrite all_pairs_slots in *. intros c n C I. cbn [t_data] in C. apply in_upd in C. destruct C as [->|C]; [|eauto].
  destruct (H n I) as [J|(m & M & <- & <-)]; [exact J|]. apply (A b m); [eapply nth_error_In; eauto|exact M].
Qed.
Lemma touch_pairs : forall now id x t t', touch_node now id x t = Val t' -> P id x -> all_pairs t -> all_pairs t'.
Proof.
  intros now id x t t' H G A. unfold touch_node in H. destruct (find_bucket_idx t id) as [i| |]; try discriminate. cbn [rbind] in H. destruct (nth_error (t_data t) i) as [b|] eqn:N; [|discriminate].
  destruct (get_node b id) as [g|].
  { injection H as <-. eapply upd_pairs; [exact N|exact A|]. intros n J. right. eapply touch_first_pairs; exact J. }
  clear N b i. revert t t' H A. generalize (S MAX_BUCKETS) as fuel. induction fuel as [|fuel IH]; intros t t' H A; cbn [insert_new_good] in H; [discriminate|].
  destruct (t_try_insert now id x t) as [t1| |] eqn:T; try discriminate.
  - injection H as <-. unfold t_try_insert in T. destruct (find_bucket_idx t id) as [i| |]; try discriminate. cbn [rbind] in T. destruct (nth_error (t_data t) i) as [b|] eqn:N; [|discriminate].
    destruct (b_try_insert now id x b) as [b'| |] eqn:B; try discriminate. cbn [rbind] in T. injection T as <-. eapply upd_pairs; [exact N|exact A|]. intros n J. unfold b_try_insert in B. destruct (get_node b id).
    + injection B as <-. right. eapply touch_first_pairs; exact J.
    + destruct (replaceable_idx now b); [|discriminate]. injection B as <-. cbn [b_data] in J. apply in_upd in J. destruct J as [J|J]; [injection J as ->; left; exact G|right; eauto].
  - destruct (id_within_splittable t id) as [w| |]; try discriminate. cbn [rbind] in H. destruct (negb w); [injection H as <-; auto|]. destruct (max_depth_reached t); [injection H as <-; auto|].
    destruct (t_split t) as [t1| |] eqn:S; try discriminate. cbn [rbind] in H. eapply IH; [exact H|]. eapply split_pairs; eauto.
Qed.
End pairs.

(** ** one client *)
Section client.
Variable sha : bytes -> bytes.
Variable usize_max : nat.
Variable cap : caps.
Variable tcp_port : N.
Variable own info : ID.
(** What may be said about nodes and about peers. *)
Variable G : ID -> addr -> Prop.
Variable P : addr -> ID -> Prop.
Notation ystep := (ystep sha usize_max cap tcp_port).
Definition resp_true (r : from_resp) : Prop := match r with FTouch id from | FNewNodes _ from id => G id from | FGetPeers _ _ _ => True end.
Definition own_reply (m : kmsg) : Prop := forall t v r, m = MResp t v r -> exists tok pr, m = resp_message own t tok pr.
Definition no_error (m : kmsg) : Prop := forall t v e, m <> MError t v e.
Definition out_true (o : out) : Prop :=
  match o with OSend _ m => own_reply m /\ no_error m | OResp _ r => resp_true r | ONewPeer p ih => P p ih | _ => True end.
Definition gin_true (i : gin) : Prop := match i with GNewPeer p ih => P p ih | GResp r => resp_true r | _ => True end.
Definition map_true (m : peer_map) : Prop := forall ih l p, In (ih, l) m -> In p l -> ih = info \/ P p ih.
Record truth (y : sys) : Prop := mk_truth {
  tr_own : forall d, y_sock y = Some d -> d_own d = own;
  tr_info : g_info (k_mgr (y_dht y)) = info;
  tr_outs : Forall out_true (y_outs y);
  tr_qry : Forall gin_true (y_qry y);
  tr_rd : Forall resp_true (y_rd y);
  tr_table : all_pairs G (g_table (k_mgr (y_dht y)));
  tr_stored : forall t, y_stored y = Some t -> all_pairs G t;
  tr_map : map_true (g_map (k_mgr (y_dht y)))
}.
Lemma gstep_truth : forall now pick s i s' o, gstep now pick s i = Val (s', o) -> gin_true i -> g_info s = info -> all_pairs G (g_table s) -> map_true (g_map s) ->
  g_info s' = info /\ all_pairs G (g_table s') /\ map_true (g_map s').
Proof.
  intros now pick s i s' o H T N A M. destruct i as [tg fr t|ih fr t|p ih|r|dr|a|op]; cbn [gstep] in H.
  - unfold on_find_node in H. destruct (find_node _ _ _); try discriminate. injection H as <- _. auto.
  - unfold on_get_peers in H. destruct (find_peers pick s ih) as [[m r]| |]; try discriminate. cbn [rbind fst snd] in H.
    destruct r as [l|]; [injection H as <- _; auto|]. destruct (find_node _ _ _); try discriminate. injection H as <- _. auto.
  - injection H as <- _. unfold store_new_peer. destruct (q_serve _ _) eqn:Q; cbn [g_info g_table g_map]; split; auto; split; auto.
    intros ih' l p' I J. apply mset_in_b in I. destruct I as [I|I]; [|eapply M; eauto]. injection I as -> ->. destruct (mget bytes_eqb ih (g_map s)) as [l|] eqn:E.
    + unfold set_add in J. destruct (existsb _ l); [eapply M; [eapply mget_in; [exact bytes_eqb_eq|exact E]|exact J]|]. destruct J as [<-|J]; [right; exact T|]. eapply M; [eapply mget_in; [exact bytes_eqb_eq|exact E]|exact J].
    + destruct J as [<-|[]]. right. exact T.
  - unfold on_resp in H. destruct r as [id fr|n fr id|fr tok v]; cbn [gin_true resp_true] in T.
    + destruct (touch_node _ _ _ _) as [t| |] eqn:TN; try discriminate. injection H as <- _. cbn. split; [exact N|]. split; [|exact M]. eapply touch_pairs; eauto.
    + destruct (touch_node _ _ _ _) as [t| |] eqn:TN; try discriminate. cbn [rbind] in H. destruct (unknown_addrs _ _); try discriminate. injection H as <- _. cbn. split; [exact N|]. split; [|exact M]. eapply touch_pairs; eauto.
    + injection H as <- _. auto.
  - unfold refresh_table in H. destruct (iter_over_ids _ _ _); try discriminate. cbn [rbind] in H. destruct (find_nodes_for _ _ _); try discriminate. injection H as <- _. auto.
  - injection H as <- _. auto.
  - destruct (q_step _ _); try discriminate. injection H as <- _. auto.
Qed.
Lemma reply_own : forall d t tok r, d_own d = own -> own_reply (resp_message (d_own d) t tok r).
Proof. intros d t tok r O t' v r' E. rewrite O in *. destruct r; injection E as <- <- <-; exists tok; [exists PPing|exists (PFindNode n)|exists (PGetPeers v0)|exists PAnnounce]; reflexivity. Qed.
Lemma reply_fine : forall d t tok r, no_error (resp_message (d_own d) t tok r).
Proof. intros d t tok [] ? ? ?; discriminate. Qed.
Lemma query_fine : forall o t q, own_reply (query_message o t q) /\ no_error (query_message o t q).
Proof. intros o t []; split; intros ? ? ?; discriminate. Qed.
Lemma dstep_truth : forall d x d' os, DhtModel.dstep sha all_there d x = Val (d', os) -> d_own d = own ->
  (forall from m, x = EIn from m -> (forall t v r, m = MResp t v r -> G (resp_id r) from) /\ forall t v name id ih p tok, m = MQuery t v name (AAnnounce id ih p tok) -> P (set_port from p) ih) ->
  d_own d' = own /\ Forall out_true os.
Proof.
  intros d x d' os H O R. destruct x as [req tg q t|tg t r|from m]; cbn [DhtModel.dstep] in H.
  - unfold send_query in H. destruct (kind_of_msg _) as [k| |]; try discriminate. injection H as <- <-. split; [exact O|]. constructor; [|constructor]. apply query_fine.
  - unfold send_reply in H. injection H as <- <-. split; [exact O|]. constructor; [|constructor]. split; [apply reply_own; exact O|apply reply_fine].
  - destruct (R _ _ eq_refl) as (R1 & R2). destruct m as [t v name a|t v r|t v er].
    + destruct a as [id ih p tok|id tg|id ih|id]; cbn [handle_query to_listener all_there e_listener] in H; unfold send_reply in H.
      * destruct (token_is_valid _ _ _ _); [|injection H as <- <-; auto]. cbn [rbind fst snd app] in H. injection H as <- <-. split; [exact O|]. constructor; [eapply R2; reflexivity|]. constructor; [|constructor]. split; [apply (@reply_own d t [] PAnnounce O)|intros ? ? ?; discriminate].
      * injection H as <- <-. split; [exact O|]. repeat constructor.
      * injection H as <- <-. split; [exact O|]. repeat constructor.
      * injection H as <- <-. split; [exact O|]. constructor; [|constructor]. split; [apply (@reply_own d t [] PPing O)|intros ? ? ?; discriminate].
    + unfold handle_resp in H. destruct (pend_get (d_pending d) t (kind_of_resp r)) as [pd [req|]]; cbn [all_there e_alive] in H; injection H as <- <-; (split; [exact O|]); [|constructor]. constructor; [|constructor].
      specialize (R1 _ _ _ eq_refl). destruct r; cbn in R1 |- *; auto.
    + injection H as <- <-. auto.
Qed.
Lemma ystep_truth : forall y e y' o, truth y -> ystep y e = Some (y', o) ->
  (forall from m, e = YIn from m -> (forall t v r, m = MResp t v r -> G (resp_id r) from) /\ forall t v name id ih p tok, m = MQuery t v name (AAnnounce id ih p tok) -> P (set_port from p) ih) ->
  truth y' /\ forall to m, In (to, m) o -> own_reply m /\ no_error m.
Proof.
  intros y e y' o S H R. pose proof S as [B1 B2 B3 B4 B5 B6 B7 B8].
  assert (NIL : forall (Q : Prop), Q -> Q /\ forall to m, In (to, m) (@nil (addr * kmsg)) -> own_reply m /\ no_error m) by (intros Q HH; split; [exact HH|intros ? ? []]).
  assert (TURN : forall z now pick i, truth z -> gin_true i -> truth (dht_turn z now pick i)).
  { intros z now pick i SZ MI. pose proof SZ as [C1 C2 C3 C4 C5 C6 C7 C8]. unfold dht_turn. destruct (gstep now pick (mgr_of z) i) as [[s os]| |] eqn:GS; try (split; cbn; auto; fail).
    destruct (@gstep_truth _ _ _ _ _ _ GS MI C2 C6 C8) as (X & Y & Z). split; cbn; auto. }
  assert (NONE : forall z, truth z -> truth (with_sock z None [])) by (intros z [C1 C2 C3 C4 C5 C6 C7 C8]; split; cbn; auto; discriminate).
  assert (PH : forall z p, truth z -> truth (with_phase z p)) by (intros z p [C1 C2 C3 C4 C5 C6 C7 C8]; split; cbn; auto).
  assert (FE : forall z f os m, truth z -> truth (with_fet z f os m)) by (intros z f os m [C1 C2 C3 C4 C5 C6 C7 C8]; split; cbn; auto).
  assert (CMD : forall z q, truth z -> truth (with_cmd z q)) by (intros z q [C1 C2 C3 C4 C5 C6 C7 C8]; split; cbn; auto).
  destruct e as [from m|t| | | |now pick s| |n2 n3| | | | |a|op]; cbn [DhtSysModel.ystep] in H.
  - destruct (y_sock y) as [d|] eqn:SK; [|discriminate]. destruct (y_outs y) eqn:OU; [|discriminate]. destruct (DhtModel.dstep sha all_there d (EIn from m)) as [[d' os]| |] eqn:DS; cbn [after_sock] in H; injection H as <- <-; apply NIL; [|apply NONE; exact S|apply NONE; exact S].
    destruct (@dstep_truth _ _ _ _ DS (B1 _ eq_refl)) as (X & Y). { intros f m' E. injection E as <- <-. apply R. reflexivity. } split; cbn; auto. intros d0 E0. injection E0 as <-. exact X.
  - destruct (y_sock y) as [d|] eqn:SK; [|discriminate]. destruct (y_outs y) eqn:OU; [|discriminate]. destruct (y_cmd y) as [|[req c] q] eqn:CM; [discriminate|].
    destruct (DhtModel.dstep _ _ _ _) as [[d' os]| |] eqn:DS; cbn [after_sock] in H; injection H as <- <-; apply NIL; [|apply NONE; apply CMD; exact S|apply NONE; apply CMD; exact S].
    destruct (@dstep_truth _ _ _ _ DS (B1 _ eq_refl)) as (X & Y). { intros f m' E. destruct c; discriminate. } split; cbn; auto. intros d0 E0. injection E0 as <-. exact X.
  - destruct (y_sock y) as [d|] eqn:SK; [|discriminate]. destruct (y_outs y) as [|x os] eqn:OU; [discriminate|]. inversion B3 as [|? ? M1 M2]; subst.
    assert (DROP : truth (with_sock y (Some d) os)) by (split; cbn; auto). pose proof DROP as [C1 C2 C3 C4 C5 C6 C7 C8].
    assert (ALL : forall A (l : list A) (Q : A -> Prop) x, Forall Q l -> Q x -> Forall Q (l ++ [x])) by (intros; apply Forall_app; auto).
    destruct x as [to m|tg fr t|ih fr t|p ih|req r]; cbn [sock_out] in H; unfold hand_over in H.
    + injection H as <- <-. split; [exact DROP|]. intros to' m' [E|[]]. injection E as <- <-. exact M1.
    + destruct (dht_alive y); [|injection H as <- <-; apply NIL; apply NONE; exact S]. destruct (_ <? _); [|discriminate]. injection H as <- <-. apply NIL. split; cbn; auto; try (apply ALL; [exact B4|exact I]).
    + destruct (dht_alive y); [|injection H as <- <-; apply NIL; apply NONE; exact S]. destruct (_ <? _); [|discriminate]. injection H as <- <-. apply NIL. split; cbn; auto; try (apply ALL; [exact B4|exact I]).
    + destruct (dht_alive y); [|injection H as <- <-; apply NIL; apply NONE; exact S]. destruct (_ <? _); [|discriminate]. injection H as <- <-. apply NIL. split; cbn; auto; try (apply ALL; [exact B4|exact M1]).
    + destruct (req =? DHT).
      * destruct (dht_alive y); [|injection H as <- <-; apply NIL; apply NONE; exact S]. destruct (_ <? _); [|discriminate]. injection H as <- <-. apply NIL. split; cbn; auto; try (apply ALL; [exact B5|exact M1]).
      * destruct (match y_fet y with Some _ => true | None => false end); [|injection H as <- <-; apply NIL; apply NONE; exact S]. destruct (_ <? _); [|discriminate]. injection H as <- <-. apply NIL. split; cbn; auto.
  - destruct (y_sock y); [|discriminate]. destruct (y_outs y); [|discriminate]. injection H as <- <-. apply NIL. apply NONE. exact S.
  - destruct (y_sock y); [|discriminate]. destruct (y_outs y); [|discriminate]. destruct (y_cmd y); [|discriminate]. destruct (y_fet y); [discriminate|]. destruct (dht_alive y); [discriminate|]. injection H as <- <-. apply NIL. apply NONE. exact S.
  - destruct (y_phase y); try discriminate. destruct s.
    + destruct (y_rd y) as [|r q] eqn:RD; [discriminate|]. injection H as <- <-. apply NIL. inversion B5; subst. apply TURN; [split; cbn; auto|assumption].
    + destruct (y_qry y) as [|i q] eqn:QR; [destruct (sock_alive y); [discriminate|]; injection H as <- <-; apply NIL; apply PH; exact S|].
      injection H as <- <-. apply NIL. inversion B4; subst. apply TURN; [split; cbn; auto|assumption].
    + destruct (y_port y) as [|r q]; [discriminate|]. injection H as <- <-. apply NIL. apply TURN; [split; cbn; auto|exact I].
    + destruct (y_port y); [|discriminate]. injection H as <- <-. apply NIL. apply PH. exact S.
    + injection H as <- <-. apply NIL. apply TURN; [exact S|exact I].
    + injection H as <- <-. apply NIL. apply PH. split; cbn; auto. intros t E. injection E as <-. exact B6.
  - destruct (y_phase y) as [l| |l|]; try discriminate.
    + destruct l as [|c l]; [injection H as <- <-; apply NIL; apply PH; exact S|]. destruct (sock_alive y); [|injection H as <- <-; apply NIL; apply PH; exact S]. unfold send_cmd in H. destruct (_ <? _); [|discriminate]. injection H as <- <-. apply NIL. apply PH. apply CMD. exact S.
    + destruct l as [|c l]; [discriminate|]. destruct (sock_alive y); [|injection H as <- <-; apply NIL; apply PH; exact S]. unfold send_cmd in H. destruct (_ <? _); [|discriminate]. injection H as <- <-. apply NIL. apply PH. apply CMD. exact S.
  - destruct (y_phase y) as [l| |l|]; try discriminate. destruct l; [|discriminate]. destruct (_ && _); [|injection H as <- <-; apply NIL; apply PH; exact S].
    destruct (spawn_fetcher _ _ _ _ _) as [[f|]| |]; injection H as <- <-; apply NIL; try (apply PH; exact S). apply FE. split; cbn; auto.
  - destruct (y_fet y) as [f|]; [|discriminate]. destruct (y_fout y); [|discriminate]. destruct (fstep _ _ _) as [[f' os]| |]; try discriminate; injection H as <- <-; apply NIL; apply FE; exact S.
  - destruct (y_fet y) as [f|]; [|discriminate]. destruct (y_fout y); [|discriminate]. destruct (y_rf y) as [|r q]; [discriminate|]. destruct (fstep _ _ _) as [[f' os]| |]; try discriminate; injection H as <- <-; apply NIL; apply FE; split; cbn; auto.
  - destruct (y_fet y) as [f|]; [|discriminate]. destruct (y_fout y); [|discriminate]. destruct (fstep _ _ _) as [[f' os]| |]; try discriminate; injection H as <- <-; apply NIL; apply FE; exact S.
  - destruct (y_fet y) as [f|]; [|discriminate]. destruct (y_fout y) as [|c l]; [discriminate|]. destruct (sock_alive y); [|injection H as <- <-; apply NIL; apply FE; exact S]. unfold send_cmd in H. destruct (_ <? _); [|discriminate]. injection H as <- <-. apply NIL. apply FE. apply CMD. exact S.
  - destruct (_ && _); [|discriminate]. injection H as <- <-. apply NIL. split; cbn; auto.
  - destruct (q_step _ _) as [[m ot]| |]; try discriminate. injection H as <- <-. apply NIL. split; cbn; auto.
Qed.
End client.

(** ** the network *)
Section net.
Variable sha : bytes -> bytes.
Variable who : addr -> option client.
Variable G : ID -> addr -> Prop.
Variable P : addr -> ID -> Prop.
Notation nstep := (nstep sha who).
Notation nrun := (nrun sha who).
Definition yes1 (_ : addr) : Prop := True.
Definition yes2 (_ : addr) (_ : bytes) : Prop := True.
Definition yes3 (_ : bytes) (_ : kind) : Prop := True.
Definition fine (c : client) (h : host) : Prop :=
  truth (v_own c) (v_info c) G P (h_sys h) /\ asks (v_tcp c) (v_own c) (v_info c) yes1 yes2 yes3 (h_sys h) /\ length (h_buf h) = BUF_LEN.
Definition said (c : client) (m : kmsg) : Prop :=
  (exists t tok r, m = resp_message (v_own c) t tok r) \/
  exists t q, m = query_message (v_own c) t q /\ forall ih p tok, q = QAnnounce ih p tok -> ih = v_info c /\ p = v_tcp c.
Definition ninv (n : net) : Prop :=
  (forall a c, who a = Some c -> fine c (n_hosts n a)) /\
  forall d, In d (n_air n) -> exists c m, who (g_from d) = Some c /\ g_data d = kmsg_bytes m /\ said c m.
Lemma recv_len : forall buf dg, length buf = BUF_LEN -> length (recv_into buf dg) = BUF_LEN.
Proof. intros buf dg B. unfold recv_into. rewrite app_length, firstn_length, skipn_length, B. lia. Qed.
Lemma step_fine : forall c y e y' o, truth (v_own c) (v_info c) G P y -> asks (v_tcp c) (v_own c) (v_info c) yes1 yes2 yes3 y ->
  ystep sha (v_max c) (v_caps c) (v_tcp c) y e = Some (y', o) ->
  (forall from m, e = YIn from m -> (forall t v r, m = MResp t v r -> G (resp_id r) from) /\ forall t v name id ih p tok, m = MQuery t v name (AAnnounce id ih p tok) -> P (set_port from p) ih) ->
  truth (v_own c) (v_info c) G P y' /\ asks (v_tcp c) (v_own c) (v_info c) yes1 yes2 yes3 y' /\ forall to m, In (to, m) o -> said c m.
Proof.
  intros c y e y' o T A H R. destruct (@ystep_truth _ _ _ _ _ _ _ _ _ _ _ _ T H R) as (T' & S1).
  assert (A' : asks (v_tcp c) (v_own c) (v_info c) yes1 yes2 yes3 y' /\ forall to m, In (to, m) o -> may_send (v_tcp c) (v_own c) (v_info c) yes1 yes2 to m).
  { eapply ystep_asks; [| | | | | |exact A|exact H]; unfold yes1, yes2, yes3; auto. }
  destruct A' as (A' & S2). split; [exact T'|]. split; [exact A'|]. intros to m I. destruct (S1 _ _ I) as (X & Y). specialize (S2 _ _ I). destruct m as [t v name a|t v r|t v er].
  - destruct (S2 _ _ _ _ eq_refl) as (q & E & _ & Q). right. exists t, q. split; [exact E|]. intros ih p tok ->. tauto.
  - destruct (X _ _ _ eq_refl) as (tok & pr & E). left. eauto.
  - destruct (Y _ _ _ eq_refl).
Qed.
(** What may arrive from an address. *)
Definition honest_from (from : addr) (m : kmsg) : Prop :=
  (forall t v r, m = MResp t v r -> G (resp_id r) from) /\ forall t v name id ih p tok, m = MQuery t v name (AAnnounce id ih p tok) -> P (set_port from p) ih.
Lemma receive_fine : forall c h from dg h', fine c h -> receive sha c h from dg = Some h' ->
  (forall m, kmsg_from_bytes (recv_into (h_buf h) dg) = Val m -> honest_from from m) -> fine c h'.
Proof.
  intros c h from dg h' (T & A & B) H R. unfold receive in H. destruct (y_sock (h_sys h)) as [d|] eqn:SK; [|discriminate]. destruct (y_outs (h_sys h)) eqn:OU; [|discriminate].
  pose proof (recv_len (h_buf h) dg B) as L. destruct (kmsg_from_bytes _) as [m| |] eqn:K.
  - destruct (DhtSysModel.ystep _ _ _ _ _ _) as [[y o]|] eqn:ST; [|discriminate]. cbn in H. injection H as <-.
    destruct (@step_fine _ _ _ _ _ T A ST) as (T' & A' & _). { intros f m' E. injection E as <- <-. apply R. reflexivity. } split; [exact T'|]. split; [exact A'|exact L].
  - injection H as <-. split; [exact T|]. split; [exact A|exact L].
  - injection H as <-. split; [|split; [|exact L]]; cbn [h_sys].
    + destruct T; split; cbn; auto. discriminate.
    + destruct A; split; cbn; auto; discriminate.
Qed.
Lemma put_fine : forall n a c h air, who a = Some c -> ninv n -> fine c h -> (forall d, In d air -> exists c m, who (g_from d) = Some c /\ g_data d = kmsg_bytes m /\ said c m) -> ninv (put_host n a h air).
Proof.
  intros n a c h air W (N1 & N2) F A. split; cbn [put_host n_hosts n_air].
  - intros b c' W'. destruct (addr_eqb b a) eqn:E; [|auto]. apply addr_eqb_spec in E. subst b. rewrite W in W'. injection W' as <-. exact F.
  - intros d I. apply in_app_or in I. destruct I; auto.
Qed.
Hypothesis HC : forall a c, who a = Some c -> G (v_own c) a /\ P (set_port a (v_tcp c)) (v_info c).
Lemma said_honest : forall a c m buf m', who a = Some c -> said c m -> length buf = BUF_LEN -> kmsg_from_bytes (recv_into buf (kmsg_bytes m)) = Val m' -> honest_from a m'.
Proof.
  intros a c m buf m' W S B K. destruct (HC W) as (G1 & P1). destruct S as [(t & tok & r & ->)|(t & q & -> & Q)].
  - destruct (@read_reply _ _ _ _ _ _ B K) as (v & r' & -> & E). split; [|intros; discriminate]. intros ? ? ? X. injection X as <- <- <-. rewrite E. exact G1.
  - destruct (@read_query _ _ _ _ _ B K) as (v & name & ar & -> & E). split; [intros; discriminate|]. intros ? ? ? id ih p tok X. injection X as <- <- <- ->. destruct (Q _ _ _ (E _ _ _ _ eq_refl)) as (-> & ->). exact P1.
Qed.
Lemma nstep_inv : forall n e n', ninv n -> nstep n e = Some n' -> (forall from to dg, e = NStranger from to dg -> (forall id, G id from) /\ forall p ih, P (set_port from p) ih) -> ninv n'.
Proof.
  intros n e n' N H S. pose proof N as (N1 & N2). destruct e as [a e|k|from to dg]; cbn [NetModel.nstep] in H.
  - destruct (who a) as [c|] eqn:W; [|discriminate]. destruct (is_in e) eqn:I; [discriminate|]. destruct (DhtSysModel.ystep _ _ _ _ _ _) as [[y o]|] eqn:ST; [|discriminate]. injection H as <-.
    destruct (N1 _ _ W) as (T & A & B). destruct (@step_fine _ _ _ _ _ T A ST) as (T' & A' & O). { intros f m ->. discriminate. }
    eapply put_fine; [exact W|exact N|split; [exact T'|split; [exact A'|exact B]]|]. intros d J. apply in_map_iff in J. destruct J as ((to & m) & <- & J). exists c, m. split; [exact W|]. split; [reflexivity|eauto].
  - destruct (nth_error (n_air n) k) as [d|] eqn:E; [|discriminate]. apply nth_error_In in E. destruct (N2 _ E) as (c & m & W & D & SA). unfold arrive in H. destruct (who (g_to d)) as [c'|] eqn:W'; [|discriminate].
    destruct (receive _ _ _ _ _) as [h|] eqn:R; [|discriminate]. cbn in H. injection H as <-. eapply put_fine; [exact W'|exact N| |intros ? []].
    eapply receive_fine; [apply N1; exact W'|exact R|]. rewrite D. intros m' K. eapply said_honest; [exact W|exact SA|apply (N1 _ _ W')|exact K].
  - destruct (who from) eqn:W; [discriminate|]. destruct (S _ _ _ eq_refl) as (S1 & S2). unfold arrive in H. destruct (who to) as [c'|] eqn:W'; [|discriminate].
    destruct (receive _ _ _ _ _) as [h|] eqn:R; [|discriminate]. cbn in H. injection H as <-. eapply put_fine; [exact W'|exact N| |intros ? []].
    eapply receive_fine; [apply N1; exact W'|exact R|]. intros m' K. split; auto.
Qed.
Lemma nrun_inv : forall es n n', ninv n -> nrun n es = Some n' -> (forall from to dg, In (NStranger from to dg) es -> who from = None -> (forall id, G id from) /\ forall p ih, P (set_port from p) ih) -> ninv n'.
Proof.
  induction es as [|e es IH]; intros n n' N H S; cbn [NetModel.nrun] in H; [injection H as <-; exact N|]. destruct (nstep n e) as [n1|] eqn:ST; [|discriminate].
  eapply IH; [|exact H|intros; apply (S from to dg); [right; assumption|assumption]]. eapply nstep_inv; [exact N|exact ST|]. intros from to dg ->. cbn in ST. destruct (who from) eqn:W; [discriminate|]. apply (S from to dg); [left; reflexivity|exact W].
Qed.
Lemma start_inv : (forall a c, who a = Some c -> all_pairs G (v_table c)) -> ninv (net_start who).
Proof.
  intro T. split; [|intros ? []]. intros a c W. cbn [net_start n_hosts]. rewrite W. split; [|split].
  - split; cbn.
    + intros d E. injection E as <-. reflexivity.
    + reflexivity.
    + constructor.
    + constructor.
    + constructor.
    + apply (T _ _ W).
    + discriminate.
    + intros ih l p [E|[]] _. injection E as <- _. auto.
  - eapply asks_mono; [| | |apply asks_start]; unfold yes1, yes2, yes3; auto.
  - reflexivity.
Qed.
End net.
