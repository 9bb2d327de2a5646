(** C40 (messages survive the wire), C73 (BEP 5 layout) and the decoding part
    of C43 (panicking identifiers). *)
From Coq Require Import Strings.String.
From Coq Require Import List NArith ZArith Lia Bool Arith.
From Coq Require Import Init.Byte.
From Verif Require Import Base IdModel WireModel WireProofs TableModel BencodeModel BencodeSpec BencodeProofs KrpcModel Utf8Spec Utf8Proofs KrpcSpec KrpcProofs.
Import ListNotations.
Set Implicit Arguments.
Local Open Scope list_scope.

(** ** C40 *)
(** Every message the client builds is read as [seen m] whatever bytes follow:
    nothing is lost but the times of nodes, and the two ambiguous shapes below. *)
Theorem C40_round_trip_partial : forall m tl, wf_kmsg m -> kmsg_from_bytes (kmsg_bytes m ++ tl) = Val (seen m).
Proof. exact round_trip. Qed.
(** Queries, errors, pongs and peer lists come back exactly. *)
Theorem C40_exact : forall m tl, wf_kmsg m ->
  match m with
  | MQuery _ _ _ _ | MError _ _ _ => True
  | MResp _ _ (RPing _) | MResp _ _ (RGetPeers _ _ (VValues _)) => True
  | _ => False
  end -> kmsg_from_bytes (kmsg_bytes m ++ tl) = Val m.
Proof.
  intros m tl W H. rewrite round_trip by auto. destruct m as [t y q a|t y r|t y e]; auto.
  destruct r as [id k [l|n]|id n|id|id]; auto; contradiction.
Qed.
(** Nodes come back up to their last-seen time when there is not exactly one. *)
Theorem C40_nodes : forall id l t tl, wf_id id -> Forall wf_wnode l -> length l <> 1 ->
  kmsg_from_bytes (kmsg_bytes (find_nodes_resp id (Closest l) t) ++ tl) = Val (find_nodes_resp id (Closest (map on_wire l)) t).
Proof.
  intros id l t tl W F L. rewrite round_trip; [|split; [reflexivity|split; auto]]. cbn [find_nodes_resp seen seen_resp].
  unfold seen_nodes. cbn [nodes_of]. destruct l as [|a [|b l]]; try reflexivity. cbn in L. congruence.
Qed.
(** Full statement; false: an announce answer is read as a ping answer, and a
    list of one node is read as an exact hit. *)
Definition C40_exact_always : Prop := forall m tl, wf_kmsg m -> kmsg_from_bytes (kmsg_bytes m ++ tl) = Val m.
Theorem C40_refuted : ~ C40_exact_always /\
  (forall id t tl, wf_id id -> kmsg_from_bytes (kmsg_bytes (announce_peer_resp id t) ++ tl) = Val (ping_resp id t)) /\
  (forall id n t tl, wf_id id -> wf_wnode n ->
     kmsg_from_bytes (kmsg_bytes (find_nodes_resp id (Closest [n]) t) ++ tl) = Val (find_nodes_resp id (Exact (on_wire n)) t)).
Proof.
  assert (forall id t tl, wf_id id -> kmsg_from_bytes (kmsg_bytes (announce_peer_resp id t) ++ tl) = Val (ping_resp id t)) as A.
  { intros id t tl W. rewrite round_trip; [reflexivity|]. split; [reflexivity|exact W]. }
  split; [|split; auto].
  - intro H. specialize (H (announce_peer_resp (repeat x00 20) []) [] ltac:(split; reflexivity)). rewrite A in H by reflexivity. discriminate.
  - intros id n t tl W Wn. rewrite round_trip; [reflexivity|]. split; [reflexivity|]. split; auto. constructor; auto.
Qed.
(** A message with a token and nodes is never taken for anything else, whatever
    else of the kinds with fewer fields it could be. *)
Definition ex40 : kmsg := get_peers_resp (repeat x07 20) (str "tok") (VValues [mk_addr x01 x02 x03 x04 6881]) (str "aa").
Example C40_example : wf_kmsg ex40 /\ kmsg_from_bytes (kmsg_bytes ex40 ++ [x00; x00]) = Val ex40.
Proof. split; [split; [reflexivity|]; split; [reflexivity|]; constructor; [split; reflexivity || exact I|constructor]|reflexivity]. Qed.

(** ** C73 *)
Lemma enc_num_spec : forall s, enc_str s = ostr s.
Proof. reflexivity. Qed.
Lemma enc_id : forall i, wf_id i -> enc_str i = str "20:" ++ i.
Proof. intros i W. unfold enc_str. rewrite W. reflexivity. Qed.
Lemma enc_nat_int : forall n, enc_int (Z.of_N n) = str "i" ++ enc_num n ++ str "e".
Proof. intros [|p]; reflexivity. Qed.
Lemma peer_bytes_compact : forall a, wf_addr a -> peer_to_bytes a = compact_peer a.
Proof.
  intros a W. unfold peer_to_bytes, compact_peer. f_equal. cbn [be_bytes]. change (256 ^ N.of_nat 1)%N with 256%N. change (256 ^ N.of_nat 0)%N with 1%N.
  rewrite N.shiftr_div_pow2, N.div_1_r. change (2 ^ 8)%N with 256%N. change 255%N with (N.ones 8). rewrite N.land_ones. change (2 ^ 8)%N with 256%N.
  do 2 f_equal. apply b2n_inj. rewrite !b2n_n2b. apply N.mod_mod. discriminate.
Qed.
Lemma node_bytes_compact : forall n, wf_wnode n -> node_bytes n = compact_node n.
Proof. intros n (_ & W). unfold node_bytes, compact_node. rewrite (peer_bytes_compact W). reflexivity. Qed.
Lemma nodes_bytes_compact : forall n, wf_nodes n -> nodes_bytes n = flat_map compact_node (nodes_of n).
Proof.
  intros n F. unfold nodes_bytes. replace (nodes_list n) with (nodes_of n) by (destruct n; reflexivity).
  unfold wf_nodes in F. induction F as [|x l W F IH]; auto. cbn [flat_map]. rewrite IH, (node_bytes_compact W). reflexivity.
Qed.
Lemma peers_enc : forall l, Forall wf_addr l -> (fix go l := match l with [] => [x65] | v :: t => enc v ++ go t end) (map (fun a => BStr (peer_to_bytes a)) l)
  = flat_map (fun a => str "6:" ++ compact_peer a) l ++ str "e".
Proof.
  induction 1 as [|a l W F IH]; auto. cbn [map flat_map]. rewrite IH, <- app_assoc. f_equal. cbn [enc]. unfold enc_str.
  rewrite (peer_bytes_compact W). destruct a as [a b c d p]. reflexivity.
Qed.
Lemma errors_enc : forall l, (fix go l := match l with [] => [x65] | v :: t => enc v ++ go t end) (map error_bval l)
  = flat_map bep5_error l ++ str "e".
Proof.
  induction l as [|a l IH]; auto. cbn [map flat_map]. rewrite IH, <- app_assoc. f_equal. destruct a as [n|s]; [apply enc_nat_int|reflexivity].
Qed.
Ltac left_cbn := match goal with |- ?l = ?r => let l' := eval cbn -[enc_str enc_int enc_num ostr nodes_bytes compact_node error_bval] in l in change (l' = r) end.
Ltac conjs := repeat match goal with H : _ /\ _ |- _ => destruct H end.
Ltac ids := repeat match goal with W : wf_id ?i |- context [enc_str ?i] => rewrite (enc_id W) end.
Lemma args_enc : forall a, wf_args a -> enc (args_bval a) = str "d" ++ bep5_args a ++ str "e".
Proof.
  intros [id ih p t|id t|id ih|id] W; cbn [wf_args] in W; unfold args_bval, kdict, bep5_args; rewrite <- ?app_assoc; left_cbn;
    conjs; rewrite ?enc_nat_int; ids; rewrite <- ?app_assoc; reflexivity.
Qed.
Lemma resp_enc : forall r, wf_resp r -> enc (resp_bval r) = str "d" ++ bep5_resp r ++ str "e".
Proof.
  intros [id t [l|n]|id n|id|id] W; cbn [wf_resp wf_von] in W; unfold resp_bval, kdict, bep5_resp; rewrite <- ?app_assoc; left_cbn;
    conjs; rewrite ?peers_enc, ?nodes_bytes_compact by assumption; ids; rewrite <- ?app_assoc; reflexivity.
Qed.
(** The datagram is, byte for byte, the one BEP 5 prescribes. *)
Theorem C73_bep5 : forall m, wf_kmsg m -> kmsg_bytes m = bep5 m.
Proof.
  intros [t y q a|t y r|t y e] W; cbn [wf_kmsg] in W; unfold kmsg_bytes, kmsg_bval, kdict, bep5; rewrite <- ?app_assoc.
  - destruct W as (-> & _ & W). generalize (args_enc _ W). generalize (args_bval a). intros v E. left_cbn. rewrite E, <- !app_assoc. reflexivity.
  - destruct W as (-> & W). generalize (resp_enc _ W). generalize (resp_bval r). intros v E. left_cbn. rewrite E, <- !app_assoc. reflexivity.
  - destruct W as (-> & W). left_cbn. rewrite errors_enc, <- !app_assoc. reflexivity.
Qed.
(** The same for what the client sends, spelled out per request and answer. *)
Definition wf_query (q : to_query) : Prop :=
  match q with QPing => True | QFindNode g => wf_id g | QGetPeers ih => wf_id ih | QAnnounce ih p _ => wf_id ih /\ (p < 65536)%N end.
Definition wf_answer (r : to_resp) : Prop :=
  match r with PPing | PAnnounce => True | PFindNode n => wf_nodes n | PGetPeers v => wf_von v end.
Theorem C73_sent : forall own t, wf_id own ->
  (forall q, wf_query q -> kmsg_bytes (query_message own t q) = bep5_query own t q) /\
  (forall token r, wf_answer r -> kmsg_bytes (resp_message own t token r) = bep5_answer own t token r).
Proof.
  intros own t W. split.
  - intros q Q. rewrite C73_bep5 by (destruct q; repeat split; try exact W; try apply Q; try reflexivity; apply utf8_ok_iff; reflexivity).
    destruct q; cbn [query_message]; unfold ping_query, find_nodes_query, get_peers_query, announce_peer_query, bep5, bep5_args, bep5_query;
      rewrite <- ?app_assoc; reflexivity.
  - intros token r Q. rewrite C73_bep5 by (destruct r; repeat split; try exact W; try apply Q; reflexivity).
    destruct r as [|n|[l|n]|]; cbn [resp_message]; unfold ping_resp, find_nodes_resp, get_peers_resp, announce_peer_resp, bep5, bep5_resp, bep5_answer;
      rewrite <- ?app_assoc; reflexivity.
Qed.
(** The example of BEP 5, "Example Packets: ping query". *)
Example C73_example : kmsg_bytes (ping_query (str "abcdefghij0123456789") (str "aa")) = str "d1:ad2:id20:abcdefghij0123456789e1:q4:ping1:t2:aa1:y1:qe" /\
  kmsg_bytes (announce_peer_query (str "abcdefghij0123456789") (str "mnopqrstuvwxyz123456") 6881 (str "aoeusnth") (str "aa")) =
    str "d1:ad2:id20:abcdefghij01234567899:info_hash20:mnopqrstuvwxyz1234564:porti6881e5:token8:aoeusnthe1:q13:announce_peer1:t2:aa1:y1:qe" /\
  kmsg_bytes (get_peers_resp (str "abcdefghij0123456789") (str "aoeusnth") (VValues [mk_addr x61 x78 x6a x65 11893; mk_addr x69 x64 x68 x74 28269]) (str "aa")) =
    str "d1:rd2:id20:abcdefghij01234567895:token8:aoeusnth6:valuesl6:axje.u6:idhtnmee1:t2:aa1:y1:re" /\
  kmsg_bytes (error_resp [ECode 201; EDesc (str "A Generic Error Ocurred")] (str "aa")) = str "d1:eli201e23:A Generic Error Ocurrede1:t2:aa1:y1:ee".
Proof. repeat split; reflexivity. Qed.
Print Assumptions C40_round_trip_partial.
Print Assumptions C40_exact.
Print Assumptions C40_nodes.
Print Assumptions C40_refuted.
Print Assumptions C73_bep5.
Print Assumptions C73_sent.
