From Coq Require Import Strings.String.
From Coq Require Import List NArith ZArith Lia Bool Arith Sorted.
From Coq Require Import Init.Byte.
From Verif Require Import Base IdModel WireModel WireProofs TableModel BencodeModel BencodeSpec BencodeProofs KrpcModel Utf8Spec Utf8Proofs KrpcSpec.
Import ListNotations.
Set Implicit Arguments.
Local Open Scope list_scope.

Fixpoint sortedb (l : list bytes) : bool :=
  match l with
  | a :: (b :: _) as t => bytes_lt a b && sortedb t
  | _ => true
  end.
Lemma sortedb_ok : forall l, sortedb l = true -> Sorted lex l.
Proof.
  induction l as [|a [|b l] IH]; intro H; [constructor|constructor; constructor|].
  cbn [sortedb] in H. apply andb_true_iff in H. destruct H as (H1 & H2). constructor; [apply IH; exact H2|]. constructor. apply bytes_lt_lex. exact H1.
Qed.
Lemma p_id_ok : forall i, wf_id i -> p_id (BStr i) = Val i.
Proof. intros i W. unfold p_id, id_deserialize. rewrite W. reflexivity. Qed.
Lemma p_uint_ok : forall max n, (n <= max)%N -> p_uint max (BInt (Z.of_N n)) = Val n.
Proof.
  intros max n H. unfold p_uint. destruct (Z.leb_spec 0 (Z.of_N n)); [|lia]. destruct (Z.leb_spec (Z.of_N n) (Z.of_N max)); [|lia].
  cbn [andb]. rewrite N2Z.id. reflexivity.
Qed.
Lemma map_res_ok : forall A B C (p : A -> res B) (e : C -> A) (g : C -> B) l, (forall x, In x l -> p (e x) = Val (g x)) ->
  map_res p (map e l) = Val (map g l).
Proof.
  intros A B C p e g l H. induction l as [|x l IH]; [reflexivity|]. cbn [map map_res]. rewrite H by (left; auto). cbn [rbind].
  rewrite IH by (intros; apply H; right; auto). reflexivity.
Qed.
Lemma p_args_ok : forall a, wf_args a -> p_args (args_bval a) = Val a.
Proof.
  intros [id ih p t|id t|id ih|id] W; cbn [wf_args] in W; unfold p_args, args_bval, kdict, field;
  cbn -[p_id p_uint p_buf]; [destruct W as (W1 & W2 & W3)|destruct W as (W1 & W2)|destruct W as (W1 & W2)|];
  rewrite ?p_id_ok by auto; cbn -[p_id p_uint p_buf]; rewrite ?p_id_ok by auto; cbn -[p_id p_uint p_buf]; rewrite ?p_uint_ok by lia;
  cbn -[p_id p_uint p_buf]; auto.
Qed.
(** node lists *)
Lemma firstn_len_app : forall A k (a b : list A), length a = k -> firstn k (a ++ b) = a.
Proof. intros A k a b <-. rewrite firstn_app, Nat.sub_diag, firstn_all, firstn_O, app_nil_r. reflexivity. Qed.
Lemma skipn_len_app : forall A k (a b : list A), length a = k -> skipn k (a ++ b) = b.
Proof. intros A k a b <-. rewrite skipn_app, Nat.sub_diag, skipn_all. reflexivity. Qed.
Lemma node_bytes_len : forall n, wf_id (n_id n) -> length (node_bytes n) = 26.
Proof. intros n W. unfold node_bytes. rewrite app_length, W. reflexivity. Qed.
Lemma node_from_ok : forall n, wf_wnode n -> node_from_compact (node_bytes n) = Val (on_wire n).
Proof.
  intros n (W1 & W2). pose proof (@node_roundtrip (n_id n) (n_addr n) W1 W2) as R. unfold node_from_compact_bytes in R. unfold node_from_compact.
  rewrite node_bytes_len by auto. unfold node_bytes. change (26 =? ID_LEN + 6) with true. cbv iota.
  destruct (length (n_id n ++ peer_to_bytes (n_addr n)) =? COMPACT_NODE_LEN); [|discriminate].
  rewrite (@firstn_len_app _ ID_LEN (n_id n) _ W1) in *. rewrite (@skipn_len_app _ ID_LEN (n_id n) _ W1) in *.
  destruct (socketaddr_from_compact_bytes (peer_to_bytes (n_addr n))) as [a| |]; try discriminate.
  cbn [rbind] in *. injection R as ->. reflexivity.
Qed.
Lemma nodes_bytes_len : forall l, Forall wf_wnode l -> length (flat_map node_bytes l) = 26 * length l.
Proof.
  intros l F. induction F as [|n l (W & _) F IH]; [reflexivity|]. cbn [flat_map length]. rewrite app_length, node_bytes_len, IH by auto. lia.
Qed.
Lemma chunks_nodes : forall l f, Forall wf_wnode l -> length l <= f -> chunks_go f 26 (flat_map node_bytes l) = map node_bytes l.
Proof.
  intros l f F. revert f. induction F as [|n l (W & W2) F IH]; intros f L.
  - destruct f; reflexivity.
  - cbn [length] in L. destruct f as [|f]; [lia|]. cbn [flat_map chunks_go map].
    assert (E : exists c t, node_bytes n ++ flat_map node_bytes l = c :: t).
    { pose proof (node_bytes_len n W). destruct (node_bytes n) as [|c t]; [discriminate|]. exists c, (t ++ flat_map node_bytes l). reflexivity. }
    destruct E as (c & t & E). rewrite E. rewrite <- E.
    rewrite (firstn_len_app _ _ (node_bytes_len n W)), (skipn_len_app _ _ (node_bytes_len n W)). f_equal. apply IH. lia.
Qed.
Lemma p_nodes_ok : forall n, wf_nodes n -> p_nodes (BStr (nodes_bytes n)) = Val (seen_nodes n).
Proof.
  intros n W. unfold p_nodes, nodes_bytes, seen_nodes, wf_nodes in *. change (nodes_list n) with (nodes_of n).
  revert W. generalize (nodes_of n) as l. intros l W. rewrite nodes_bytes_len by auto. change COMPACT_NODE_LEN with 26.
  rewrite (Nat.mul_comm 26), Nat.mod_mul, Nat.div_mul by lia. cbn [negb Nat.eqb].
  assert (G : map_res node_from_compact (chunks 26 (flat_map node_bytes l)) = Val (map on_wire l)).
  { unfold chunks. rewrite chunks_nodes; [|auto|rewrite nodes_bytes_len by auto; lia].
    apply map_res_ok. intros x Hx. apply node_from_ok. rewrite Forall_forall in W. auto. }
  destruct l as [|x [|y l]].
  - reflexivity.
  - cbn [length Nat.eqb flat_map]. rewrite app_nil_r. inversion_clear W. rewrite node_from_ok by auto. reflexivity.
  - rewrite G. reflexivity.
Qed.
Lemma p_peers_ok : forall l, Forall wf_addr l -> p_list p_peer (BList (map (fun a => BStr (peer_to_bytes a)) l)) = Val l.
Proof.
  intros l W. cbn [p_list]. rewrite (@map_res_ok _ _ _ p_peer (fun a => BStr (peer_to_bytes a)) (fun a => a)).
  - rewrite map_id. reflexivity.
  - intros a Ha. cbn [p_peer]. apply peer_roundtrip. rewrite Forall_forall in W. auto.
Qed.
Lemma p_resp_ok : forall r, wf_resp r -> p_resp (resp_bval r) = Val (seen_resp r).
Proof.
  intros [id t [l|n]|id n|id|id] W; cbn [wf_resp wf_von] in W; unfold p_resp, resp_bval, kdict, field, p_von;
  [destruct W as (W1 & W2)|destruct W as (W1 & W2)|destruct W as (W1 & W2)| |];
  cbn -[p_id p_buf p_nodes p_list]; unfold field; cbn -[p_id p_buf p_nodes p_list]; rewrite ?p_id_ok by auto;
  cbn -[p_id p_buf p_nodes p_list]; rewrite ?p_nodes_ok, ?p_peers_ok by auto; reflexivity.
Qed.
Lemma p_errors_ok : forall e, Forall wf_error e -> p_list p_error (BList (map error_bval e)) = Val e.
Proof.
  intros e W. cbn [p_list]. rewrite (@map_res_ok _ _ _ p_error error_bval (fun x => x)); [rewrite map_id; reflexivity|].
  intros x Hx. rewrite Forall_forall in W. specialize (W x Hx). destruct x as [n|s]; cbn [error_bval wf_error] in *; unfold p_error.
  - rewrite p_uint_ok by lia. reflexivity.
  - cbn [p_uint p_string]. rewrite (proj2 (utf8_ok_iff _) W). reflexivity.
Qed.
Lemma p_kmsg_ok : forall m, wf_kmsg m -> p_kmsg (kmsg_bval m) = Val (seen m).
Proof.
  intros [t y q a|t y r|t y e] W; cbn [wf_kmsg] in W; unfold p_kmsg, kmsg_bval, kdict, field.
  - destruct W as (-> & W1 & W2). cbn -[p_args args_bval p_string p_buf p_type]. rewrite p_args_ok by auto.
    cbn -[p_args args_bval]. rewrite (proj2 (utf8_ok_iff _) W1). reflexivity.
  - destruct W as (-> & W). cbn -[p_resp resp_bval]. rewrite p_resp_ok by auto. reflexivity.
  - destruct W as (-> & W). cbn -[p_list p_error error_bval]. rewrite p_errors_ok by auto. reflexivity.
Qed.
(** shape of the values written *)
Definition wire_ok (v : bval) : Prop := ordered v /\ ints_ok v = true.
Lemma wire_dict : forall l, sortedb (map fst l) = true -> Forall (fun kv => wire_ok (snd kv)) l -> wire_ok (BDict l).
Proof.
  intros l S F. split.
  - constructor; [|apply sortedb_ok; auto]. eapply Forall_impl; [|exact F]. intros kv (H & _). exact H.
  - cbn [ints_ok]. apply forallb_forall. intros kv Hk. rewrite Forall_forall in F. apply F. auto.
Qed.
Lemma wire_list : forall l, Forall wire_ok l -> wire_ok (BList l).
Proof.
  intros l F. split.
  - constructor. eapply Forall_impl; [|exact F]. intros v (H & _). exact H.
  - cbn [ints_ok]. apply forallb_forall. intros v Hv. rewrite Forall_forall in F. apply F. auto.
Qed.
Lemma wire_str : forall s, wire_ok (BStr s).
Proof. intro s. split; [constructor|reflexivity]. Qed.
Lemma wire_int : forall n, (n < 4294967296)%N -> wire_ok (BInt (Z.of_N n)).
Proof. intros n H. split; [constructor|]. cbn [ints_ok]. change (- 2 ^ 63)%Z with (-9223372036854775808)%Z. change (2 ^ 64)%Z with 18446744073709551616%Z. lia. Qed.
Lemma wire_args : forall a, wf_args a -> wire_ok (args_bval a).
Proof.
  intros [id ih p t|id t|id ih|id] W; cbn [wf_args] in W; (apply wire_dict; [reflexivity|]); cbn -[wire_ok]; repeat constructor; cbn -[wire_ok]; try apply wire_str;
  try (apply wire_int; lia); try apply wire_str.
Qed.
Lemma wire_resp : forall r, wire_ok (resp_bval r).
Proof.
  intros [id t [l|n]|id n|id|id]; (apply wire_dict; [reflexivity|]); cbn -[wire_ok]; repeat apply Forall_cons; try apply Forall_nil; cbn -[wire_ok]; try apply wire_str.
  apply wire_list. apply Forall_forall. intros v Hv. apply in_map_iff in Hv. destruct Hv as (a & <- & _). apply wire_str.
Qed.
Lemma wire_kmsg : forall m, wf_kmsg m -> wire_ok (kmsg_bval m).
Proof.
  intros [t y q a|t y r|t y e] W; cbn [wf_kmsg] in W; (apply wire_dict; [reflexivity|]); cbn -[wire_ok args_bval resp_bval error_bval]; repeat apply Forall_cons; try apply Forall_nil; cbn -[wire_ok args_bval resp_bval error_bval]; try apply wire_str.
  - apply wire_args. tauto.
  - apply wire_resp.
  - destruct W as (_ & W). apply wire_list. apply Forall_forall. intros v Hv. apply in_map_iff in Hv. destruct Hv as (x & <- & Hx).
    rewrite Forall_forall in W. specialize (W x Hx). destruct x; cbn [error_bval]; [apply wire_int; auto|apply wire_str].
Qed.
Lemma nest_strs : forall A (f : A -> bytes) l, list_max (map nest (map (fun a => BStr (f a)) l)) = 0.
Proof. intros. induction l; auto. Qed.
Lemma nest_errors : forall l, list_max (map nest (map error_bval l)) = 0.
Proof. induction l as [|[n|s] l IH]; auto. Qed.
Lemma nest_kmsg : forall m, nest (kmsg_bval m) <= 3.
Proof.
  intros [t y q a|t y r|t y e].
  - destruct a; cbn; lia.
  - destruct r as [id k [l|n]|id n|id|id]; cbn; rewrite ?nest_strs; lia.
  - cbn. rewrite ?nest_errors. lia.
Qed.
Lemma from_bytes_enc : forall v tl, wire_ok v -> nest v <= MAX_DEPTH -> kmsg_from_bytes (enc v ++ tl) = p_kmsg v.
Proof. intros v tl (O & I) N. unfold kmsg_from_bytes, decode. rewrite decode_enc by auto. rewrite I. reflexivity. Qed.
Lemma depth3 : 3 <= MAX_DEPTH.
Proof. unfold MAX_DEPTH. lia. Qed.
Global Opaque MAX_DEPTH.
Lemma round_trip : forall m tl, wf_kmsg m -> kmsg_from_bytes (kmsg_bytes m ++ tl) = Val (seen m).
Proof.
  intros m tl W. unfold kmsg_bytes. rewrite from_bytes_enc; [apply p_kmsg_ok; auto|apply wire_kmsg; auto|].
  pose proof (nest_kmsg m). pose proof depth3. lia.
Qed.
