(** C118: which datagrams are read, and as what. *)
From Coq Require Import Strings.String.
From Coq Require Import List NArith ZArith Lia Bool Arith Sorted.
From Coq Require Import Init.Byte.
From Verif Require Import Base Assoc IdModel WireModel WireProofs TableModel BencodeModel BencodeSpec BencodeProofs BencodeProps KrpcModel Utf8Spec Utf8Proofs KrpcSpec KrpcProofs KrpcProps DhtModel DhtSpec DhtProps CrashSpec CrashProps DictProofs ReadSpec.
Import ListNotations.
Set Implicit Arguments.
Local Open Scope list_scope.

(** ** putting readers together *)
Lemma bind_val : forall A B (e : res A) (f : A -> res B) y, rbind e f = Val y <-> exists x, e = Val x /\ f x = Val y.
Proof.
  intros A B [x| |] f y; cbn [rbind]; split; try (intro; discriminate).
  - intro H. exists x. auto.
  - intros (x' & E & H). injection E as <-. exact H.
  - intros (x' & E & _). discriminate.
  - intros (x' & E & _). discriminate.
Qed.
Lemma need_val : forall A (o : option A) x, need o = Val x <-> o = Some x.
Proof. intros A [y|] x; cbn [need]; split; intro H; congruence. Qed.
Lemma field_val : forall A (d : entries) k (p : bval -> res A) (R : bval -> A -> Prop) x, (forall v, lookup (str k) d = Some v -> p v = Val x <-> R v x) ->
  (field d k p = Val (Some x) <-> at_key d k R x).
Proof.
  intros A d k p R x H. unfold field, at_key. destruct (lookup (str k) d) as [v|].
  - specialize (H v eq_refl). destruct (p v) as [y| |]; cbn [rmap]; split; intro E.
    + injection E as ->. exists v. split; auto. apply H. reflexivity.
    + destruct E as (w & E & Q). injection E as <-. apply H in Q. congruence.
    + discriminate.
    + destruct E as (w & E & Q). injection E as <-. apply H in Q. discriminate.
    + discriminate.
    + destruct E as (w & E & Q). injection E as <-. apply H in Q. discriminate.
  - split; [discriminate|]. intros (v & E & _). discriminate.
Qed.
Lemma orelse_val : forall A (a b : res A) (R S : A -> Prop), orelse a b <> Panic -> (a <> Panic -> forall x, a = Val x <-> R x) ->
  (b <> Panic -> forall x, b = Val x <-> S x) -> forall x, orelse a b = Val x <-> R x \/ ((forall y, ~ R y) /\ S x).
Proof.
  intros A a b R S NP Ha Hb x. destruct a as [y| |]; cbn [orelse] in *; [| |congruence].
  - specialize (Ha ltac:(discriminate)). rewrite Ha. split; [left; auto|]. intros [H|(N & _)]; auto. exfalso. apply (N y), Ha. reflexivity.
  - specialize (Ha ltac:(discriminate)). assert (N : forall y, ~ R y) by (intros y H; apply Ha in H; discriminate). rewrite (Hb NP). split; [auto|].
    intros [H|(_ & H)]; auto. destruct (N x H).
Qed.
Lemma orelse_last : forall A (b : res A) (S : A -> Prop), (forall x, b = Val x <-> S x) -> forall x, b = Val x <-> first_of [S] x.
Proof. intros A b S H x. rewrite H. cbn [first_of]. tauto. Qed.
Lemma orelse_first : forall A (a b : res A) (R : A -> Prop) l, orelse a b <> Panic -> (a <> Panic -> forall x, a = Val x <-> R x) ->
  (b <> Panic -> forall x, b = Val x <-> first_of l x) -> forall x, orelse a b = Val x <-> first_of (R :: l) x.
Proof. intros. cbn [first_of]. apply orelse_val; auto. Qed.
Lemma map_res_val : forall A B (p : A -> res B) (e : B -> A) (W : B -> Prop), (forall v x, p v = Val x <-> v = e x /\ W x) ->
  forall l r, map_res p l = Val r <-> l = map e r /\ Forall W r.
Proof.
  intros A B p e W H l. induction l as [|v l IH]; intro r.
  - cbn [map_res]. split; [intro E; injection E as <-; auto|]. intros (E & _). destruct r; [reflexivity|discriminate].
  - cbn [map_res]. rewrite bind_val. split.
    + intros (x & E1 & E2). destruct (map_res p l) as [t| |]; try discriminate. injection E2 as <-. apply H in E1. destruct E1 as (-> & E1).
      destruct (proj1 (IH t) eq_refl) as (-> & F). split; auto.
    + intros (E & F). destruct r as [|x r]; [discriminate|]. injection E as -> ->. inversion F as [|? ? F1 F2]; subst. exists x. split; [apply H; auto|].
      rewrite (proj2 (IH r)) by auto. reflexivity.
Qed.

(** ** values *)
Lemma id_val : forall v x, p_id v = Val x <-> is_id v x.
Proof.
  intros v x. unfold p_id, is_id. destruct v as [z|s|l|l]; try (split; [discriminate|intros (E & _); discriminate]).
  unfold id_deserialize. change ID_LEN with 20. destruct (Nat.eqb_spec (length s) 20) as [L|L]; split.
  - intro E. injection E as <-. auto.
  - intros (E & _). injection E as <-. reflexivity.
  - discriminate.
  - intros (E & Q). injection E as <-. exfalso. apply L, Q.
Qed.
Lemma uint_val : forall max v p, p_uint max v = Val p <-> v = BInt (Z.of_N p) /\ (p <= max)%N.
Proof.
  intros max v p. unfold p_uint. destruct v as [z|s|l|l]; try (split; [discriminate|intros (E & _); discriminate]).
  destruct ((0 <=? z)%Z && (z <=? Z.of_N max)%Z) eqn:R.
  - apply andb_true_iff in R as [R1 R2]. apply Z.leb_le in R1, R2. split.
    + intro E. injection E as <-. split; [f_equal; lia|lia].
    + intros (E & _). injection E as ->. rewrite N2Z.id. reflexivity.
  - split; [discriminate|]. intros (E & L). injection E as ->. apply andb_false_iff in R as [R|R]; apply Z.leb_gt in R; lia.
Qed.
Lemma port_val : forall v p, p_uint 65535 v = Val p <-> is_port v p.
Proof. intros v p. rewrite uint_val. unfold is_port. split; intros (E & L); (split; [exact E|lia]). Qed.
Lemma buf_val : forall v x, p_buf v = Val x <-> is_bytes v x.
Proof. intros v x. unfold p_buf, is_bytes. destruct v; split; intro E; congruence. Qed.
Lemma text_val : forall v x, p_string v = Val x <-> is_text v x.
Proof.
  intros v x. unfold p_string, is_text. destruct v as [z|s|l|l]; try (split; [discriminate|intros (E & _); discriminate]).
  destruct (utf8_ok s) eqn:U; split.
  - intro E. injection E as <-. split; auto. apply utf8_ok_iff. exact U.
  - intros (E & _). congruence.
  - discriminate.
  - intros (E & Q). injection E as ->. apply utf8_ok_iff in Q. congruence.
Qed.
Lemma type_val : forall v b, p_type v = Val b <-> is_type v b.
Proof.
  intros v b. unfold p_type, is_type. destruct v as [z|s|l|l]; try (split; [discriminate|intros (E & _); discriminate]).
  destruct s as [|c [|c' s]]; try (split; [discriminate|intros (E & _); discriminate]).
  assert (K : In c (str "qre") <-> Byte.eqb c x71 || Byte.eqb c x72 || Byte.eqb c x65 = true).
  { cbn [str list_byte_of_string In]. rewrite !orb_true_iff. split.
    - intros [<-|[<-|[<-|[]]]]; vm_compute; auto.
    - intros [[E|E]|E]; apply byte_dec_bl in E; subst; vm_compute; auto. }
  destruct (Byte.eqb c x71 || Byte.eqb c x72 || Byte.eqb c x65) eqn:T; split.
  - intro E. injection E as <-. split; auto. apply K. reflexivity.
  - intros (E & _). congruence.
  - discriminate.
  - intros (E & Q). injection E as ->. apply K in Q. discriminate.
Qed.

Lemma peer_val : forall v a, p_peer v = Val a <-> v = BStr (compact_peer a) /\ wf_addr a.
Proof.
  intros v a. unfold p_peer. destruct v as [z|s|l|l]; try (split; [discriminate|intros (E & _); discriminate]). split.
  - intro E. assert (W : wf_addr a).
    { destruct (Nat.eq_dec (length s) 6) as [L|L]; [|rewrite (proj1 (@peer_decode_fail s L)) in E; discriminate].
      destruct (proj2 (peer_decode_iff s) L) as (a' & E' & W). rewrite E in E'. injection E' as <-. exact W. }
    split; [|exact W]. f_equal. rewrite <- peer_bytes_compact by exact W. symmetry. apply peer_bytes_unique. exact E.
  - intros (E & W). injection E as ->. rewrite <- peer_bytes_compact by exact W. apply peer_roundtrip. exact W.
Qed.
Lemma peers_val : forall v l, p_list p_peer v = Val l <-> is_peers v l.
Proof.
  intros v l. unfold p_list, is_peers. destruct v as [z|s|k|k]; try (split; [discriminate|intros (E & _); discriminate]).
  rewrite (@map_res_val _ _ p_peer (fun a => BStr (compact_peer a)) wf_addr peer_val). split; intros (E & F); (split; [congruence|exact F]).
Qed.
Lemma str_inj : forall a b, BStr a = BStr b -> a = b.
Proof. congruence. Qed.
Lemma node_val : forall s n, node_from_compact s = Val n <-> s = compact_node n /\ (wf_wnode n /\ n_seen n = None).
Proof.
  intros s n. split.
  - intro E. unfold node_from_compact in E. destruct (Nat.eqb_spec (length s) (ID_LEN + 6)) as [L|L]; [|discriminate].
    destruct (socketaddr_from_compact_bytes (skipn ID_LEN s)) as [a| |] eqn:A; try discriminate. cbn [rbind] in E. injection E as <-.
    change ID_LEN with 20 in *. assert (L6 : length (skipn 20 s) = 6) by (rewrite skipn_length; lia).
    assert (PA : p_peer (BStr (skipn 20 s)) = Val a) by (cbn [p_peer]; unfold peer_visit_bytes, peer_from_compact_bytes; rewrite L6; exact A).
    apply peer_val in PA. destruct PA as (PA & W). apply str_inj in PA. assert (L20 : length (firstn 20 s) = 20) by (rewrite firstn_length; lia).
    split; [|split; [split; [exact L20|exact W]|reflexivity]]. unfold compact_node. cbn [n_id n_addr].
    transitivity (firstn 20 s ++ skipn 20 s); [symmetry; apply (firstn_skipn 20 s)|]. rewrite PA. reflexivity.
  - intros (-> & W & S). rewrite <- (node_bytes_compact W). rewrite (node_from_ok W). unfold on_wire. destruct n. cbn in *. congruence.
Qed.
Lemma chunks_concat : forall A f k (l : list A), length l <= f -> k <> 0 -> concat (chunks_go f k l) = l.
Proof.
  intros A f k. induction f as [|f IH]; intros l L K; [destruct l; [reflexivity|cbn in L; lia]|].
  cbn [chunks_go]. destruct l as [|x l]; [reflexivity|]. cbn [concat]. rewrite IH; [apply firstn_skipn| |exact K].
  rewrite skipn_length. cbn [length] in *. lia.
Qed.
Lemma nodes_val : forall v n, p_nodes v = Val n <-> is_nodes v n.
Proof.
  intros v n. split.
  - intro E. unfold p_nodes in E. destruct v as [z|s|l|l]; try discriminate. change COMPACT_NODE_LEN with 26 in E.
    destruct (Nat.eqb_spec (length s mod 26) 0) as [M|M]; [|discriminate]. cbn [negb] in E.
    destruct (Nat.eqb_spec (length s / 26) 1) as [D|D].
    + destruct (node_from_compact s) as [x| |] eqn:X; try discriminate. injection E as <-. apply node_val in X. destruct X as (-> & W & S).
      unfold is_nodes. cbn [nodes_of flat_map]. rewrite app_nil_r. auto.
    + destruct (map_res node_from_compact (chunks 26 s)) as [l| |] eqn:X; try discriminate. injection E as <-.
      apply (@map_res_val _ _ node_from_compact compact_node (fun n => wf_wnode n /\ n_seen n = None) node_val) in X. destruct X as (X & F).
      assert (ES : s = flat_map compact_node l) by (transitivity (concat (chunks 26 s)); [symmetry; apply chunks_concat; [auto|discriminate]|rewrite X; symmetry; apply flat_map_concat_map]).
      unfold is_nodes. cbn [nodes_of]. split; [congruence|].
      assert (F1 : Forall wf_wnode l) by (eapply Forall_impl; [|exact F]; intros ? (A & _); exact A).
      assert (F2 : Forall (fun x => n_seen x = None) l) by (eapply Forall_impl; [|exact F]; intros ? (_ & A); exact A).
      split; [exact F1|]. split; [exact F2|]. intro L1. apply D. rewrite ES.
      destruct l as [|x [|? ?]]; try discriminate. cbn [flat_map]. rewrite app_nil_r. inversion F1 as [|? ? W _]; subst.
      rewrite <- (node_bytes_compact W), node_bytes_len by apply W. reflexivity.
  - intros (-> & W & S & ONE). assert (WN : wf_nodes n) by exact W. rewrite <- nodes_bytes_compact by exact WN. rewrite p_nodes_ok by exact WN. f_equal.
    assert (OW : map on_wire (nodes_of n) = nodes_of n).
    { clear - S. induction S as [|x l E S IH]; [reflexivity|]. cbn [map]. rewrite IH. f_equal. unfold on_wire. destruct x. cbn in *. congruence. }
    unfold seen_nodes. destruct n as [x|l]; cbn [nodes_of] in *.
    + injection OW as OW. rewrite OW. reflexivity.
    + destruct l as [|x [|y l]]; [reflexivity|exfalso; apply ONE; reflexivity|]. rewrite OW. reflexivity.
Qed.
Lemma error_val : forall v e, p_error v = Val e <-> v = match e with ECode n => BInt (Z.of_N n) | EDesc s => BStr s end /\ wf_error e.
Proof.
  intros v e. split.
  - intro E. unfold p_error in E. destruct (p_uint 4294967295 v) as [n| |] eqn:U; cbn [rmap orelse] in E; try discriminate.
    + injection E as <-. apply uint_val in U. destruct U as (-> & L). split; [reflexivity|]. cbn [wf_error]. lia.
    + destruct (p_string v) as [s| |] eqn:T; try discriminate. injection E as <-. apply text_val in T. exact T.
  - intros (-> & W). pose proof (@p_errors_ok [e] (Forall_cons _ W (Forall_nil _))) as P. cbn [p_list map map_res] in P.
    change (error_bval e) with (match e with ECode n => BInt (Z.of_N n) | EDesc s => BStr s end) in P.
    destruct (p_error match e with ECode n => BInt (Z.of_N n) | EDesc s => BStr s end); try discriminate. cbn in P. congruence.
Qed.
Lemma errors_val : forall v e, p_list p_error v = Val e <-> is_errors v e.
Proof.
  intros v l. unfold p_list, is_errors. destruct v as [z|s|k|k]; try (split; [discriminate|intros (E & _); discriminate]).
  rewrite (@map_res_val _ _ p_error _ wf_error error_val). split; intros (E & F); (split; [congruence|exact F]).
Qed.

(** ** the forms *)
Ltac at_all := repeat match goal with
  | H : exists _, _ |- _ => destruct H
  | H : _ /\ _ |- _ => destruct H
  | H : rbind _ _ = Val _ |- _ => apply bind_val in H
  | H : need _ = Val _ |- _ => apply need_val in H; subst
  end.
Lemma f_id : forall d k x, field d k p_id = Val (Some x) <-> at_key d k is_id x.
Proof. intros. apply field_val. intros. apply id_val. Qed.
Lemma f_port : forall d k x, field d k (p_uint 65535) = Val (Some x) <-> at_key d k is_port x.
Proof. intros. apply field_val. intros. apply port_val. Qed.
Lemma f_buf : forall d k x, field d k p_buf = Val (Some x) <-> at_key d k is_bytes x.
Proof. intros. apply field_val. intros. apply buf_val. Qed.
Lemma f_text : forall d k x, field d k p_string = Val (Some x) <-> at_key d k is_text x.
Proof. intros. apply field_val. intros. apply text_val. Qed.
Lemma f_type : forall d k x, field d k p_type = Val (Some x) <-> at_key d k is_type x.
Proof. intros. apply field_val. intros. apply type_val. Qed.
Lemma f_peers : forall d k x, field d k (p_list p_peer) = Val (Some x) <-> at_key d k is_peers x.
Proof. intros. apply field_val. intros. apply peers_val. Qed.
Lemma f_nodes : forall d k x, field d k p_nodes = Val (Some x) <-> at_key d k is_nodes x.
Proof. intros. apply field_val. intros. apply nodes_val. Qed.
Lemma f_errors : forall d k x, field d k (p_list p_error) = Val (Some x) <-> at_key d k is_errors x.
Proof. intros. apply field_val. intros. apply errors_val. Qed.
Ltac give := repeat match goal with |- exists _, _ => eexists end; repeat match goal with |- _ /\ _ => split end; try reflexivity;
  match goal with
  | |- at_key _ _ is_id _ => apply f_id | |- at_key _ _ is_port _ => apply f_port | |- at_key _ _ is_bytes _ => apply f_buf
  | |- at_key _ _ is_text _ => apply f_text | |- at_key _ _ is_type _ => apply f_type | |- at_key _ _ is_peers _ => apply f_peers
  | |- at_key _ _ is_nodes _ => apply f_nodes | |- at_key _ _ is_errors _ => apply f_errors | _ => idtac
  end; try eassumption.
Ltac take := repeat match goal with
  | H : at_key _ _ is_id _ |- _ => apply f_id in H | H : at_key _ _ is_port _ |- _ => apply f_port in H
  | H : at_key _ _ is_bytes _ |- _ => apply f_buf in H | H : at_key _ _ is_text _ |- _ => apply f_text in H
  | H : at_key _ _ is_type _ |- _ => apply f_type in H | H : at_key _ _ is_peers _ |- _ => apply f_peers in H
  | H : at_key _ _ is_nodes _ |- _ => apply f_nodes in H | H : at_key _ _ is_errors _ |- _ => apply f_errors in H
  end; repeat match goal with H : field _ _ _ = Val _ |- _ => rewrite H; clear H; go end.
Lemma announce_val : forall d x, as_announce d = Val x <-> r_announce d x.
Proof.
  intros d x. unfold as_announce, r_announce. split.
  - intro H. at_all. match goal with H : Val _ = Val _ |- _ => injection H as <- end. give.
  - intros (id & ih & p & t & -> & H1 & H2 & H3 & H4). apply f_id in H1, H2. apply f_port in H3. apply f_buf in H4. rewrite H1, H2, H3, H4. reflexivity.
Qed.
Lemma find_val : forall d x, as_find d = Val x <-> r_find d x.
Proof.
  intros d x. unfold as_find, r_find. split.
  - intro H. at_all. match goal with H : Val _ = Val _ |- _ => injection H as <- end. give.
  - intros (id & ih & -> & H1 & H2). apply f_id in H1, H2. rewrite H1, H2. reflexivity.
Qed.
Lemma get_val : forall d x, as_get d = Val x <-> r_get d x.
Proof.
  intros d x. unfold as_get, r_get. split.
  - intro H. at_all. match goal with H : Val _ = Val _ |- _ => injection H as <- end. give.
  - intros (id & ih & -> & H1 & H2). apply f_id in H1, H2. rewrite H1, H2. reflexivity.
Qed.
Lemma ping_val : forall d x, as_ping d = Val x <-> r_ping d x.
Proof.
  intros d x. unfold as_ping, r_ping. split.
  - intro H. at_all. match goal with H : Val _ = Val _ |- _ => injection H as <- end. give.
  - intros (id & -> & H1). apply f_id in H1. rewrite H1. reflexivity.
Qed.
Lemma args_val : forall v x, p_args v <> Panic -> (p_args v = Val x <-> is_args v x).
Proof.
  intros v x NP. unfold is_args. destruct v as [z|s|l|d]; try (split; [discriminate|intros (d & E & _); discriminate]).
  assert (C : p_args (BDict d) = Val x <-> first_of [r_announce d; r_find d; r_get d; r_ping d] x).
  { change (p_args (BDict d)) with (orelse (as_announce d) (orelse (as_find d) (orelse (as_get d) (as_ping d)))) in *. revert x.
    apply orelse_first; [exact NP|intros _; apply announce_val|]. intros N1. apply orelse_first; [exact N1|intros _; apply find_val|].
    intros N2. apply orelse_first; [exact N2|intros _; apply get_val|]. intros _. apply orelse_last. apply ping_val. }
  rewrite C. split; [exists d; auto|]. intros (d' & E & H). injection E as <-. exact H.
Qed.
Lemma von_val : forall d x, p_von d = Val x <-> first_of [r_values d; r_nodes d] x.
Proof.
  intros d. unfold p_von. apply orelse_first; [apply safe_von| |].
  - intros _ x. unfold r_values. split.
    + intro H. at_all. match goal with H : Val _ = Val _ |- _ => injection H as <- end. give.
    + intros (l & -> & H). apply f_peers in H. rewrite H. reflexivity.
  - intros _. apply orelse_last. intro x. unfold r_nodes. split.
    + intro H. at_all. match goal with H : Val _ = Val _ |- _ => injection H as <- end. give.
    + intros (l & -> & H). apply f_nodes in H. rewrite H. reflexivity.
Qed.
Lemma resp_val : forall v x, p_resp v <> Panic -> (p_resp v = Val x <-> is_resp v x).
Proof.
  intros v x NP. unfold is_resp. destruct v as [z|s|l|d]; try (split; [discriminate|intros (d & E & _); discriminate]).
  assert (C : p_resp (BDict d) = Val x <-> first_of [r_peers d; r_found d; r_pong d] x).
  { assert (EQ : p_resp (BDict d) = orelse (let? id := field d "id" p_id in let? t := field d "token" p_buf in
            let? id := need id in let? t := need t in let? v := p_von d in Val (RGetPeers id t v))
     (orelse (let? id := field d "id" p_id in let? n := field d "nodes" p_nodes in
            let? id := need id in let? n := need n in Val (RFindNode id n))
            (let? id := field d "id" p_id in let? id := need id in Val (RPing id)))).
    { cbn [p_resp]. destruct (field d "id" p_id) as [[id|]| |]; go; reflexivity. }
    rewrite EQ in *. clear EQ. revert x. apply orelse_first; [exact NP| |].
    - intros _ x. unfold r_peers. split.
      + intro H. at_all. match goal with H : Val _ = Val _ |- _ => injection H as <- end.
        repeat match goal with H : p_von _ = Val _ |- _ => apply von_val in H end. give.
      + intros (id & t & w & -> & H1 & H2 & H3). apply f_id in H1. apply f_buf in H2. apply von_val in H3. rewrite H1, H2. go. rewrite H3. reflexivity.
    - intro N1. apply orelse_first; [exact N1| |].
      + intros _ x. unfold r_found. split.
        * intro H. at_all. match goal with H : Val _ = Val _ |- _ => injection H as <- end. give.
        * intros (id & n & -> & H1 & H2). apply f_id in H1. apply f_nodes in H2. rewrite H1, H2. reflexivity.
      + intros _. apply orelse_last. intro x. unfold r_pong. split.
        * intro H. at_all. match goal with H : Val _ = Val _ |- _ => injection H as <- end. give.
        * intros (id & -> & H1). apply f_id in H1. rewrite H1. reflexivity. }
  rewrite C. split; [exists d; auto|]. intros (d' & E & H). injection E as <-. exact H.
Qed.
Definition as_response (d : entries) : res kmsg :=
  let? r := field d "r" p_resp in let? t := field d "t" p_buf in let? y := field d "y" p_type in
  let? t := need t in let? y := need y in let? r := need r in Val (MResp t y r).
Definition as_error (d : entries) : res kmsg :=
  let? e := field d "e" (p_list p_error) in let? t := field d "t" p_buf in let? y := field d "y" p_type in
  let? t := need t in let? y := need y in let? e := need e in Val (MError t y e).
Lemma f_args : forall d x, as_query d <> Panic -> (field d "a" p_args = Val (Some x) <-> at_key d "a" is_args x).
Proof.
  intros d x NP. apply field_val. intros v E. apply args_val. intro P. apply NP. unfold as_query, field. rewrite E, P. reflexivity.
Qed.
Lemma f_resp : forall d x, as_response d <> Panic -> (field d "r" p_resp = Val (Some x) <-> at_key d "r" is_resp x).
Proof.
  intros d x NP. apply field_val. intros v E. apply resp_val. intro P. apply NP. unfold as_response, field. rewrite E, P. reflexivity.
Qed.
Lemma kmsg_val : forall v m, p_kmsg v <> Panic -> (p_kmsg v = Val m <-> reads v m).
Proof.
  intros v m NP. unfold reads. destruct v as [z|s|l|d]; try (split; [discriminate|intros (d & E & _); discriminate]).
  assert (C : p_kmsg (BDict d) = Val m <-> first_of [r_query d; r_response d; r_error d] m).
  { change (p_kmsg (BDict d)) with (orelse (as_query d) (orelse (as_response d) (as_error d))) in *. revert m. apply orelse_first; [exact NP| |].
    - intros NQ x. unfold r_query. split.
      + intro H. pose proof H as H0. unfold as_query in H. at_all. match goal with H : Val _ = Val _ |- _ => injection H as <- end.
        repeat match goal with H : field _ "a" _ = Val _ |- _ => apply (@f_args d _ NQ) in H end. give.
      + intros (t & y & q & a & -> & H1 & H2 & H3 & H4). apply f_buf in H1. apply f_type in H2. apply f_text in H3. apply (@f_args d _ NQ) in H4.
        unfold as_query. rewrite H1, H2, H3, H4. reflexivity.
    - intro N1. apply orelse_first; [exact N1| |].
      + intros NR x. unfold r_response. split.
        * intro H. unfold as_response in H. at_all. match goal with H : Val _ = Val _ |- _ => injection H as <- end.
          repeat match goal with H : field _ "r" _ = Val _ |- _ => apply (@f_resp d _ NR) in H end. give.
        * intros (t & y & r & -> & H1 & H2 & H3). apply f_buf in H1. apply f_type in H2. apply (@f_resp d _ NR) in H3.
          unfold as_response. rewrite H1, H2, H3. reflexivity.
      + intros _. apply orelse_last. intro x. unfold r_error. split.
        * intro H. unfold as_error in H. at_all. match goal with H : Val _ = Val _ |- _ => injection H as <- end. give.
        * intros (t & y & e & -> & H1 & H2 & H3). apply f_buf in H1. apply f_type in H2. apply f_errors in H3.
          unfold as_error. rewrite H1, H2, H3. reflexivity. }
  rewrite C. split; [exists d; auto|]. intros (d' & E & H). injection E as <-. exact H.
Qed.

(** ** C118 *)
(** The decoder follows lists and dictionaries 2048 deep. *)
Theorem C118_depth : N.of_nat MAX_DEPTH = 2048%N.
Proof. vm_compute. reflexivity. Qed.
(** What a datagram (the receive buffer) is read as: it starts with a
    bencoded value that is not deadly (C43), and the first kind of message that
    has all its parts decides. *)
Theorem C118_exact : forall s m,
  kmsg_from_bytes s = Val m <->
  exists v tl, s = enc v ++ tl /\ ordered v /\ nest v <= MAX_DEPTH /\ ints_ok v = true /\ ~ deadly v /\ reads v m.
Proof.
  intros s m. unfold kmsg_from_bytes. split.
  - intro H. destruct (decode s) as [[v tl]|] eqn:D; [|discriminate]. destruct (ints_ok v) eqn:O; [|discriminate].
    apply C39_canonical in D. destruct D as (E & OR & NE). exists v, tl. split; [exact E|]. split; [exact OR|]. split; [exact NE|]. split; [exact O|].
    assert (NP : p_kmsg v <> Panic) by congruence. split; [intro X; apply NP, kmsg_panics, X|]. apply kmsg_val; auto.
  - intros (v & tl & -> & OR & NE & O & ND & R). change (decode (enc v ++ tl)) with (decode_at MAX_DEPTH (enc v ++ tl)).
    rewrite C39_round_trip by auto. rewrite O. apply kmsg_val; auto. intro X. apply ND, kmsg_panics, X.
Qed.
(** Entries are found by their full key, and there is only one of each. *)
Theorem C118_entry : forall (d : entries) k v, ordered (BDict d) -> (lookup (str k) d = Some v <-> In (str k, v) d).
Proof.
  intros d k v O. assert (N : NoDup (map fst d)) by (apply sorted_nodup; inversion O; auto). clear O. induction d as [|(k' & w) d IH]; [split; [discriminate|intros []]|].
  cbn [map fst] in N. inversion N as [|? ? NI N']; subst. cbn [lookup In]. destruct (bytes_eqb k' (str k)) eqn:E.
  - apply bytes_eqb_eq in E. subst k'. split; [intro H; injection H as ->; auto|]. intros [H|H]; [congruence|].
    exfalso. apply NI. apply in_map_iff. exists (str k, v). auto.
  - rewrite (IH N'). split; [auto|]. intros [H|H]; auto. injection H as -> ->. rewrite bytes_eqb_refl in E. discriminate.
Qed.

(** Whatever is read has ids of 20 bytes, ports of 16 bits, a text for a name
    and one of the three types. *)
Definition sized (m : kmsg) : Prop :=
  match m with
  | MQuery _ y q a => In y (str "qre") /\ utf8 q /\
    match a with
    | AAnnounce id ih p _ => List.length id = 20 /\ List.length ih = 20 /\ (p < 65536)%N
    | AFindNode id x | AGetPeers id x => List.length id = 20 /\ List.length x = 20
    | APing id => List.length id = 20
    end
  | MResp _ y r => In y (str "qre") /\
    match r with
    | RGetPeers id _ v => List.length id = 20 /\ match v with VValues l => Forall wf_addr l | VNodes n => Forall wf_wnode (nodes_of n) end
    | RFindNode id n => List.length id = 20 /\ Forall wf_wnode (nodes_of n)
    | RPing id => List.length id = 20
    | RAnnounce _ => False
    end
  | MError _ y e => In y (str "qre") /\ Forall wf_error e
  end.
Ltac parts := repeat match goal with
  | H : first_of _ _ |- _ => cbn [first_of] in H
  | H : _ \/ _ |- _ => destruct H as [H|H] | H : _ /\ _ |- _ => destruct H | H : False |- _ => destruct H
  | H : r_announce _ _ |- _ => unfold r_announce in H | H : r_find _ _ |- _ => unfold r_find in H | H : r_get _ _ |- _ => unfold r_get in H
  | H : r_ping _ _ |- _ => unfold r_ping in H | H : r_values _ _ |- _ => unfold r_values in H | H : r_nodes _ _ |- _ => unfold r_nodes in H
  | H : r_peers _ _ |- _ => unfold r_peers in H | H : r_found _ _ |- _ => unfold r_found in H | H : r_pong _ _ |- _ => unfold r_pong in H
  | H : r_query _ _ |- _ => unfold r_query in H | H : r_response _ _ |- _ => unfold r_response in H | H : r_error _ _ |- _ => unfold r_error in H
  | H : at_key _ _ _ _ |- _ => unfold at_key in H | H : exists _, _ |- _ => destruct H
  | H : is_id _ _ |- _ => unfold is_id in H | H : is_port _ _ |- _ => unfold is_port in H | H : is_text _ _ |- _ => unfold is_text in H
  | H : is_type _ _ |- _ => unfold is_type in H | H : is_peers _ _ |- _ => unfold is_peers in H | H : is_nodes _ _ |- _ => unfold is_nodes in H
  | H : is_errors _ _ |- _ => unfold is_errors in H | H : is_args _ _ |- _ => unfold is_args in H | H : is_resp _ _ |- _ => unfold is_resp in H
  end.
Theorem C118_sizes : forall s m, kmsg_from_bytes s = Val m -> sized m.
Proof.
  intros s m H. apply C118_exact in H. destruct H as (v & tl & _ & _ & _ & _ & _ & (d & _ & R)). clear s v tl.
  parts; subst; cbn [sized]; auto.
Qed.
(** The full statement: type and name say what a message is. *)
Definition C118_proper_general : Prop := forall s m, kmsg_from_bytes s = Val m -> proper m.
(** Instead neither matters: whatever a query is called, and whatever it says it
    is, it is treated by its arguments alone. *)
Theorem C118_name_always : forall sha e s from t y q y' q' a,
  dstep sha e s (EIn from (MQuery t y q a)) = dstep sha e s (EIn from (MQuery t y' q' a)).
Proof. reflexivity. Qed.
Theorem C118_type_always : forall sha e s from t y y' r, dstep sha e s (EIn from (MResp t y r)) = dstep sha e s (EIn from (MResp t y' r)).
Proof. reflexivity. Qed.
(** On the wire: a query is treated by its arguments under every name. *)
Theorem C118_any_name_always : forall sha e s from t q a tl, utf8 q -> wf_args a -> exists m,
  kmsg_from_bytes (kmsg_bytes (MQuery t x71 q a) ++ tl) = Val m /\
  dstep sha e s (EIn from m) = dstep sha e s (EIn from (MQuery t x71 (method a) a)).
Proof.
  intros sha e s from t q a tl U A. exists (MQuery t x71 q a). split; [|reflexivity]. apply C40_exact; [|exact I]. repeat split; auto.
Qed.
(** What comes as an answer (type [r]) to ping, with no [r] but arguments holding a target,
    is taken for find_node. *)
Definition lie : bval :=
  BDict [(str "a", BDict [(str "id", BStr twenty); (str "target", BStr twenty)]); (str "q", BStr (str "ping")); (str "t", BStr (str "x")); (str "y", BStr (str "r"))].
Lemma lie_reads : reads lie (MQuery (str "x") x72 (str "ping") (AFindNode twenty twenty)).
Proof. apply kmsg_val; [discriminate|reflexivity]. Qed.
Lemma lie_wire : forall tl, kmsg_from_bytes (enc lie ++ tl) = Val (MQuery (str "x") x72 (str "ping") (AFindNode twenty twenty)).
Proof.
  intro tl. apply C118_exact. exists lie, tl. split; [reflexivity|]. split; [|split; [|split; [reflexivity|split; [|exact lie_reads]]]].
  - apply wire_dict; [reflexivity|]. cbn -[wire_ok]. repeat apply Forall_cons; try apply Forall_nil; try apply wire_str.
    apply wire_dict; [reflexivity|]. cbn -[wire_ok]. repeat apply Forall_cons; try apply Forall_nil; apply wire_str.
  - pose proof depth3. cbn. lia.
  - intro D. apply kmsg_panics in D. discriminate.
Qed.
Theorem C118_proper_refuted : ~ C118_proper_general /\
  (forall sha e s from tl, e_listener e = true -> exists m, kmsg_from_bytes (enc lie ++ tl) = Val m /\
     dstep sha e s (EIn from m) = Val (s, [OFindNode twenty from (str "x")])).
Proof.
  split.
  - intro F. specialize (F _ _ (lie_wire [])). destruct F as [F _]. discriminate.
  - intros sha e s from tl L. eexists. split; [apply lie_wire|]. cbn. unfold to_listener. rewrite L. reflexivity.
Qed.
(** ** non-vacuity *)
Example C118_exact_example :
  (* a target decides over an info hash, everything of an announcement over both *)
  reads (a_query [(str "id", BStr twenty); (str "info_hash", BStr twenty); (str "target", BStr twenty)]) (MQuery (str "aa") x71 (str "find_node") (AFindNode twenty twenty)) /\
  (exists p t, reads (a_query announcing) (MQuery (str "aa") x71 (str "find_node") (AAnnounce twenty twenty p t))) /\
  (* with a port that is too big it only asks for peers *)
  reads (a_query [(str "id", BStr twenty); (str "info_hash", BStr twenty); (str "port", BInt 65536); (str "token", BStr [])])
    (MQuery (str "aa") x71 (str "find_node") (AGetPeers twenty twenty)) /\
  (* no arguments, no answer, no error *)
  (forall m, ~ reads (BDict [(str "t", BStr []); (str "y", BStr [x71])]) m).
Proof.
  repeat split.
  - apply kmsg_val; [discriminate|reflexivity].
  - do 2 eexists. apply kmsg_val; [discriminate|reflexivity].
  - apply kmsg_val; [discriminate|reflexivity].
  - intros m H. apply kmsg_val in H; [discriminate|discriminate].
Qed.
Print Assumptions C118_exact.
Print Assumptions C118_entry.
Print Assumptions C118_sizes.
Print Assumptions C118_name_always.
Print Assumptions C118_type_always.
Print Assumptions C118_any_name_always.
Print Assumptions C118_proper_refuted.
