(** Properties C12-C18, C60, C61: compact addresses, wire messages, receive
    loop, dispatch, handshake *)
From Coq Require Import List NArith ZArith Lia Bool Arith.
From Verif Require Import Base IdModel WireModel WireSpec WireProofs.
Import ListNotations.
Set Implicit Arguments.

Lemma skipn_skipn : forall A a b (l : list A), skipn a (skipn b l) = skipn (a + b) l.
Proof.
  intros A a b. revert a. induction b; intros a l.
  - rewrite Nat.add_0_r. reflexivity.
  - replace (a + S b) with (S (a + b)) by lia. destruct l; [rewrite !skipn_nil; reflexivity|]. cbn [skipn]. auto.
Qed.

(** C12 *)
Theorem C12_compact_addresses :
  (forall a, wf_addr a -> peer_to_bytes a = compact a /\ peer_visit_bytes (compact a) = Val a) /\
  (forall v, (exists a, peer_visit_bytes v = Val a /\ wf_addr a) <-> length v = 6) /\
  (forall v, length v <> 6 -> peer_visit_bytes v = Fail) /\
  (forall v a, peer_visit_bytes v = Val a -> compact a = v) /\
  (forall a b, wf_addr a -> wf_addr b -> compact a = compact b -> a = b) /\
  (forall id a, wf_id id -> wf_addr a -> node_from_compact_bytes (id ++ compact a) = Val (id, a)) /\
  (forall v, (exists p, node_from_compact_bytes v = Val p) <-> length v = 26) /\
  (forall v, length v <> 26 -> node_from_compact_bytes v = Fail).
Proof.
  assert (E : forall a, wf_addr a -> peer_to_bytes a = compact a).
  { intros a W. unfold peer_to_bytes, compact, addr_octets. f_equal. cbn [be_bytes].
    unfold wf_addr in W. f_equal; [|f_equal].
    - apply b2n_inj. rewrite !b2n_n2b. rewrite N.shiftr_div_pow2. change (2 ^ 8)%N with 256%N.
      repeat (rewrite ?N.mod_mod by lia; try reflexivity).
    - apply b2n_inj. rewrite !b2n_n2b.
      replace (N.land (port a) 0xff) with (port a mod 256)%N by (symmetry; apply (N.land_ones _ 8)).
      rewrite N.mod_mod by lia. change (256 ^ N.of_nat 0)%N with 1%N. rewrite N.div_1_r. reflexivity. }
  repeat split.
  - auto.
  - rewrite <- E by auto. apply peer_roundtrip; auto.
  - apply peer_decode_iff.
  - apply peer_decode_iff.
  - intros. apply peer_decode_fail; auto.
  - intros v a H. rewrite <- E. apply peer_bytes_unique; auto.
    destruct (proj2 (peer_decode_iff v)) as (a' & Ha & Hw).
    + destruct (Nat.eq_dec (length v) 6) as [L|L]; auto.
      rewrite (proj1 (peer_decode_fail _ L)) in H. discriminate.
    + congruence.
  - intros a b Ha Hb H. rewrite <- !E in H by auto. apply peer_encode_inj; auto.
  - intros. rewrite <- E by auto. apply node_roundtrip; auto.
  - apply node_decode_iff.
  - apply node_decode_iff.
  - intros v H. unfold node_from_compact_bytes. change COMPACT_NODE_LEN with 26.
    apply Nat.eqb_neq in H. rewrite H. reflexivity.
Qed.
Print Assumptions C12_compact_addresses.
Example C12_example : peer_visit_bytes [x7f; x00; x00; x01; x1a; xe1] = Val (mk_addr x7f x00 x00 x01 6881) /\
  wf_addr (mk_addr x7f x00 x00 x01 6881) /\ peer_visit_bytes [x7f; x00; x00; x01; x1a] = Fail.
Proof. vm_compute. auto. Qed.

(** C13 *)
Theorem C13_message_round_trip : forall m, wf_msg m ->
  into_bytes m = bep3_frame m /\ forall rest, from_buf (into_bytes m ++ rest) = Val (Some m).
Proof.
  intros m H. split; [apply into_bytes_bep3; auto|]. intro rest.
  rewrite into_bytes_bep3 by auto. apply from_buf_frame; auto.
Qed.
Print Assumptions C13_message_round_trip.
Example C13_example : wf_msg (Piece (mk_piece 258 16384 [x61; x62])) /\
  into_bytes (Piece (mk_piece 258 16384 [x61; x62])) =
    [x00; x00; x00; x0b; x07; x00; x00; x01; x02; x00; x00; x40; x00; x61; x62] /\
  from_buf (into_bytes (Cancel (mk_request 1 2 3)) ++ [xff]) = Val (Some (Cancel (mk_request 1 2 3))).
Proof. vm_compute. repeat split; auto. Qed.

(** C14. Full statement: for every buffer of receive-buffer size, [from_buf]
    does not abort. It aborts exactly on a piece message shorter than its own
    header. *)
Theorem C14_parse_no_abort_partial : forall buf, length buf = MAX_MESSAGE_BYTES ->
  (from_buf buf = Panic <-> (1 <= of_be (firstn 4 buf) < 9)%N /\ nth_error buf 4 = Some x07) /\
  from_buf buf <> Fail.
Proof.
  intros buf H. assert (MAX_MESSAGE_BYTES = Z.to_nat 16512) as EM by (vm_compute; reflexivity).
  assert (L : 17 <= length buf) by lia. split; [apply from_buf_panic_iff; auto|].
  unfold from_buf, u32_at. rewrite slice_some by lia. cbn [rbind].
  destruct (_ <? _)%N; [discriminate|]. destruct (_ =? _)%N; [discriminate|].
  destruct (nth_error buf 4); [|discriminate].
  unfold parse_request, u32_at. rewrite !slice_some by lia. cbn [rbind].
  generalize (slice buf 5 (N.to_nat (of_be (firstn (0 + 4 - 0) (skipn 0 buf)) + 4))).
  generalize (slice buf 13 (N.to_nat (of_be (firstn (0 + 4 - 0) (skipn 0 buf)) + 4))).
  generalize (nth_error buf 5), (nth_error buf 6). clear. intros o1 o2 o3 o4.
  destruct (b2n b) as [|p]; [discriminate|].
  do 4 (try (destruct p as [p|p|]; try discriminate));
    destruct o1; destruct o2; destruct o3; destruct o4; try discriminate;
    destruct (slice buf 13 (13 + 4)); discriminate.
Qed.
Print Assumptions C14_parse_no_abort_partial.
(** Five bytes from a remote peer abort the connection task. *)
Theorem C14_parse_no_abort_refuted : exists stream : bytes, length stream = 5 /\
  recv_run recv_init stream [5] = Panic.
Proof. exists [x00; x00; x00; x01; x07]. split; vm_compute; reflexivity. Qed.
Print Assumptions C14_parse_no_abort_refuted.
Example C14_example : exists buf, length buf = MAX_MESSAGE_BYTES /\ from_buf buf = Val (Some (Have 7)).
Proof. exists (into_bytes (Have 7) ++ repeat x00 (MAX_MESSAGE_BYTES - 9)). split; vm_compute; reflexivity. Qed.

(** C15. Whatever the sizes returned by successive reads, what has been
    delivered is a prefix of the messages; the buffer holds less than the next
    message; nothing is lost. When the stream has been read everything has
    been delivered and the buffer is empty. *)
Theorem C15_reassembly : forall ms sizes, Forall wf_msg ms ->
  exists s delivered todo rest,
    recv_run recv_init (stream_of ms) sizes = Val (s, delivered, rest) /\
    ms = delivered ++ todo /\
    firstn (rv_len s) (rv_buf s) ++ rest = stream_of todo /\
    (rest = [] -> delivered = ms /\ rv_len s = 0).
Proof.
  intros ms sizes H. destruct (recv_segmentation sizes H) as (s & d & t & r & R & I & E & Inc & S).
  exists s, d, t, r. split; auto. split; auto. split; auto. intros ->. rewrite app_nil_r in S.
  destruct (@incomplete_done _ _ Inc S) as [-> P]. rewrite app_nil_r in E. split; auto.
  rewrite <- (pending_length I), P. reflexivity.
Qed.
Print Assumptions C15_reassembly.
(** And promptly: every message whose last byte has been read has been
    delivered. *)
Theorem C15_prompt : forall ms sizes s delivered rest, Forall wf_msg ms ->
  recv_run recv_init (stream_of ms) sizes = Val (s, delivered, rest) ->
  forall pre post, ms = pre ++ post -> length (stream_of pre) + length rest <= length (stream_of ms) ->
  exists more, delivered = pre ++ more.
Proof.
  intros ms sizes s d r H R pre post E L. destruct (recv_segmentation sizes H) as (s' & d' & t & r' & R' & I & E' & Inc & S).
  rewrite R in R'. injection R' as <- <- <-.
  assert (P : (exists more, d = pre ++ more) \/ exists m x, pre = d ++ m :: x /\ t = m :: x ++ post).
  { clear - E E'. rewrite E in E'. clear E. revert d E'. induction pre as [|p pre IH]; intros [|m d] E.
    - left. exists []. auto.
    - left. exists (m :: d). auto.
    - right. exists p, pre. cbn in *. split; auto.
    - cbn in E. injection E as -> E. destruct (IH d E) as [[more ->]|(m' & x & -> & ->)].
      + left. exists more. auto.
      + right. exists m', x. auto. }
  destruct P as [P|(m & x & -> & ->)]; auto. exfalso. cbn [incomplete] in Inc.
  apply (f_equal (@length byte)) in S. rewrite E in L. unfold stream_of in *.
  rewrite !flat_map_app in L. cbn [flat_map] in *. rewrite ?flat_map_app in S. rewrite ?app_length in *. lia.
Qed.
Print Assumptions C15_prompt.
Example C15_example :
  let ms := [Have 3; KeepAlive; Piece (mk_piece 1 2 [x61; x62; x63])] in
  Forall wf_msg ms /\
  outcome (recv_run recv_init (stream_of ms) [1; 2; 0; 8; 5; 100]) = Some (ms, []).
Proof. split; [repeat constructor; vm_compute; auto|]. vm_compute. reflexivity. Qed.

(** C16. Full statement: for every stream of well-formed messages the loop
    consumes everything, and it stops when the peer closes. Proved: progress
    for messages that fit the receive buffer, and stop on a read error. *)
Theorem C16_progress_partial : forall ms sizes, wf_stream ms ->
  Forall (fun k => 1 <= k) sizes -> length (stream_of ms) <= length sizes ->
  exists s, recv_run recv_init (stream_of ms) sizes = Val (s, ms, []) /\ rv_len s = 0.
Proof.
  intros ms sizes [H1 H2] Hk HL. destruct (C15_reassembly sizes H1) as (s & d & t & r & R & E & S & F).
  destruct (@recv_run_progress sizes MAX_MESSAGE_BYTES recv_init (stream_of ms) ms inv_init H1 H2 eq_refl (incomplete_init ms) Hk _ _ _ R) as [->|L].
  - destruct (F eq_refl) as [-> HZ]. exists s. auto.
  - assert (r = []) as -> by (destruct r; auto; cbn [length] in L; lia).
    destruct (F eq_refl) as [-> HZ]. exists s. auto.
Qed.
Print Assumptions C16_progress_partial.
Theorem C16_error_stops : forall s es, recv_steps (Running s) (ReadErr :: es) = Val (Stopped, []).
Proof.
  intros s es. cbn [recv_steps recv_step rbind fst snd].
  assert (E : recv_steps Stopped es = Val (Stopped, [])).
  { induction es as [|e es IH]; auto. cbn [recv_steps recv_step rbind fst snd]. rewrite IH. reflexivity. }
  rewrite E. reflexivity.
Qed.
Print Assumptions C16_error_stops.
(** A well-formed message larger than the buffer (a bitfield of a torrent
    with more than 132056 pieces) is never delivered, however much is read. *)
Theorem C16_progress_refuted : exists m, wf_msg m /\
  forall sizes, exists s rest, recv_run recv_init (stream_of [m]) sizes = Val (s, [], rest) /\ rest <> [].
Proof.
  exists (Bitfield (repeat xff (MAX_MESSAGE_BYTES - 4))).
  assert (W : wf_msg (Bitfield (repeat xff (MAX_MESSAGE_BYTES - 4)))).
  { split; [|exact I]. unfold u32_ok. cbn [bep3_payload length]. rewrite repeat_length.
    replace MAX_MESSAGE_BYTES with (Z.to_nat 16512) by (vm_compute; reflexivity).
    change (2 ^ 32)%N with 4294967296%N. lia. }
  split; auto. intro sizes.
  assert (L : MAX_MESSAGE_BYTES < length (bep3_frame (Bitfield (repeat xff (MAX_MESSAGE_BYTES - 4))))).
  { rewrite bep3_frame_length. cbn [bep3_payload length]. rewrite repeat_length. lia. }
  destruct (@recv_oversize sizes MAX_MESSAGE_BYTES recv_init (stream_of [Bitfield (repeat xff (MAX_MESSAGE_BYTES - 4))]) _ inv_init W L) as (s & rest & R & Hi & P).
  { unfold stream_of. cbn [flat_map]. rewrite app_nil_r. reflexivity. }
  exists s, rest. split; auto. intros ->. rewrite app_nil_r in P.
  apply (f_equal (@length _)) in P. rewrite (pending_length Hi) in P. destruct Hi as (_ & _ & Hi).
  unfold enc in P. lia.
Qed.
Print Assumptions C16_progress_refuted.
(** When the peer closes the connection every further read returns no bytes;
    the loop keeps running in the same state for ever. *)
Theorem C16_stops_at_eof_refuted : forall ms sizes s d rest, Forall wf_msg ms ->
  recv_run recv_init (stream_of ms) sizes = Val (s, d, rest) ->
  forall n, recv_steps (Running s) (repeat (ReadOk []) n) = Val (Running s, []).
Proof.
  intros ms sizes s d rest H R n. destruct (recv_segmentation sizes H) as (s' & d' & t & r & R' & Hi & E & Inc & S).
  rewrite R in R'. injection R' as <- <- <-.
  subst ms. apply Forall_app in H as [_ H]. eapply eof_spins; eauto.
Qed.
Print Assumptions C16_stops_at_eof_refuted.
Example C16_example : wf_stream [Have 1; Bitfield [xff]] /\ length (stream_of [Have 1; Bitfield [xff]]) = 15.
Proof. split; [|reflexivity]. split; repeat constructor; try (vm_compute; auto; fail);
  apply Nat.leb_le; vm_compute; reflexivity. Qed.

(** C17 *)
Theorem C17_dispatch : forall peer ms,
  let ds := flat_map (handle_message peer) ms in
  got_pieces ds = flat_map piece_of ms /\
  got_dht ds = map (fun p => mk_addr (ip0 peer) (ip1 peer) (ip2 peer) (ip3 peer) p) (flat_map port_of ms) /\
  map fst (got_peer ds) = map (fun _ => peer) (filter other ms) /\
  Forall2 same_content (filter other ms) (map snd (got_peer ds)) /\
  length ds = length ms.
Proof.
  intros peer ms. cbv zeta. unfold got_pieces, got_dht, got_peer.
  induction ms as [|m ms IH]; [repeat split; constructor|].
  destruct IH as (I1 & I2 & I3 & I4 & I5).
  cbn [flat_map filter]. rewrite !flat_map_app, !map_app, !app_length.
  destruct m; cbn [handle_message con_of_message flat_map piece_of port_of other app map fst snd length];
    rewrite ?I1, ?I2, ?I3, ?I5; repeat split; auto; constructor; auto; reflexivity.
Qed.
Print Assumptions C17_dispatch.
Example C17_example :
  flat_map (handle_message (mk_addr x0a x00 x00 x01 6881)) [Port 99; Have 2; Piece (mk_piece 1 0 [x61])] =
  [ToDht (mk_addr x0a x00 x00 x01 99); ToPeer (mk_addr x0a x00 x00 x01 6881) (CHave 2); ToPiece (mk_piece 1 0 [x61])].
Proof. reflexivity. Qed.

(** C18. Full statement adds: an accepted reply carries the info hash of this
    torrent. Proved: layout, and acceptance iff 68 bytes with the protocol
    prefix. *)
Theorem C18_handshake_partial :
  (forall ih pid, wf_id ih -> wf_id pid ->
     handshake_bytes ih pid = bep3_handshake reserved_dht ih pid /\ length (handshake_bytes ih pid) = 68) /\
  (forall reply, initiate_handshake reply = Val tt <->
     exists reserved ih pid, length reserved = 8 /\ wf_id ih /\ wf_id pid /\ reply = bep3_handshake reserved ih pid) /\
  (forall reply, initiate_handshake reply = Val tt \/ initiate_handshake reply = Fail).
Proof.
  split; [|split].
  - intros ih pid H1 H2. split; [reflexivity|]. unfold handshake_bytes. rewrite !app_length, H1, H2. reflexivity.
  - intro reply. unfold initiate_handshake. change HANDSHAKE_LENGTH with 68.
    destruct (Nat.eqb_spec (length reply) 68) as [E|E]; cbn [negb].
    + rewrite check_validity_iff. split.
      * intros [_ H]. exists (firstn 8 (skipn 20 reply)), (firstn 20 (skipn 28 reply)), (skipn 48 reply).
        unfold wf_id. rewrite !firstn_length, !skipn_length, E. repeat split; auto.
        rewrite <- (firstn_skipn 20 reply) at 1. rewrite H. unfold bep3_handshake.
        rewrite app_comm_cons. f_equal.
        rewrite <- (firstn_skipn 8 (skipn 20 reply)) at 1. f_equal. rewrite skipn_skipn.
        change (8 + 20) with 28.
        rewrite <- (firstn_skipn 20 (skipn 28 reply)) at 1. f_equal. rewrite skipn_skipn. reflexivity.
      * intros (r & ih & pid & H1 & H2 & H3 & ->). split; auto.
    + split; [discriminate|]. intros (r & ih & pid & H1 & H2 & H3 & ->). exfalso. apply E.
      unfold bep3_handshake. cbn [length]. rewrite !app_length, H1, H2, H3. reflexivity.
  - intro reply. unfold initiate_handshake. destruct (negb _); auto using check_validity_total.
Qed.
Print Assumptions C18_handshake_partial.
Theorem C18_handshake_info_hash_refuted : forall our_hash, wf_id our_hash ->
  exists their_hash pid, wf_id their_hash /\ wf_id pid /\ their_hash <> our_hash /\
    initiate_handshake (bep3_handshake reserved_dht their_hash pid) = Val tt.
Proof.
  intros h Hh. exists (if bytes_eqb h (repeat x00 20) then repeat x01 20 else repeat x00 20), (repeat x00 20).
  destruct (bytes_eqb h (repeat x00 20)) eqn:E.
  - apply bytes_eqb_eq in E. subst h. repeat split; vm_compute; auto. discriminate.
  - split; [reflexivity|]. split; [reflexivity|]. split; [|vm_compute; reflexivity].
    intros <-. rewrite bytes_eqb_refl in E. discriminate.
Qed.
Print Assumptions C18_handshake_info_hash_refuted.
Example C18_example : initiate_handshake (handshake_bytes (repeat xaa 20) (repeat xbb 20)) = Val tt /\
  initiate_handshake (x12 :: skipn 1 (handshake_bytes (repeat xaa 20) (repeat xbb 20))) = Fail.
Proof. vm_compute. auto. Qed.

(** C60. Full statement: an unsupported but well-framed message is skipped and
    the messages around it are delivered. Proved: the messages before it are
    delivered and the loop continues from an empty buffer, when nothing
    follows it in the buffer. Refuted in general: what follows in the same
    read is thrown away. *)
Theorem C60_unknown_skipped_partial : forall ms sizes s d rest chunk more id body, Forall wf_msg ms -> Forall wf_msg more ->
  recv_run recv_init (stream_of ms) sizes = Val (s, d, rest) -> unknown_ok id body ->
  length chunk <= recv_avail s ->
  chunk = rest ++ stream_of more ++ unknown_frame id body ->
  exists s' d', recv_read s chunk = Val (s', d') /\ d ++ d' = ms ++ more /\ rv_len s' = 0.
Proof.
  intros ms sizes s d rest chunk more id body H Hm R Hu Hc ->.
  destruct (recv_segmentation sizes H) as (s1 & d1 & t & r & R' & Hi & E & Inc & S).
  rewrite R in R'. injection R' as <- <- <-.
  subst ms. apply Forall_app in H as [_ H].
  destruct (@recv_read_unknown MAX_MESSAGE_BYTES s (rest ++ stream_of more ++ unknown_frame id body) (t ++ more) id body Hi) as (s' & RR & Hi' & P); auto.
  - apply Forall_app; auto.
  - rewrite stream_of_app, <- app_assoc, <- S, <- !app_assoc. reflexivity.
  - exists s', (t ++ more). split; auto. split; [apply app_assoc|]. rewrite <- (pending_length Hi'), P. reflexivity.
Qed.
Print Assumptions C60_unknown_skipped_partial.
Theorem C60_unknown_skipped_refuted : exists id body m, unknown_ok id body /\ wf_msg m /\
  let stream := unknown_frame id body ++ bep3_frame m in
  outcome (recv_run recv_init stream [100]) = Some ([], []) /\
  outcome (recv_run recv_init stream [length (unknown_frame id body); 100]) = Some ([m], []).
Proof.
  exists x14, [x00], Unchoke. split; [vm_compute; auto|]. split; [vm_compute; auto|].
  cbv zeta. split; vm_compute; reflexivity.
Qed.
Print Assumptions C60_unknown_skipped_refuted.
Example C60_example : unknown_ok x14 [x00] /\
  rmap snd (recv_read recv_init (stream_of [Have 1] ++ unknown_frame x14 [x00])) = Val [Have 1].
Proof. split; [vm_compute; auto|]. vm_compute. reflexivity. Qed.

(** C61. Full statement: a valid reply is accepted however TCP segments it. *)
Theorem C61_handshake_segmentation_partial : forall reserved ih pid more k,
  length reserved = 8 -> wf_id ih -> wf_id pid ->
  (initiate_handshake_tcp (bep3_handshake reserved ih pid ++ more) k = Val tt <-> 68 <= k) /\
  (k < 68 -> initiate_handshake_tcp (bep3_handshake reserved ih pid ++ more) k = Fail).
Proof.
  intros r ih pid more k H1 H2 H3.
  assert (L : length (bep3_handshake r ih pid) = 68).
  { unfold bep3_handshake. cbn [length]. rewrite !app_length, H1, H2, H3. reflexivity. }
  assert (F : k < 68 -> initiate_handshake_tcp (bep3_handshake r ih pid ++ more) k = Fail).
  { intro Hk. unfold initiate_handshake_tcp, initiate_handshake. rewrite firstn_length, app_length, L.
    change HANDSHAKE_LENGTH with 68. rewrite (Nat.min_l k 68) by lia. rewrite Nat.min_l by lia.
    replace (k =? 68) with false by (symmetry; apply Nat.eqb_neq; lia). reflexivity. }
  split; auto. split.
  - intro H. destruct (Nat.lt_ge_cases k 68) as [G|G]; auto. rewrite F in H by auto. discriminate.
  - intro Hk. unfold initiate_handshake_tcp. change HANDSHAKE_LENGTH with 68. rewrite Nat.min_r by auto.
    rewrite firstn_app, L, Nat.sub_diag. change (firstn 0 more) with (@nil byte). rewrite app_nil_r.
    rewrite <- L, firstn_all. apply C18_handshake_partial. exists r, ih, pid. auto.
Qed.
Print Assumptions C61_handshake_segmentation_partial.
Theorem C61_handshake_segmentation_refuted : exists reply k, 1 <= k < 68 /\
  initiate_handshake reply = Val tt /\ initiate_handshake_tcp reply k = Fail.
Proof.
  exists (handshake_bytes (repeat xaa 20) (repeat xbb 20)), 48. split; [lia|]. vm_compute. auto.
Qed.
Print Assumptions C61_handshake_segmentation_refuted.
Example C61_example : initiate_handshake_tcp (handshake_bytes (repeat xaa 20) (repeat xbb 20) ++ [x00]) 69 = Val tt.
Proof. vm_compute. reflexivity. Qed.
