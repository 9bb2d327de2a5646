(** Proofs about WireModel *)
From Coq Require Import List NArith ZArith Lia Bool Arith.
From Verif Require Import Base BitSpec BitmapProofs IdModel IdProofs WireModel WireSpec.
Import ListNotations.
Set Implicit Arguments.

(** *** Compact addresses *)
Lemma port_split : forall p, (p < 65536)%N ->
  N.lor (N.shiftl (b2n (n2b (N.shiftr p 8))) 8) (b2n (n2b (N.land p 0xff))) = p.
Proof.
  intros p H. rewrite !b2n_n2b. 
  replace (N.land p 0xff) with (p mod 256)%N by (symmetry; apply (N.land_ones p 8)).
  rewrite N.shiftr_div_pow2, N.shiftl_mul_pow2. change (2 ^ 8)%N with 256%N.
  rewrite (N.mod_small (p / 256)) by lia. rewrite N.mod_mod by lia.
  rewrite <- add_disjoint.
  - lia.
  - apply N.bits_inj. intro n. rewrite N.land_spec, N.bits_0. change 256%N with (2 ^ 8)%N.
    destruct (N.lt_ge_cases n 8) as [L|L].
    + rewrite N.mul_pow2_bits_low by auto. reflexivity.
    + rewrite N.mod_pow2_bits_high by auto. apply andb_false_r.
Qed.
Lemma peer_roundtrip : forall a, wf_addr a -> peer_visit_bytes (peer_to_bytes a) = Val a.
Proof.
  intros [a b c d p] H. unfold wf_addr in H. cbn [port] in H.
  unfold peer_visit_bytes, peer_from_compact_bytes, peer_to_bytes, addr_octets.
  cbn -[N.shiftr N.land N.lor N.shiftl]. rewrite port_split by auto. reflexivity.
Qed.
Lemma peer_decode_iff : forall v, (exists a, peer_visit_bytes v = Val a /\ wf_addr a) <-> length v = 6.
Proof.
  intro v. split.
  - intros (a & H & _). unfold peer_visit_bytes in H. change COMPACT_SOCKADDR_LEN with 6 in H.
    destruct (Nat.eqb_spec (length v) 6); [auto|discriminate].
  - intro H. do 6 (destruct v as [|? v]; [discriminate|]). destruct v; [|discriminate].
    eexists. split; [reflexivity|]. unfold wf_addr. cbn [port].
    destruct (N.eq_dec (b2n b3) 0) as [E|E].
    + rewrite E, N.shiftl_0_l. rewrite N.lor_0_l. pose proof (b2n_lt b4). lia.
    + change 65536%N with (2 ^ 16)%N. 
      destruct (N.eq_dec (N.lor (N.shiftl (b2n b3) 8) (b2n b4)) 0) as [->|E2]; [reflexivity|].
      apply N.log2_lt_pow2; [lia|]. rewrite N.log2_lor. 
      apply N.max_lub_lt.
      * rewrite N.log2_shiftl by auto.
        assert (N.log2 (b2n b3) < 8)%N by (apply N.log2_lt_pow2; [lia|]; apply b2n_lt). lia.
      * destruct (N.eq_dec (b2n b4) 0) as [->|E4]; [reflexivity|].
        assert (N.log2 (b2n b4) < 8)%N by (apply N.log2_lt_pow2; [lia|]; apply b2n_lt). lia.
Qed.
Lemma peer_decode_fail : forall v, length v <> 6 -> peer_visit_bytes v = Fail /\ socketaddr_from_compact_bytes v = Fail.
Proof.
  intros v H. unfold peer_visit_bytes. change COMPACT_SOCKADDR_LEN with 6.
  apply Nat.eqb_neq in H as H2. rewrite H2. split; auto.
  do 7 (destruct v as [|? v]; auto). simpl in H. lia.
Qed.
Lemma peer_encode_inj : forall a b, wf_addr a -> wf_addr b -> peer_to_bytes a = peer_to_bytes b -> a = b.
Proof.
  intros a b Ha Hb H. apply (f_equal peer_visit_bytes) in H. rewrite !peer_roundtrip in H by auto. congruence.
Qed.
Lemma peer_bytes_unique : forall v a, peer_visit_bytes v = Val a -> peer_to_bytes a = v.
Proof.
  intros v a H. assert (L : length v = 6).
  { destruct (Nat.eq_dec (length v) 6); auto. rewrite (proj1 (@peer_decode_fail v n)) in H. discriminate. }
  pose proof (proj2 (peer_decode_iff v) L) as (a' & E & W). rewrite E in H. injection H as <-.
  do 6 (destruct v as [|? v]; [discriminate|]). destruct v; [|discriminate].
  cbn in E. injection E as <-. unfold wf_addr in W. cbn [port] in W.
  unfold peer_to_bytes, addr_octets. cbn [ip0 ip1 ip2 ip3 port app]. do 4 f_equal.
  assert (S : N.lor (N.shiftl (b2n b3) 8) (b2n b4) = (b2n b3 * 256 + b2n b4)%N).
  { rewrite <- add_disjoint. rewrite N.shiftl_mul_pow2. reflexivity.
    apply N.bits_inj. intro n. rewrite N.land_spec, N.bits_0, N.shiftl_mul_pow2.
    destruct (N.lt_ge_cases n 8) as [L2|L2].
    + rewrite N.mul_pow2_bits_low by auto. reflexivity.
    + replace (b2n b4) with (b2n b4 mod 2 ^ 8)%N by (apply N.mod_small, b2n_lt).
      rewrite N.mod_pow2_bits_high by auto. apply andb_false_r. }
  rewrite S. pose proof (b2n_lt b3). pose proof (b2n_lt b4). f_equal.
  - rewrite N.shiftr_div_pow2. change (2 ^ 8)%N with 256%N. rewrite N.div_add_l by lia.
    rewrite N.div_small by auto. rewrite N.add_0_r. apply n2b_b2n.
  - f_equal. replace (N.land (b2n b3 * 256 + b2n b4) 0xff) with ((b2n b3 * 256 + b2n b4) mod 256)%N
      by (symmetry; apply (N.land_ones _ 8)).
    rewrite N.add_comm, N.mod_add by lia. rewrite N.mod_small by auto. apply n2b_b2n.
Qed.
Lemma node_roundtrip : forall id a, wf_id id -> wf_addr a ->
  node_from_compact_bytes (id ++ peer_to_bytes a) = Val (id, a).
Proof.
  unfold wf_id. intros id a Hi Ha. unfold node_from_compact_bytes. rewrite app_length, Hi.
  change (length (peer_to_bytes a)) with 6. cbn [Nat.eqb Nat.add ID_LEN COMPACT_NODE_LEN].
  rewrite <- Hi at 1. rewrite skipn_app, skipn_all, Nat.sub_diag. cbn [skipn app].
  pose proof (peer_roundtrip Ha) as P. unfold peer_visit_bytes, peer_from_compact_bytes in P.
  change (length (peer_to_bytes a)) with 6 in P. cbn [Nat.eqb COMPACT_SOCKADDR_LEN] in P.
  rewrite P. cbn [rbind]. change 20 with ID_LEN. rewrite <- Hi, firstn_app, firstn_all, Nat.sub_diag, app_nil_r. reflexivity.
Qed.
Lemma node_decode_iff : forall v, (exists p, node_from_compact_bytes v = Val p) <-> length v = 26.
Proof.
  intro v. unfold node_from_compact_bytes. change COMPACT_NODE_LEN with 26.
  destruct (Nat.eqb_spec (length v) 26) as [E|E].
  - split; auto. intros _. assert (L : length (skipn ID_LEN v) = 6) by (rewrite skipn_length, E; reflexivity).
    set (w := skipn ID_LEN v) in *. do 6 (destruct w as [|? w]; [discriminate|]). destruct w; [|discriminate].
    eexists. reflexivity.
  - split; [intros [p H]; discriminate|congruence].
Qed.

(** *** Messages *)
Lemma into_bytes_bep3 : forall m, wf_msg m -> into_bytes m = bep3_frame m.
Proof.
  intros m [HL H]. unfold u32_ok in HL. unfold bep3_frame.
  destruct m; try reflexivity; cbn [into_bytes bep3_payload length] in *.
  - unfold len_as_u32. rewrite N.mod_small by lia.
    replace (N.of_nat (S (length b))) with (1 + N.of_nat (length b))%N by lia. reflexivity.
  - rewrite !app_length, !be_bytes_length in *. unfold len_as_u32. rewrite N.mod_small by lia.
    replace (N.of_nat (S (4 + (4 + length (pm_block p))))) with (9 + N.of_nat (length (pm_block p)))%N by lia.
    reflexivity.
Qed.

Lemma slice_app : forall A (a b c : list A), slice (a ++ b ++ c) (length a) (length a + length b) = Some b.
Proof.
  intros. rewrite slice_some by (rewrite ?app_length; lia).
  rewrite skipn_app, skipn_all, Nat.sub_diag. cbn [skipn app].
  replace (length a + length b - length a) with (length b) by lia.
  rewrite firstn_app, firstn_all, Nat.sub_diag, app_nil_r. reflexivity.
Qed.
Lemma u32_at_app : forall a n c, (n < 2 ^ 32)%N -> u32_at (a ++ be_bytes 4 n ++ c) (length a) = Val n.
Proof.
  intros. unfold u32_at. pose proof (slice_app a (be_bytes 4 n) c) as S. rewrite be_bytes_length in S.
  rewrite S, of_be_be_bytes. rewrite N.mod_small; auto.
Qed.
Lemma u32_at_0 : forall n c, (n < 2 ^ 32)%N -> u32_at (be_bytes 4 n ++ c) 0 = Val n.
Proof. intros. apply (@u32_at_app []); auto. Qed.

Lemma bep3_frame_length : forall m, length (bep3_frame m) = 4 + length (bep3_payload m).
Proof. intro. unfold bep3_frame. rewrite app_length, be_bytes_length. reflexivity. Qed.

Lemma port_val : forall p, (p < 2 ^ 16)%N -> forall x y, be_bytes 2 p = [x; y] -> (N.shiftl (b2n x) 8 + b2n y = p)%N.
Proof.
  intros p H x y E. rewrite N.shiftl_mul_pow2. change (2 ^ 8)%N with 256%N.
  apply (f_equal of_be) in E. rewrite of_be_be_bytes in E. rewrite N.mod_small in E by exact H.
  rewrite E. unfold of_be. cbn [fold_left]. lia.
Qed.

Lemma from_buf_frame : forall m rest, wf_msg m -> from_buf (bep3_frame m ++ rest) = Val (Some m).
Proof.
  intros m rest [HL H]. unfold u32_ok in HL.
  assert (E0 : u32_at (bep3_frame m ++ rest) 0 = Val (N.of_nat (length (bep3_payload m)))).
  { unfold bep3_frame. rewrite <- app_assoc. apply u32_at_0. auto. }
  unfold from_buf. rewrite E0. cbn [rbind].
  assert (HB : (N.of_nat (length (bep3_frame m ++ rest)) <? N.of_nat (length (bep3_payload m)) + 4)%N = false).
  { apply N.ltb_ge. rewrite app_length, bep3_frame_length. lia. }
  rewrite HB.
  assert (P4 : forall id t, bep3_payload m = id :: t -> nth_error (bep3_frame m ++ rest) 4 = Some id).
  { intros id t Hp. unfold bep3_frame. rewrite Hp. rewrite nth_error_app1 by (rewrite app_length, be_bytes_length; simpl; lia).
    rewrite nth_error_app2 by (rewrite be_bytes_length; lia). rewrite be_bytes_length. reflexivity. }
  assert (HN : forall id t, bep3_payload m = id :: t -> (N.of_nat (length (bep3_payload m)) + 4 =? 4)%N = false).
  { intros id t ->. cbn [length]. lia. }
  assert (HTN : N.to_nat (N.of_nat (length (bep3_payload m)) + 4) = 4 + length (bep3_payload m)) by lia.
  assert (U5 : forall id n t, bep3_payload m = id :: be_bytes 4 n ++ t -> (n < 2 ^ 32)%N ->
           u32_at (bep3_frame m ++ rest) 5 = Val n).
  { intros id n t Hp Hn. unfold bep3_frame. rewrite Hp.
    match goal with |- context[(be_bytes 4 ?L ++ id :: be_bytes 4 n ++ t) ++ rest] =>
     replace ((be_bytes 4 L ++ id :: be_bytes 4 n ++ t) ++ rest) with
      ((be_bytes 4 L ++ [id]) ++ be_bytes 4 n ++ (t ++ rest)) end.
    2:{ rewrite <- !app_assoc. cbn [app]. rewrite <- app_assoc. reflexivity. }
    match goal with |- context[(?P ++ be_bytes 4 n ++ _)] => replace 5 with (length P) end.
    apply u32_at_app; auto. rewrite app_length, be_bytes_length. reflexivity. }
  assert (U9 : forall id n1 n t, bep3_payload m = id :: be_bytes 4 n1 ++ be_bytes 4 n ++ t -> (n < 2 ^ 32)%N ->
           u32_at (bep3_frame m ++ rest) 9 = Val n).
  { intros id n1 n t Hp Hn. unfold bep3_frame. rewrite Hp.
    match goal with |- context[(be_bytes 4 ?L ++ id :: be_bytes 4 n1 ++ be_bytes 4 n ++ t) ++ rest] =>
     replace ((be_bytes 4 L ++ id :: be_bytes 4 n1 ++ be_bytes 4 n ++ t) ++ rest) with
      ((be_bytes 4 L ++ [id] ++ be_bytes 4 n1) ++ be_bytes 4 n ++ (t ++ rest)) end.
    2:{ rewrite <- !app_assoc. cbn [app]. rewrite <- !app_assoc. reflexivity. }
    match goal with |- context[(?P ++ be_bytes 4 n ++ _)] => replace 9 with (length P) end.
    apply u32_at_app; auto. rewrite !app_length, !be_bytes_length. reflexivity. }
  assert (U13 : forall id n1 n2 n t, bep3_payload m = id :: be_bytes 4 n1 ++ be_bytes 4 n2 ++ be_bytes 4 n ++ t -> (n < 2 ^ 32)%N ->
           u32_at (bep3_frame m ++ rest) 13 = Val n).
  { intros id n1 n2 n t Hp Hn. unfold bep3_frame. rewrite Hp.
    match goal with |- context[(be_bytes 4 ?L ++ id :: be_bytes 4 n1 ++ be_bytes 4 n2 ++ be_bytes 4 n ++ t) ++ rest] =>
     replace ((be_bytes 4 L ++ id :: be_bytes 4 n1 ++ be_bytes 4 n2 ++ be_bytes 4 n ++ t) ++ rest) with
      ((be_bytes 4 L ++ [id] ++ be_bytes 4 n1 ++ be_bytes 4 n2) ++ be_bytes 4 n ++ (t ++ rest)) end.
    2:{ rewrite <- !app_assoc. cbn [app]. rewrite <- !app_assoc. reflexivity. }
    match goal with |- context[(?P ++ be_bytes 4 n ++ _)] => replace 13 with (length P) end.
    apply u32_at_app; auto. rewrite !app_length, !be_bytes_length. reflexivity. }
  destruct m; try reflexivity;
    try (rewrite (HN _ _ eq_refl), (P4 _ _ eq_refl); reflexivity).
  - (* Have *) rewrite (HN _ _ eq_refl), (P4 _ _ eq_refl). change (b2n x04) with 4%N. cbv iota.
    rewrite (U5 x04 i []); auto.
  - (* Bitfield *) rewrite (HN _ _ eq_refl), (P4 _ _ eq_refl). change (b2n x05) with 5%N. cbv iota.
    rewrite HTN. cbn [bep3_payload length].
    match goal with |- context[slice ?B 5 ?K] => replace (slice B 5 K) with (Some b) end; [reflexivity|].
    symmetry. unfold bep3_frame. cbn [bep3_payload].
    match goal with |- context[(?F ++ x05 :: b) ++ rest] =>
      replace ((F ++ x05 :: b) ++ rest) with ((F ++ [x05]) ++ b ++ rest) by (rewrite <- !app_assoc; reflexivity);
      pose proof (slice_app (F ++ [x05]) b rest) as S; rewrite app_length, be_bytes_length in S
    end.
    exact S.
  - (* Request *) rewrite (HN _ _ eq_refl), (P4 _ _ eq_refl). change (b2n x06) with 6%N. cbv iota.
    destruct H as (H1 & H2 & H3). unfold parse_request. cbn [bep3_payload].
    erewrite U5, U9, U13; try reflexivity; auto.
    destruct r; reflexivity.
  - (* Piece *) rewrite (HN _ _ eq_refl), (P4 _ _ eq_refl). change (b2n x07) with 7%N. cbv iota.
    destruct H as (H1 & H2). erewrite U5, U9; try reflexivity; auto. cbn [rbind]. rewrite HTN.
    cbn [bep3_payload length]. rewrite !app_length, !be_bytes_length.
    match goal with |- context[slice ?B 13 ?K] => replace (slice B 13 K) with (Some (pm_block p)) end.
    { destruct p; reflexivity. }
    symmetry. unfold bep3_frame. cbn [bep3_payload].
    match goal with |- context[(?F ++ x07 :: ?X ++ ?Y ++ pm_block p) ++ rest] =>
      replace ((F ++ x07 :: X ++ Y ++ pm_block p) ++ rest) with ((F ++ [x07] ++ X ++ Y) ++ pm_block p ++ rest)
        by (rewrite <- !app_assoc; cbn [app]; rewrite <- !app_assoc; reflexivity);
      pose proof (slice_app (F ++ [x07] ++ X ++ Y) (pm_block p) rest) as S; rewrite !app_length, !be_bytes_length in S
    end.
    exact S.
  - (* Cancel *) rewrite (HN _ _ eq_refl), (P4 _ _ eq_refl). change (b2n x08) with 8%N. cbv iota.
    destruct H as (H1 & H2 & H3). unfold parse_request. cbn [bep3_payload].
    erewrite U5, U9, U13; try reflexivity; auto.
    destruct r; reflexivity.
  - (* Port *) rewrite (HN _ _ eq_refl), (P4 _ _ eq_refl). change (b2n x09) with 9%N. cbv iota.
    destruct (be_bytes 2 p) as [|x [|y [|]]] eqn:EB;
      try (apply (f_equal (@length _)) in EB; rewrite be_bytes_length in EB; simpl in EB; lia).
    assert (nth_error (bep3_frame (Port p) ++ rest) 5 = Some x /\ nth_error (bep3_frame (Port p) ++ rest) 6 = Some y) as [X5 X6].
    { unfold bep3_frame. cbn [bep3_payload]. rewrite EB, <- app_assoc.
      split; rewrite nth_error_app2 by (rewrite be_bytes_length; lia); rewrite be_bytes_length; reflexivity. }
    rewrite X5, X6, (@port_val p); auto.
Qed.

(** *** when parsing panics *)
Lemma u32_at_val : forall buf off, off + 4 <= length buf -> exists n, u32_at buf off = Val n.
Proof.
  intros. unfold u32_at. rewrite slice_some by lia. eauto.
Qed.
Lemma from_buf_panic_iff : forall buf, 17 <= length buf ->
  (from_buf buf = Panic <->
   (1 <= of_be (firstn 4 buf) < 9)%N /\ nth_error buf 4 = Some x07).
Proof.
  intros buf HL. unfold from_buf.
  assert (E0 : u32_at buf 0 = Val (of_be (firstn 4 buf))).
  { unfold u32_at. rewrite slice_some by lia. reflexivity. }
  rewrite E0. cbn [rbind]. set (L := of_be (firstn 4 buf)).
  destruct (@u32_at_val buf 5 ltac:(lia)) as [n5 E5]. destruct (@u32_at_val buf 9 ltac:(lia)) as [n9 E9].
  destruct (@u32_at_val buf 13 ltac:(lia)) as [n13 E13].
  destruct (nth_error buf 4) as [id|] eqn:E4; [|apply nth_error_None in E4; lia].
  destruct (N.ltb_spec (N.of_nat (length buf)) (L + 4)) as [G|G].
  - split; [discriminate|]. intros [HH _]. lia.
  - destruct (N.eqb_spec (L + 4) 4) as [G2|G2].
    + split; [discriminate|]. intros [HH _]. lia.
    + assert (HX : forall k, k < 17 -> exists b, nth_error buf k = Some b).
      { intros k Hk. destruct (nth_error buf k) eqn:E; eauto. apply nth_error_None in E. lia. }
      destruct (HX 5 ltac:(lia)) as [x5 EX5]. destruct (HX 6 ltac:(lia)) as [x6 EX6].
      unfold parse_request. rewrite E5, E9, E13, EX5, EX6. cbn [rbind].
      assert (S5 : exists b, slice buf 5 (N.to_nat (L + 4)) = Some b) by (rewrite slice_some by lia; eauto).
      destruct S5 as [b5 S5]. rewrite S5.
      assert (S13 : slice buf 13 (N.to_nat (L + 4)) = None <-> (L < 9)%N).
      { unfold slice. destruct ((13 <=? N.to_nat (L + 4)) && (N.to_nat (L + 4) <=? length buf)) eqn:EE; split; try discriminate; try lia; auto. }
      destruct (b2n id) as [|p] eqn:EI.
      * split; [discriminate|]. intros [_ H]. injection H as ->. discriminate.
      * assert (ID7 : id = x07 <-> p = 7%positive).
        { split; [intros ->; vm_compute in EI; congruence|]. intros ->. apply b2n_inj. rewrite EI. reflexivity. }
        assert (ID7' : Some id = Some x07 <-> p = 7%positive) by (rewrite <- ID7; split; congruence).
        rewrite ID7'. clear ID7 ID7' EI.
        destruct (slice buf 13 (N.to_nat (L + 4))) eqn:ES13.
        -- split.
           ++ intro HP. repeat (destruct p as [p|p|]; try discriminate).
           ++ intros [H1 H2]. exfalso. destruct S13 as [_ S13]. specialize (S13 ltac:(lia)). discriminate.
        -- assert (L < 9)%N by (apply S13; auto). split.
           ++ intro HP. split; [lia|]. repeat (destruct p as [p|p|]; try discriminate; auto).
           ++ intros [_ ->]. reflexivity.
Qed.

(** *** The receive loop *)
Lemma pending_length : forall cap s, inv cap s -> length (pending s) = rv_len s.
Proof. intros cap s (H1 & H2 & H3). unfold pending. rewrite firstn_length. lia. Qed.

Lemma prefix_split : forall todo q rest, q ++ rest = stream_of todo ->
  exists done todo' p, todo = done ++ todo' /\ q = stream_of done ++ p /\ incomplete p todo' /\
    p ++ rest = stream_of todo'.
Proof.
  induction todo as [|m todo IH]; intros q rest H.
  - apply app_eq_nil in H as [-> ->]. exists [], [], []. repeat split.
  - destruct (Nat.lt_ge_cases (length q) (length (enc m))) as [L|L].
    + exists [], (m :: todo), q. repeat split; auto.
    + cbn [stream_of flat_map] in H. 
      assert (E : q = enc m ++ skipn (length (enc m)) q).
      { rewrite <- (firstn_skipn (length (enc m)) q) at 1. f_equal.
        apply (f_equal (firstn (length (enc m)))) in H. rewrite !firstn_app in H.
        replace (length (enc m) - length q) with 0 in H by lia.
        rewrite Nat.sub_diag, firstn_all in H. cbn [firstn] in H. rewrite !app_nil_r in H. exact H. }
      rewrite E in H. rewrite <- app_assoc in H. apply app_inv_head in H.
      destruct (IH _ _ H) as (done & todo' & p & -> & E2 & I & R).
      exists (m :: done), todo', p. repeat split; auto.
      rewrite E, E2. cbn [stream_of flat_map]. rewrite <- app_assoc. reflexivity.
Qed.

Lemma enc_len_pos : forall m, 4 <= length (enc m).
Proof. intro. unfold enc. rewrite bep3_frame_length. lia. Qed.

Lemma u32_at_enc : forall m rest, wf_msg m -> u32_at (enc m ++ rest) 0 = Val (N.of_nat (length (bep3_payload m))).
Proof. intros m rest [H _]. unfold enc, bep3_frame. rewrite <- app_assoc. apply u32_at_0. auto. Qed.

Lemma u32_at_firstn : forall buf k, 4 <= k -> k <= length buf -> u32_at buf 0 = u32_at (firstn k buf) 0.
Proof.
  intros. unfold u32_at. rewrite !slice_some; rewrite ?firstn_length; try lia.
  cbn [skipn Nat.add]. rewrite firstn_firstn. rewrite Nat.min_l by lia. reflexivity.
Qed.

(** A prefix of an encoded message that is too short stops the loop. *)
Lemma drain_stop : forall cap s m rest fuel, inv cap s -> wf_msg m ->
  pending s ++ rest = enc m ++ rest \/ (exists t, enc m = pending s ++ t) ->
  rv_len s < length (enc m) -> drain (S fuel) s = Val (s, []).
Proof.
  intros cap s m rest fuel Hinv Hwf Hp Hlen. cbn [drain].
  destruct (Nat.ltb_spec (rv_len s) 4) as [L|L]; auto.
  pose proof (pending_length Hinv) as PL. destruct Hinv as (I1 & I2 & I3).
  assert (Hp' : exists t, enc m = pending s ++ t).
  { destruct Hp as [Hp|Hp]; auto. exfalso. apply (f_equal (@length _)) in Hp. rewrite !app_length in Hp. lia. }
  destruct Hp' as [t Ht].
  rewrite I2. cbn [skipn]. rewrite (@u32_at_firstn (rv_buf s) (rv_len s)) by lia. fold (pending s).
  pose proof (u32_at_enc [] Hwf) as U. rewrite app_nil_r in U.
  rewrite (@u32_at_firstn (enc m) (rv_len s)) in U by lia.
  rewrite Ht in U. rewrite firstn_app, <- PL, firstn_all, Nat.sub_diag, app_nil_r in U. rewrite U. cbn [rbind].
  replace (N.of_nat (length (bep3_payload m)) + 4 <=? N.of_nat (rv_len s))%N with false; auto.
  symmetry. apply N.leb_gt. unfold enc in Hlen. rewrite bep3_frame_length in Hlen. lia.
Qed.
Lemma drain_empty : forall cap s fuel, inv cap s -> rv_len s = 0 -> drain (S fuel) s = Val (s, []).
Proof. intros. cbn [drain]. rewrite H0. reflexivity. Qed.

Lemma copy_within_spec : forall buf a b, a <= b -> b <= length buf ->
  length (copy_within_0 buf a b) = length buf /\
  firstn (b - a) (copy_within_0 buf a b) = firstn (b - a) (skipn a buf).
Proof.
  intros. unfold copy_within_0. split.
  - rewrite app_length, !firstn_length, !skipn_length. lia.
  - rewrite firstn_app, firstn_firstn, Nat.min_id, firstn_length, skipn_length.
    replace (b - a - Nat.min (b - a) (length buf - a)) with 0 by lia.
    cbn [firstn]. apply app_nil_r.
Qed.

Lemma stream_of_app : forall a b, stream_of (a ++ b) = stream_of a ++ stream_of b.
Proof. intros. apply flat_map_app. Qed.

Lemma drain_msgs : forall done todo fuel cap s p, inv cap s -> Forall wf_msg done -> Forall wf_msg todo ->
  pending s = stream_of done ++ p -> incomplete p todo -> (exists rest, p ++ rest = stream_of todo) ->
  rv_len s < fuel ->
  exists s', drain fuel s = Val (s', done) /\ inv cap s' /\ pending s' = p.
Proof.
  induction done as [|m done IH]; intros todo fuel cap s p Hinv Hwf Hwt Hp Hinc [rest Hrest] Hfuel.
  - destruct fuel as [|fuel]; [lia|]. exists s. cbn [stream_of flat_map app] in Hp.
    pose proof (pending_length Hinv) as PL. split; [|auto].
    destruct todo as [|m todo].
    + cbn in Hinc. subst p. rewrite Hinc in PL. apply drain_empty with (cap := cap); auto.
    + cbn [incomplete] in Hinc. inversion Hwt as [|? ? Hm Ht]; subst.
      apply drain_stop with (cap := cap) (m := m) (rest := []); auto; [|congruence].
      right. cbn [stream_of flat_map] in Hrest.
      exists (skipn (length (pending s)) (enc m)).
      rewrite <- (firstn_skipn (length (pending s)) (enc m)) at 1. f_equal.
      apply (f_equal (firstn (length (pending s)))) in Hrest. rewrite !firstn_app in Hrest.
      replace (length (pending s) - length (enc m)) with 0 in Hrest by lia.
      rewrite Nat.sub_diag, firstn_all in Hrest. cbn [firstn] in Hrest. rewrite !app_nil_r in Hrest. auto.
  - destruct fuel as [|fuel]; [lia|].
    pose proof (pending_length Hinv) as PL. inversion Hwf as [|? ? Hm Hd]; subst.
    destruct Hinv as (I1 & I2 & I3).
    cbn [stream_of flat_map] in Hp. rewrite <- app_assoc in Hp. fold (stream_of done) in Hp.
    pose proof (enc_len_pos m) as H4.
    assert (Hlen : length (enc m) <= rv_len s) by (rewrite <- PL, Hp, app_length; lia).
    assert (Hbuf : rv_buf s = enc m ++ (stream_of done ++ p) ++ skipn (rv_len s) (rv_buf s)).
    { rewrite <- (firstn_skipn (rv_len s) (rv_buf s)) at 1. fold (pending s). rewrite Hp, <- app_assoc. reflexivity. }
    cbn [drain]. replace (rv_len s <? 4) with false by (symmetry; apply Nat.ltb_ge; lia).
    assert (UB : u32_at (rv_buf s) 0 = Val (N.of_nat (length (bep3_payload m)))) by (rewrite Hbuf; apply u32_at_enc; auto).
    rewrite I2. cbn [skipn]. rewrite UB. cbn [rbind].
    assert (EL : length (enc m) = 4 + length (bep3_payload m)) by apply bep3_frame_length.
    replace (N.of_nat (length (bep3_payload m)) + 4 <=? N.of_nat (rv_len s))%N with true
      by (symmetry; apply N.leb_le; lia).
    assert (FB : from_buf (rv_buf s) = Val (Some m)) by (rewrite Hbuf; apply from_buf_frame; auto).
    rewrite FB. cbn [rbind].
    replace (N.to_nat (N.of_nat (length (bep3_payload m)) + 4)) with (length (enc m)) by lia.
    cbn [Nat.add].
    set (s2 := mk_recv _ 0 (rv_len s - length (enc m))).
    assert (Hs2 : inv cap s2 /\ pending s2 = stream_of done ++ p).
    { unfold s2, inv, pending. cbn [rv_buf rv_start rv_len].
      destruct (Nat.ltb_spec 0 (rv_len s - length (enc m))) as [G|G].
      - destruct (@copy_within_spec (rv_buf s) (length (enc m)) (length (enc m) + (rv_len s - length (enc m)))) as [C1 C2]; try lia.
        split; [split; [lia|split; lia]|].
        replace (rv_len s - length (enc m)) with (length (enc m) + (rv_len s - length (enc m)) - length (enc m)) at 1 by lia.
        rewrite C2. replace (length (enc m) + (rv_len s - length (enc m)) - length (enc m)) with (rv_len s - length (enc m)) by lia.
        rewrite <- skipn_firstn_comm. fold (pending s). rewrite Hp, skipn_app, skipn_all, Nat.sub_diag. reflexivity.
      - split; [split; [lia|split; lia]|].
        replace (rv_len s - length (enc m)) with 0 by lia. cbn [firstn].
        apply (f_equal (@length _)) in Hp. rewrite app_length in Hp.
        destruct (stream_of done ++ p) eqn:EE; auto. cbn [length] in Hp. lia. }
    destruct Hs2 as [Hs2i Hs2p].
    destruct (IH todo fuel cap s2 p Hs2i Hd Hwt Hs2p Hinc) as (s' & D & I & P).
    { eauto. }
    { unfold s2. cbn [rv_len]. lia. }
    exists s'. rewrite D. cbn [rmap fst snd]. auto.
Qed.

Lemma recv_read_spec : forall cap s chunk rest todo, inv cap s -> Forall wf_msg todo ->
  length chunk <= recv_avail s ->
  pending s ++ chunk ++ rest = stream_of todo ->
  exists s' done todo', recv_read s chunk = Val (s', done) /\ inv cap s' /\ todo = done ++ todo' /\
    incomplete (pending s') todo' /\ pending s' ++ rest = stream_of todo'.
Proof.
  intros cap s chunk rest todo Hinv Hwf Hc Hs. pose proof (pending_length Hinv) as PL.
  destruct Hinv as (I1 & I2 & I3). unfold recv_avail in Hc. rewrite I1, I2 in Hc.
  unfold recv_read. rewrite I2. cbn [Nat.add].
  set (s1 := mk_recv _ 0 (rv_len s + length chunk)).
  assert (Hs1 : inv cap s1 /\ pending s1 = pending s ++ chunk).
  { unfold s1, inv, pending. cbn [rv_buf rv_start rv_len]. split.
    - rewrite !app_length, firstn_length, skipn_length. lia.
    - rewrite app_assoc, firstn_app. rewrite firstn_all2 by (rewrite app_length, firstn_length; lia).
      replace (rv_len s + length chunk - length (firstn (rv_len s) (rv_buf s) ++ chunk)) with 0
        by (rewrite app_length, firstn_length; lia).
      cbn [firstn]. apply app_nil_r. }
  destruct Hs1 as [Hi1 Hp1].
  rewrite app_assoc in Hs. destruct (prefix_split _ _ _ Hs) as (done & todo' & p & E & Q & I & R).
  subst todo. apply Forall_app in Hwf as [Hw1 Hw2].
  destruct (@drain_msgs done todo' (S (rv_len s + length chunk)) cap s1 p) as (s' & D & II & P); auto.
  - congruence.
  - eauto.
  - exists s', done, todo'. rewrite D. subst p. auto.
Qed.

Lemma recv_run_spec : forall sizes cap s stream todo, inv cap s -> Forall wf_msg todo ->
  pending s ++ stream = stream_of todo -> incomplete (pending s) todo ->
  exists s' done todo' rest, recv_run s stream sizes = Val (s', done, rest) /\ inv cap s' /\
    todo = done ++ todo' /\ incomplete (pending s') todo' /\ pending s' ++ rest = stream_of todo'.
Proof.
  induction sizes as [|k ks IH]; intros cap s stream todo Hinv Hwf Hs Hinc.
  - exists s, [], todo, stream. cbn. auto.
  - cbn [recv_run]. set (n := Nat.min k (Nat.min (recv_avail s) (length stream))).
    destruct (@recv_read_spec cap s (firstn n stream) (skipn n stream) todo) as (s1 & d1 & t1 & R & I1 & E1 & Inc1 & S1); auto.
    { rewrite firstn_length. lia. }
    { rewrite firstn_skipn. auto. }
    rewrite R. cbn [rbind fst snd].
    subst todo. apply Forall_app in Hwf as [Hw1 Hw2].
    destruct (IH cap s1 (skipn n stream) t1) as (s2 & d2 & t2 & rest & R2 & I2 & E2 & Inc2 & S2); auto.
    rewrite R2. cbn [rmap]. exists s2, (d1 ++ d2), t2, rest. split; auto. subst t1. rewrite app_assoc. auto.
Qed.

Lemma inv_init : inv MAX_MESSAGE_BYTES recv_init.
Proof. unfold inv, recv_init. cbn [rv_buf rv_start rv_len]. rewrite repeat_length. lia. Qed.

Lemma incomplete_init : forall ms, incomplete (pending recv_init) ms.
Proof. 
  intros [|m ms]; change (pending recv_init) with (@nil byte); unfold incomplete; auto.
  pose proof (enc_len_pos m). cbn [length]. lia.
Qed.

Lemma recv_segmentation : forall ms sizes, Forall wf_msg ms ->
  exists s' done todo rest,
    recv_run recv_init (stream_of ms) sizes = Val (s', done, rest) /\
    inv MAX_MESSAGE_BYTES s' /\
    ms = done ++ todo /\ incomplete (pending s') todo /\ pending s' ++ rest = stream_of todo.
Proof.
  intros ms sizes H. destruct (@recv_run_spec sizes MAX_MESSAGE_BYTES recv_init (stream_of ms) ms) as (s' & d & t & r & A & B & C & D & E); auto using inv_init, incomplete_init.
  exists s', d, t, r. auto.
Qed.

Lemma incomplete_done : forall p todo, incomplete p todo -> p = stream_of todo -> todo = [] /\ p = [].
Proof.
  intros p [|m todo] H E; auto. cbn [incomplete stream_of flat_map] in H, E. rewrite E in H. rewrite app_length in H. lia.
Qed.

(** progress: with positive read sizes the rest shrinks *)
Lemma recv_run_progress : forall sizes cap s stream todo, inv cap s -> Forall wf_msg todo ->
  Forall (fun m => length (bep3_frame m) <= cap) todo ->
  pending s ++ stream = stream_of todo -> incomplete (pending s) todo -> Forall (fun k => 1 <= k) sizes ->
  forall s' done rest, recv_run s stream sizes = Val (s', done, rest) ->
  rest = [] \/ length rest + length sizes <= length stream.
Proof.
  induction sizes as [|k ks IH]; intros cap s stream todo Hinv Hwf Hcap Hs Hinc Hk s' done rest R.
  - cbn in R. injection R as <- <- <-. right. cbn. lia.
  - cbn [recv_run] in R. set (n := Nat.min k (Nat.min (recv_avail s) (length stream))) in *.
    destruct (@recv_read_spec cap s (firstn n stream) (skipn n stream) todo) as (s1 & d1 & t1 & R1 & I1 & E1 & Inc1 & S1); auto.
    { rewrite firstn_length. lia. }
    { rewrite firstn_skipn. auto. }
    rewrite R1 in R. cbn [rbind fst snd] in R.
    destruct (recv_run s1 (skipn n stream) ks) as [[[s2 d2] r2]| |] eqn:R2; try discriminate.
    cbn in R. injection R as <- <- <-.
    subst todo. apply Forall_app in Hwf as [Hw1 Hw2]. apply Forall_app in Hcap as [Hc1 Hc2].
    inversion Hk as [|? ? Hk1 Hk2]; subst.
    destruct (IH cap s1 (skipn n stream) t1 I1 Hw2 Hc2 S1 Inc1 Hk2 _ _ _ R2) as [E|E]; auto.
    rewrite skipn_length in E. cbn [length].
    destruct stream as [|b stream].
    { cbn [length] in *. left. destruct r2; auto. cbn [length] in E. lia. }
    assert (1 <= recv_avail s).
    { pose proof (pending_length Hinv) as PL. destruct Hinv as (J1 & J2 & J3). unfold recv_avail. rewrite J1, J2.
      destruct (d1 ++ t1) as [|m todo] eqn:EE.
      - cbn in Hs. destruct (pending s); discriminate.
      - cbn [incomplete] in Hinc. unfold enc in Hinc.
        assert (length (bep3_frame m) <= cap).
        { assert (Hin : In m (d1 ++ t1)) by (rewrite EE; left; auto).
          apply in_app_or in Hin as [Hin|Hin]; [rewrite Forall_forall in Hc1; auto|rewrite Forall_forall in Hc2; auto]. }
        lia. }
    right. cbn [length] in *. lia.
Qed.

(** oversize messages are never delivered *)
Lemma recv_oversize : forall sizes cap s stream m, inv cap s -> wf_msg m ->
  cap < length (bep3_frame m) -> pending s ++ stream = enc m ->
  exists s' rest, recv_run s stream sizes = Val (s', [], rest) /\ inv cap s' /\ pending s' ++ rest = enc m.
Proof.
  induction sizes as [|k ks IH]; intros cap s stream m Hinv Hwf Hcap Hs.
  - exists s, stream. cbn. auto.
  - cbn [recv_run]. set (n := Nat.min k (Nat.min (recv_avail s) (length stream))).
    destruct (@recv_read_spec cap s (firstn n stream) (skipn n stream) [m]) as (s1 & d1 & t1 & R1 & I1 & E1 & Inc1 & S1); auto.
    { rewrite firstn_length. lia. }
    { rewrite firstn_skipn. cbn. rewrite app_nil_r. auto. }
    rewrite R1. cbn [rbind fst snd].
    assert (d1 = [] /\ t1 = [m]) as [-> ->].
    { destruct d1 as [|x d1]; cbn in E1; auto. exfalso. injection E1 as -> E1.
      symmetry in E1. apply app_eq_nil in E1 as [-> ->].
      (* the message cannot have been drained: it does not fit *)
      cbn in Inc1. rewrite Inc1 in S1. cbn in S1.
      apply (f_equal (@length _)) in S1. rewrite skipn_length in S1. cbn in S1.
      apply (f_equal (@length _)) in Hs. rewrite app_length in Hs.
      pose proof (pending_length Hinv) as PL. destruct Hinv as (J1 & J2 & J3).
      unfold recv_avail in n. unfold enc in Hs. lia. }
    cbn in S1. rewrite app_nil_r in S1.
    destruct (IH cap s1 (skipn n stream) x I1 Hwf Hcap S1) as (s' & rest & R2 & I2 & P2) || 
    destruct (IH cap s1 (skipn n stream) m I1 Hwf Hcap S1) as (s' & rest & R2 & I2 & P2).
    rewrite R2. cbn. exists s', rest. auto.
Qed.

(** end of stream *)
Lemma read_nothing : forall cap s todo rest, inv cap s -> Forall wf_msg todo ->
  incomplete (pending s) todo -> pending s ++ rest = stream_of todo ->
  recv_read s [] = Val (s, []).
Proof.
  intros cap s todo rest Hinv Hwf Hinc Hs. unfold recv_read. cbn [app length].
  rewrite !Nat.add_0_r, firstn_skipn. pose proof Hinv as (I1 & I2 & I3).
  replace (mk_recv (rv_buf s) (rv_start s) (rv_len s)) with s by (destruct s; reflexivity).
  pose proof (pending_length Hinv) as PL.
  destruct todo as [|m todo].
  - cbn in Hinc. rewrite Hinc in PL. apply drain_empty with (cap := cap); auto.
  - cbn [incomplete] in Hinc. inversion Hwf; subst. eapply drain_stop with (m := m) (rest := []); eauto; [|lia].
    right. cbn [stream_of flat_map] in Hs. exists (skipn (length (pending s)) (enc m)).
    rewrite <- (firstn_skipn (length (pending s)) (enc m)) at 1. f_equal.
    apply (f_equal (firstn (length (pending s)))) in Hs. rewrite !firstn_app in Hs.
    replace (length (pending s) - length (enc m)) with 0 in Hs by lia.
    rewrite Nat.sub_diag, firstn_all in Hs. cbn [firstn] in Hs. rewrite !app_nil_r in Hs. auto.
Qed.
Lemma eof_spins : forall cap s todo rest, inv cap s -> Forall wf_msg todo ->
  incomplete (pending s) todo -> pending s ++ rest = stream_of todo ->
  forall n, recv_steps (Running s) (repeat (ReadOk []) n) = Val (Running s, []).
Proof.
  intros cap s todo rest Hinv Hwf Hinc Hs n. induction n; auto.
  cbn [repeat recv_steps recv_step]. erewrite read_nothing by eauto. cbn [rmap rbind fst snd].
  rewrite IHn. reflexivity.
Qed.

(** *** unknown messages *)
Lemma from_buf_unknown : forall id body rest, unknown_ok id body ->
  from_buf (unknown_frame id body ++ rest) = Val None.
Proof.
  intros id body rest [Hid HL]. unfold from_buf, unknown_frame. rewrite <- app_assoc.
  rewrite u32_at_0 by auto. cbn [rbind].
  destruct (_ <? _)%N; auto.
  replace (N.of_nat (S (length body)) + 4 =? 4)%N with false by lia.
  rewrite nth_error_app2 by (rewrite be_bytes_length; lia). rewrite be_bytes_length.
  cbn [Nat.sub nth_error app]. destruct (b2n id) as [|p]; [lia|].
  do 4 (destruct p as [p|p|]; auto; try lia).
Qed.
Lemma drain_msgs_unknown : forall done fuel cap s id body, inv cap s -> Forall wf_msg done -> unknown_ok id body ->
  pending s = stream_of done ++ unknown_frame id body -> rv_len s < fuel ->
  exists s', drain fuel s = Val (s', done) /\ inv cap s' /\ pending s' = [].
Proof.
  induction done as [|m done IH]; intros fuel cap s id body Hinv Hwf Hu Hp Hfuel.
  - destruct fuel as [|fuel]; [lia|]. cbn [stream_of flat_map app] in Hp.
    pose proof (pending_length Hinv) as PL. destruct Hinv as (I1 & I2 & I3).
    assert (Hbuf : rv_buf s = unknown_frame id body ++ skipn (rv_len s) (rv_buf s)).
    { rewrite <- (firstn_skipn (rv_len s) (rv_buf s)) at 1. fold (pending s). rewrite Hp. reflexivity. }
    assert (EL : rv_len s = 5 + length body).
    { rewrite <- PL, Hp. unfold unknown_frame. rewrite app_length, be_bytes_length. reflexivity. }
    cbn [drain]. replace (rv_len s <? 4) with false by (symmetry; apply Nat.ltb_ge; lia).
    assert (UB : u32_at (rv_buf s) 0 = Val (N.of_nat (S (length body)))).
    { rewrite Hbuf. unfold unknown_frame. rewrite <- app_assoc. apply u32_at_0. apply Hu. }
    rewrite I2. cbn [skipn]. rewrite UB. cbn [rbind].
    replace (N.of_nat (S (length body)) + 4 <=? N.of_nat (rv_len s))%N with true by (symmetry; apply N.leb_le; lia).
    assert (FB : from_buf (rv_buf s) = Val None) by (rewrite Hbuf; apply from_buf_unknown; auto).
    rewrite FB. cbn [rbind]. eexists. split; [reflexivity|]. split; [|reflexivity].
    unfold inv. cbn. lia.
  - destruct fuel as [|fuel]; [lia|].
    pose proof (pending_length Hinv) as PL. inversion Hwf as [|? ? Hm Hd]; subst.
    destruct Hinv as (I1 & I2 & I3).
    cbn [stream_of flat_map] in Hp. rewrite <- app_assoc in Hp. fold (stream_of done) in Hp.
    pose proof (enc_len_pos m) as H4.
    set (p := unknown_frame id body) in *.
    assert (Hlen : length (enc m) <= rv_len s) by (rewrite <- PL, Hp, app_length; lia).
    assert (Hbuf : rv_buf s = enc m ++ (stream_of done ++ p) ++ skipn (rv_len s) (rv_buf s)).
    { rewrite <- (firstn_skipn (rv_len s) (rv_buf s)) at 1. fold (pending s). rewrite Hp, <- app_assoc. reflexivity. }
    cbn [drain]. replace (rv_len s <? 4) with false by (symmetry; apply Nat.ltb_ge; lia).
    assert (UB : u32_at (rv_buf s) 0 = Val (N.of_nat (length (bep3_payload m)))) by (rewrite Hbuf; apply u32_at_enc; auto).
    rewrite I2. cbn [skipn]. rewrite UB. cbn [rbind].
    assert (EL : length (enc m) = 4 + length (bep3_payload m)) by apply bep3_frame_length.
    replace (N.of_nat (length (bep3_payload m)) + 4 <=? N.of_nat (rv_len s))%N with true
      by (symmetry; apply N.leb_le; lia).
    assert (FB : from_buf (rv_buf s) = Val (Some m)) by (rewrite Hbuf; apply from_buf_frame; auto).
    rewrite FB. cbn [rbind].
    replace (N.to_nat (N.of_nat (length (bep3_payload m)) + 4)) with (length (enc m)) by lia.
    cbn [Nat.add].
    set (s2 := mk_recv _ 0 (rv_len s - length (enc m))).
    assert (Hs2 : inv cap s2 /\ pending s2 = stream_of done ++ p).
    { unfold s2, inv, pending. cbn [rv_buf rv_start rv_len].
      destruct (Nat.ltb_spec 0 (rv_len s - length (enc m))) as [G|G].
      - destruct (@copy_within_spec (rv_buf s) (length (enc m)) (length (enc m) + (rv_len s - length (enc m)))) as [C1 C2]; try lia.
        split; [split; [lia|split; lia]|].
        replace (rv_len s - length (enc m)) with (length (enc m) + (rv_len s - length (enc m)) - length (enc m)) at 1 by lia.
        rewrite C2. replace (length (enc m) + (rv_len s - length (enc m)) - length (enc m)) with (rv_len s - length (enc m)) by lia.
        rewrite <- skipn_firstn_comm. fold (pending s). rewrite Hp, skipn_app, skipn_all, Nat.sub_diag. reflexivity.
      - split; [split; [lia|split; lia]|].
        replace (rv_len s - length (enc m)) with 0 by lia. cbn [firstn].
        apply (f_equal (@length _)) in Hp. rewrite app_length in Hp.
        destruct (stream_of done ++ p) eqn:EE; auto. cbn [length] in Hp. lia. }
    destruct Hs2 as [Hs2i Hs2p].
    destruct (IH fuel cap s2 id body Hs2i Hd Hu Hs2p) as (s' & D & I & P).
    { unfold s2. cbn [rv_len]. lia. }
    exists s'. rewrite D. cbn [rmap fst snd]. auto.
Qed.
Lemma recv_read_unknown : forall cap s chunk done id body, inv cap s -> Forall wf_msg done -> unknown_ok id body ->
  length chunk <= recv_avail s -> pending s ++ chunk = stream_of done ++ unknown_frame id body ->
  exists s', recv_read s chunk = Val (s', done) /\ inv cap s' /\ pending s' = [].
Proof.
  intros cap s chunk done id body Hinv Hwf Hu Hc Hs. pose proof (pending_length Hinv) as PL.
  destruct Hinv as (I1 & I2 & I3). unfold recv_avail in Hc. rewrite I1, I2 in Hc.
  unfold recv_read. rewrite I2. cbn [Nat.add].
  set (s1 := mk_recv _ 0 (rv_len s + length chunk)).
  assert (Hs1 : inv cap s1 /\ pending s1 = pending s ++ chunk).
  { unfold s1, inv, pending. cbn [rv_buf rv_start rv_len]. split.
    - rewrite !app_length, firstn_length, skipn_length. lia.
    - rewrite app_assoc, firstn_app. rewrite firstn_all2 by (rewrite app_length, firstn_length; lia).
      replace (rv_len s + length chunk - length (firstn (rv_len s) (rv_buf s) ++ chunk)) with 0
        by (rewrite app_length, firstn_length; lia).
      cbn [firstn]. apply app_nil_r. }
  destruct Hs1 as [Hi1 Hp1]. rewrite Hs in Hp1.
  destruct (@drain_msgs_unknown done (S (rv_len s + length chunk)) cap s1 id body) as (s' & D & II & P); auto.
  exists s'. auto.
Qed.

(** *** handshake *)
Lemma check_validity_iff : forall buf, check_validity buf = Val tt <->
  length buf = 68 /\ firstn 20 buf = x13 :: PSTR.
Proof.
  intro buf. unfold check_validity. change HANDSHAKE_LENGTH with 68.
  destruct (Nat.eqb_spec (length buf) 68) as [E|E]; cbn [negb].
  2:{ split; [discriminate|]. intros [H _]. congruence. }
  destruct buf as [|b t]; [discriminate|]. cbn [nth_error].
  rewrite slice_some by (cbn [length] in *; lia). change (skipn 1 (b :: t)) with t. change (20 - 1) with 19.
  change (firstn 20 (b :: t)) with (b :: firstn 19 t).
  generalize (firstn 19 t). intro w.
  destruct (N.eqb_spec (b2n b) PSTRLEN) as [H1|H1]; cbn [negb orb].
  - assert (b = x13) as -> by (apply b2n_inj; rewrite H1; reflexivity).
    destruct (bytes_eqb w PSTR) eqn:H2; cbn [negb].
    + apply bytes_eqb_eq in H2. split; auto. intros _. split; auto. rewrite H2. reflexivity.
    + split; [discriminate|]. intros [_ H]. injection H as H. rewrite H, bytes_eqb_refl in H2. discriminate.
  - split; [discriminate|]. intros [_ H]. injection H as -> _. contradiction.
Qed.
Lemma check_validity_total : forall buf, check_validity buf = Val tt \/ check_validity buf = Fail.
Proof.
  intro buf. unfold check_validity. change HANDSHAKE_LENGTH with 68.
  destruct (Nat.eqb_spec (length buf) 68) as [E|E]; cbn [negb]; auto.
  destruct buf as [|b t]; [discriminate|]. cbn [nth_error].
  rewrite slice_some by (cbn [length] in *; lia). destruct (_ || _); auto.
Qed.
