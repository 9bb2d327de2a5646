(** C16 and C60 continued: what the receive loop makes of messages that do not
    fit its buffer and of messages it does not know, in whole runs. *)
From Coq Require Import List NArith ZArith Lia Bool Arith.
From Coq Require Import Init.Byte.
From Verif Require Import Base IdModel WireModel WireSpec WireProofs WireProps.
Import ListNotations.
Set Implicit Arguments.

Definition after (d : list message) (r : res (recv * list message)) : res (recv * list message) := rmap (fun q => (fst q, d ++ snd q)) r.
Lemma after_nil : forall r, after [] r = r.
Proof. intros [[s d]| |]; reflexivity. Qed.
(** The loop handles the complete messages and goes on with the rest. *)
Lemma drain_prefix : forall done fuel cap s p, inv cap s -> Forall wf_msg done -> pending s = stream_of done ++ p -> rv_len s < fuel ->
  exists s2 fuel2, inv cap s2 /\ pending s2 = p /\ rv_len s2 < fuel2 /\ drain fuel s = after done (drain fuel2 s2).
Proof.
  induction done as [|m done IH]; intros fuel cap s p Hinv Hwf Hp Hfuel.
  - exists s, fuel. rewrite after_nil. auto.
  - destruct fuel as [|fuel]; [lia|].
    pose proof (pending_length Hinv) as PL. inversion Hwf as [|? ? Hm Hd]; subst.
    destruct Hinv as (I1 & I2 & I3).
    cbn [stream_of flat_map] in Hp. rewrite <- app_assoc in Hp. fold (stream_of done) in Hp.
    pose proof (enc_len_pos m) as H4.
    assert (Hlen : length (enc m) <= rv_len s) by (rewrite <- PL, Hp, app_length; lia).
    assert (Hbuf : rv_buf s = enc m ++ (stream_of done ++ p) ++ skipn (rv_len s) (rv_buf s)).
    { rewrite <- (firstn_skipn (rv_len s) (rv_buf s)) at 1. fold (pending s). rewrite Hp, <- app_assoc. reflexivity. }
    cbn [drain]. replace (rv_len s <? 4) with false by (symmetry; apply Nat.ltb_ge; lia).
    assert (UB : u32_at (rv_buf s) 0 = Val (N.of_nat (length (bep3_payload m)))) by (rewrite Hbuf; apply u32_at_enc; auto).
    rewrite I2. cbn [skipn]. rewrite UB. cbn [rbind].
    assert (EL : length (enc m) = 4 + length (bep3_payload m)) by apply bep3_frame_length.
    replace (N.of_nat (length (bep3_payload m)) + 4 <=? N.of_nat (rv_len s))%N with true
      by (symmetry; apply N.leb_le; lia).
    assert (FB : from_buf (rv_buf s) = Val (Some m)) by (rewrite Hbuf; apply from_buf_frame; auto).
    rewrite FB. cbn [rbind].
    replace (N.to_nat (N.of_nat (length (bep3_payload m)) + 4)) with (length (enc m)) by lia.
    cbn [Nat.add].
    set (s2 := mk_recv _ 0 (rv_len s - length (enc m))).
    assert (Hs2 : inv cap s2 /\ pending s2 = stream_of done ++ p).
    { unfold s2, inv, pending. cbn [rv_buf rv_start rv_len].
      destruct (Nat.ltb_spec 0 (rv_len s - length (enc m))) as [G|G].
      - destruct (@copy_within_spec (rv_buf s) (length (enc m)) (length (enc m) + (rv_len s - length (enc m)))) as [C1 C2]; try lia.
        split; [split; [lia|split; lia]|].
        replace (rv_len s - length (enc m)) with (length (enc m) + (rv_len s - length (enc m)) - length (enc m)) at 1 by lia.
        rewrite C2. replace (length (enc m) + (rv_len s - length (enc m)) - length (enc m)) with (rv_len s - length (enc m)) by lia.
        rewrite <- skipn_firstn_comm. fold (pending s). rewrite Hp, skipn_app, skipn_all, Nat.sub_diag. reflexivity.
      - split; [split; [lia|split; lia]|].
        replace (rv_len s - length (enc m)) with 0 by lia. cbn [firstn].
        apply (f_equal (@length _)) in Hp. rewrite app_length in Hp.
        destruct (stream_of done ++ p) eqn:EE; auto. cbn [length] in Hp. lia. }
    destruct Hs2 as [Hs2i Hs2p].
    destruct (IH fuel cap s2 p Hs2i Hd Hs2p) as (s3 & f3 & J1 & J2 & J3 & J4).
    { unfold s2. cbn [rv_len]. lia. }
    exists s3, f3. split; auto. split; auto. split; auto. rewrite J4. unfold after. destruct (drain f3 s3) as [[s4 d4]| |]; reflexivity.
Qed.
Lemma recv_read_after : forall cap s chunk, inv cap s -> length chunk <= recv_avail s ->
  exists s1, inv cap s1 /\ pending s1 = pending s ++ chunk /\ rv_len s1 = rv_len s + length chunk /\ recv_read s chunk = drain (S (rv_len s1)) s1.
Proof.
  intros cap s chunk Hinv Hc. pose proof (pending_length Hinv) as PL.
  destruct Hinv as (I1 & I2 & I3). unfold recv_avail in Hc. rewrite I1, I2 in Hc.
  unfold recv_read. rewrite I2. cbn [Nat.add].
  set (s1 := mk_recv _ 0 (rv_len s + length chunk)). exists s1.
  assert (Hs1 : inv cap s1 /\ pending s1 = pending s ++ chunk).
  { unfold s1, inv, pending. cbn [rv_buf rv_start rv_len]. split.
    - rewrite !app_length, firstn_length, skipn_length. lia.
    - rewrite app_assoc, firstn_app. rewrite firstn_all2 by (rewrite app_length, firstn_length; lia).
      replace (rv_len s + length chunk - length (firstn (rv_len s) (rv_buf s) ++ chunk)) with 0
        by (rewrite app_length, firstn_length; lia).
      cbn [firstn]. apply app_nil_r. }
  destruct Hs1. auto.
Qed.
Lemma app_cut : forall A (a b c d : list A), a ++ b = c ++ d -> (exists x, a = c ++ x /\ d = x ++ b) \/ (exists x, x <> [] /\ c = a ++ x /\ b = x ++ d).
Proof.
  induction a as [|x a IH]; intros b c d H.
  - cbn in H. destruct c as [|y c]; [left; exists []; cbn in *; auto|]. right. exists (y :: c). split; [discriminate|]. auto.
  - destruct c as [|y c]; [left; exists (x :: a); cbn in *; auto|]. cbn in H. injection H as -> H.
    destruct (IH _ _ _ H) as [(z & -> & E)|(z & N & -> & E)]; [left|right]; exists z; auto.
Qed.

(** ** C16 *)
Lemma oversize_run : forall sizes cap s stream ms1 m ms2, inv cap s -> Forall wf_msg (ms1 ++ m :: ms2) ->
  cap < length (bep3_frame m) -> pending s ++ stream = stream_of (ms1 ++ m :: ms2) ->
  exists s' d t rest, recv_run s stream sizes = Val (s', d, rest) /\ ms1 = d ++ t /\ inv cap s' /\ pending s' ++ rest = stream_of (t ++ m :: ms2).
Proof.
  induction sizes as [|k ks IH]; intros cap s stream ms1 m ms2 Hinv Hwf Hcap Hs.
  - exists s, [], ms1, stream. cbn. auto.
  - cbn [recv_run]. set (n := Nat.min k (Nat.min (recv_avail s) (length stream))).
    assert (LN : length (firstn n stream) <= recv_avail s) by (rewrite firstn_length; lia).
    destruct (@recv_read_spec cap s (firstn n stream) (skipn n stream) (ms1 ++ m :: ms2)) as (s1 & d1 & t1 & R1 & I1 & E1 & Inc1 & S1); auto.
    { rewrite firstn_skipn. auto. }
    rewrite R1. cbn [rbind fst snd].
    assert (exists t, ms1 = d1 ++ t /\ t1 = t ++ m :: ms2) as (t & -> & ->).
    { pose proof E1 as E0. symmetry in E1. apply app_cut in E1 as [(x & E1 & E2)|(x & _ & E1 & E2)]; [|eauto].
      destruct x as [|y x]; [exists []; rewrite app_nil_r in *; cbn in E2; auto|]. exfalso. cbn in E2. injection E2 as <- E2.
      assert (LL : length (pending s ++ firstn n stream) = length (stream_of d1) + length (pending s1)).
      { pose proof Hs as LH. rewrite E0, <- (firstn_skipn n stream), app_assoc in LH. apply (f_equal (@length _)) in LH.
        rewrite stream_of_app, <- S1, !app_length in LH. rewrite app_length. lia. }
      rewrite app_length, (pending_length Hinv), E1, stream_of_app, app_length in LL. cbn [stream_of flat_map] in LL. rewrite app_length in LL.
      destruct Hinv as (J1 & J2 & J3). unfold recv_avail in LN. rewrite J1, J2 in LN. unfold enc in LL. lia. }
    rewrite <- app_assoc in Hwf. apply Forall_app in Hwf as [_ Hwf].
    destruct (IH cap s1 (skipn n stream) t m ms2 I1 Hwf Hcap S1) as (s' & d & t' & rest & R2 & -> & I2 & P2).
    rewrite R2. cbn. exists s', (d1 ++ d), t', rest. rewrite app_assoc. auto.
Qed.
(** The room for one message: a block and 128 bytes. *)
Theorem C16_room : N.of_nat MAX_MESSAGE_BYTES = (16 * 1024 + 128)%N.
Proof. vm_compute. reflexivity. Qed.
(** A message that does not fit the buffer ends reception: whatever the reads,
    it and all that follow are never delivered, and part of it is never read. *)
Theorem C16_too_large_always : forall ms1 m ms2 sizes, Forall wf_msg (ms1 ++ m :: ms2) -> MAX_MESSAGE_BYTES < length (bep3_frame m) ->
  exists s d t rest, recv_run recv_init (stream_of (ms1 ++ m :: ms2)) sizes = Val (s, d, rest) /\ ms1 = d ++ t /\
    length (stream_of ms2) < length rest.
Proof.
  intros ms1 m ms2 sizes W L. destruct (@oversize_run sizes MAX_MESSAGE_BYTES recv_init (stream_of (ms1 ++ m :: ms2)) ms1 m ms2 inv_init W L eq_refl)
    as (s & d & t & rest & R & E & I & P).
  exists s, d, t, rest. split; auto. split; auto.
  apply (f_equal (@length _)) in P. rewrite app_length, (pending_length I), stream_of_app, app_length in P.
  cbn [stream_of flat_map] in P. rewrite app_length in P. destruct I as (_ & _ & I). change enc with bep3_frame in *. unfold stream_of. change enc with bep3_frame. lia.
Qed.

(** ** C60 *)
(** Prefixes of an unknown message are kept, a whole one empties the buffer. *)
Lemma unknown_length : forall id body, length (unknown_frame id body) = 5 + length body.
Proof. intros. unfold unknown_frame. rewrite app_length, be_bytes_length. reflexivity. Qed.
Lemma drain_part : forall cap s x y id body fuel, inv cap s -> unknown_ok id body -> pending s = x -> y <> [] -> unknown_frame id body = x ++ y ->
  drain (S fuel) s = Val (s, []).
Proof.
  intros cap s x y id body fuel Hinv Hu Hp NE HU. cbn [drain]. pose proof (pending_length Hinv) as PL. destruct Hinv as (I1 & I2 & I3).
  destruct (Nat.ltb_spec (rv_len s) 4) as [L|L]; auto.
  rewrite I2. cbn [skipn]. rewrite (@u32_at_firstn (rv_buf s) (rv_len s)) by lia. fold (pending s). rewrite Hp.
  assert (LX : length x = rv_len s) by congruence.
  assert (U : u32_at x 0 = Val (N.of_nat (S (length body)))).
  { rewrite <- (firstn_all x), LX. assert (X : firstn (rv_len s) x = firstn (rv_len s) (unknown_frame id body)).
    { rewrite HU, firstn_app, LX, Nat.sub_diag, app_nil_r. reflexivity. }
    rewrite X, <- u32_at_firstn; [|lia|rewrite HU, app_length; lia]. unfold unknown_frame. apply u32_at_0. apply Hu. }
  rewrite U. cbn [rbind]. replace (_ <=? _)%N with false; auto. symmetry. apply N.leb_gt.
  apply (f_equal (@length _)) in HU. rewrite app_length, unknown_length in HU. destruct y; [congruence|]. cbn in HU. lia.
Qed.
Lemma drain_cut : forall cap s id body junk fuel, inv cap s -> unknown_ok id body -> pending s = unknown_frame id body ++ junk ->
  exists s', drain (S fuel) s = Val (s', []) /\ inv cap s' /\ rv_len s' = 0.
Proof.
  intros cap s id body junk fuel Hinv Hu Hp. cbn [drain]. pose proof (pending_length Hinv) as PL. destruct Hinv as (I1 & I2 & I3).
  assert (Hbuf : rv_buf s = unknown_frame id body ++ junk ++ skipn (rv_len s) (rv_buf s)).
  { rewrite <- (firstn_skipn (rv_len s) (rv_buf s)) at 1. fold (pending s). rewrite Hp, <- app_assoc. reflexivity. }
  assert (EL : 5 + length body <= rv_len s) by (rewrite <- PL, Hp, app_length, unknown_length; lia).
  replace (rv_len s <? 4) with false by (symmetry; apply Nat.ltb_ge; lia).
  assert (UB : u32_at (rv_buf s) 0 = Val (N.of_nat (S (length body)))).
  { rewrite Hbuf. unfold unknown_frame. rewrite <- app_assoc. apply u32_at_0. apply Hu. }
  rewrite I2. cbn [skipn]. rewrite UB. cbn [rbind].
  replace (N.of_nat (S (length body)) + 4 <=? N.of_nat (rv_len s))%N with true by (symmetry; apply N.leb_le; lia).
  assert (FB : from_buf (rv_buf s) = Val None) by (rewrite Hbuf; apply from_buf_unknown; auto).
  rewrite FB. cbn [rbind]. eexists. split; [reflexivity|]. split; [|reflexivity]. unfold inv. cbn. lia.
Qed.
(** Splitting what has arrived into whole messages, and what comes then. *)
Lemma arrived : forall ms U tail q rest, q ++ rest = stream_of ms ++ U ++ tail ->
  (exists d t p, ms = d ++ t /\ q = stream_of d ++ p /\ p ++ rest = stream_of t ++ U ++ tail /\
     match t with [] => exists y, y <> [] /\ U = p ++ y | m :: _ => length p < length (enc m) end) \/
  (exists junk, q = stream_of ms ++ U ++ junk /\ tail = junk ++ rest).
Proof.
  induction ms as [|m ms IH]; intros U tail q rest H.
  - cbn [stream_of flat_map app] in H. apply app_cut in H as [(x & -> & ->)|(x & NE & -> & E)].
    + right. exists x. auto.
    + left. exists [], [], q. cbn. rewrite E, <- app_assoc. split; auto. split; auto. split; auto. exists x. auto.
  - cbn [stream_of flat_map] in H. rewrite <- app_assoc in H. fold (stream_of ms) in H. apply app_cut in H as [(x & -> & E)|(x & NE & E & ->)].
    + symmetry in E. apply IH in E as [(d & t & p & -> & -> & E & M)|(junk & -> & ->)].
      * left. exists (m :: d), t, p. cbn [stream_of flat_map app]. rewrite <- app_assoc. auto.
      * right. exists junk. cbn [stream_of flat_map]. rewrite <- app_assoc. auto.
    + left. exists [], (m :: ms), q. cbn [stream_of flat_map app]. rewrite E, <- !app_assoc. split; auto. split; auto. split; auto.
      rewrite app_length. destruct x; [congruence|]. cbn. lia.
Qed.
Lemma drain_none : forall cap s fuel m rest0 p rest, inv cap s -> wf_msg m -> pending s = p -> length p < length (enc m) -> p ++ rest = enc m ++ rest0 ->
  drain (S fuel) s = Val (s, []).
Proof.
  intros cap s fuel m rest0 p rest I W P L E. apply drain_stop with (cap := cap) (m := m) (rest := []); auto.
  - right. apply app_cut in E as [(x & -> & _)|(x & _ & E & _)]; [rewrite app_length in L; lia|]. exists x. rewrite P. exact E.
  - rewrite <- (pending_length I), P. exact L.
Qed.
Lemma unknown_run : forall sizes cap s stream ms id body tail, inv cap s -> Forall wf_msg ms -> unknown_ok id body ->
  pending s ++ stream = stream_of ms ++ unknown_frame id body ++ tail -> length tail < length stream ->
  (exists s' d t rest, recv_run s stream sizes = Val (s', d, rest) /\ ms = d ++ t /\ length tail < length rest) \/
  (exists sz1 sz2 s' junk rest, sizes = sz1 ++ sz2 /\ tail = junk ++ rest /\ rv_len s' = 0 /\ inv cap s' /\
     recv_run s stream sz1 = Val (s', ms, rest) /\
     recv_run s stream sizes = rmap (fun q => (fst (fst q), ms ++ snd (fst q), snd q)) (recv_run s' rest sz2)).
Proof.
  induction sizes as [|k ks IH]; intros cap s stream ms id body tail Hinv Hwf Hu Hs Hl.
  - left. exists s, [], ms, stream. cbn. auto.
  - cbn [recv_run]. set (n := Nat.min k (Nat.min (recv_avail s) (length stream))).
    assert (LN : length (firstn n stream) <= recv_avail s) by (rewrite firstn_length; lia).
    destruct (@recv_read_after cap s (firstn n stream) Hinv LN) as (s1 & I1 & P1 & L1 & R1).
    rewrite R1. rewrite <- (firstn_skipn n stream), app_assoc, <- P1 in Hs.
    destruct (@arrived _ _ _ _ _ Hs) as [(d & t & p & -> & Q & E & M)|(junk & Q & ->)].
    + apply Forall_app in Hwf as [W1 W2].
      destruct (@drain_prefix d (S (rv_len s1)) cap s1 p I1 W1 Q ltac:(lia)) as (s2 & f2 & I2 & P2 & F2 & D2).
      assert (ST : drain f2 s2 = Val (s2, [])).
      { destruct f2 as [|f2]; [lia|]. destruct t as [|m t].
        - destruct M as (y & NE & EU). eapply drain_part; eauto.
        - inversion W2; subst. cbn [stream_of flat_map] in E. rewrite <- app_assoc in E. eapply drain_none; eauto. }
      rewrite D2, ST. cbn [after rmap rbind fst snd]. rewrite app_nil_r.
      assert (LS : length tail < length (skipn n stream)).
      { pose proof (f_equal (@length _) E) as LE. rewrite !app_length in LE. destruct t as [|m t].
        - destruct M as (y & NE & EU). rewrite EU, app_length in LE. cbn in LE. destruct y; [congruence|]. cbn in LE. lia.
        - cbn [stream_of flat_map] in LE. rewrite app_length in LE. pose proof (unknown_length id body). lia. }
      rewrite <- P2 in E.
      destruct (IH cap s2 (skipn n stream) t id body tail I2 W2 Hu E LS) as [(s' & d' & t' & rest & R & -> & LR)|(sz1 & sz2 & s' & junk & rest & -> & ET & Z & I' & RA & RB)].
      * left. rewrite R. cbn. exists s', (d ++ d'), t', rest. rewrite app_assoc. auto.
      * right. exists (k :: sz1), sz2, s', junk, rest. split; auto. split; auto. split; auto. split; auto.
        cbn [recv_run]. fold n. rewrite R1, D2, ST. cbn [after rmap rbind fst snd]. rewrite app_nil_r, RA, RB. cbn. split; auto.
        destruct (recv_run s' rest sz2) as [[[s3 d3] r3]| |]; cbn; rewrite ?app_assoc; reflexivity.
    + destruct (@drain_prefix ms (S (rv_len s1)) cap s1 (unknown_frame id body ++ junk) I1 Hwf Q ltac:(lia)) as (s2 & f2 & I2 & P2 & F2 & D2).
      destruct f2 as [|f2]; [lia|]. destruct (@drain_cut cap s2 id body junk f2 I2 Hu P2) as (s3 & D3 & I3 & Z).
      right. exists [k], ks, s3, junk, (skipn n stream). split; auto. split; auto. split; auto. split; auto.
      cbn [recv_run]. fold n. rewrite R1, D2, D3. cbn. rewrite ?app_nil_r. split; auto.
      destruct (recv_run s3 (skipn n stream) ks) as [[[s4 d4] r4]| |]; cbn; rewrite ?app_nil_r; reflexivity.
Qed.
(** Whatever the reads: the messages before an unknown one are delivered in
    order; once the unknown one has arrived everything that came with it in the
    same read ([junk]) is lost, and the loop goes on with the rest as if it had
    just begun. *)
Theorem C60_rest_lost_always : forall ms id body tail sizes, Forall wf_msg ms -> unknown_ok id body ->
  let stream := stream_of ms ++ unknown_frame id body ++ tail in
  (exists s d t rest, recv_run recv_init stream sizes = Val (s, d, rest) /\ ms = d ++ t /\ length tail < length rest) \/
  (exists sz1 sz2 s junk rest, sizes = sz1 ++ sz2 /\ tail = junk ++ rest /\ rv_len s = 0 /\
     recv_run recv_init stream sz1 = Val (s, ms, rest) /\
     recv_run recv_init stream sizes = rmap (fun q => (fst (fst q), ms ++ snd (fst q), snd q)) (recv_run s rest sz2)).
Proof.
  intros ms id body tail sizes W U stream. destruct (@unknown_run sizes MAX_MESSAGE_BYTES recv_init stream ms id body tail) as [A|(sz1 & sz2 & s & junk & rest & A & B & C & _ & D)]; auto using inv_init.
  - unfold stream. rewrite !app_length, unknown_length. lia.
  - right. exists sz1, sz2, s, junk, rest. auto.
Qed.
(** One read that brings all of it: the messages after it are gone. *)
Theorem C60_one_read_always : forall ms id body tail k, Forall wf_msg ms -> unknown_ok id body ->
  length (stream_of ms ++ unknown_frame id body ++ tail) <= Nat.min k MAX_MESSAGE_BYTES ->
  exists s, recv_run recv_init (stream_of ms ++ unknown_frame id body ++ tail) [k] = Val (s, ms, []) /\ rv_len s = 0.
Proof.
  intros ms id body tail k W U L. cbn [recv_run]. set (stream := stream_of ms ++ _) in *.
  assert (A : recv_avail recv_init = MAX_MESSAGE_BYTES) by (unfold recv_avail, recv_init; cbn [rv_buf rv_start rv_len]; rewrite repeat_length; lia).
  rewrite A. replace (Nat.min k (Nat.min MAX_MESSAGE_BYTES (length stream))) with (length stream) by lia.
  rewrite firstn_all, skipn_all.
  destruct (@recv_read_after MAX_MESSAGE_BYTES recv_init stream inv_init ltac:(lia)) as (s1 & I1 & P1 & L1 & R1). rewrite R1.
  assert (Q : pending s1 = stream_of ms ++ unknown_frame id body ++ tail) by (rewrite P1; reflexivity).
  destruct (@drain_prefix ms (S (rv_len s1)) _ s1 (unknown_frame id body ++ tail) I1 W Q ltac:(lia)) as (s2 & f2 & I2 & P2 & F2 & D2).
  destruct f2 as [|f2]; [lia|]. destruct (@drain_cut _ s2 id body tail f2 I2 U P2) as (s3 & D3 & I3 & Z).
  rewrite D2, D3. cbn. exists s3. rewrite !app_nil_r. auto.
Qed.

(** ** cases *)
Example C16_too_large_example : exists m, Forall wf_msg ([Have 1] ++ m :: [Unchoke]) /\ MAX_MESSAGE_BYTES < length (bep3_frame m).
Proof.
  exists (Bitfield (repeat xff (MAX_MESSAGE_BYTES - 4))). split.
  - constructor; [vm_compute; auto|]. constructor; [|constructor; [vm_compute; auto|constructor]].
    split; [|exact I]. unfold u32_ok. cbn [bep3_payload length]. rewrite repeat_length.
    replace MAX_MESSAGE_BYTES with (Z.to_nat 16512) by (vm_compute; reflexivity). change (2 ^ 32)%N with 4294967296%N. lia.
  - rewrite bep3_frame_length. cbn [bep3_payload length]. rewrite repeat_length. lia.
Qed.
(** A have, an unknown message and an unchoke: read at once the unchoke is
    lost, read apart it is not. *)
Example C60_rest_lost_example : Forall wf_msg [Have 7] /\ unknown_ok x14 [x00] /\
  let stream := stream_of [Have 7] ++ unknown_frame x14 [x00] ++ bep3_frame Unchoke in
  outcome (recv_run recv_init stream [100; 100]) = Some ([Have 7], []) /\
  outcome (recv_run recv_init stream [3; 12; 100]) = Some ([Have 7; Unchoke], []) /\
  outcome (recv_run recv_init stream [14]) = Some ([Have 7], skipn 14 stream).
Proof. split; [repeat constructor; vm_compute; auto|]. split; [vm_compute; auto|]. cbv zeta. repeat split; vm_compute; reflexivity. Qed.
Print Assumptions C16_too_large_always.
Print Assumptions C60_rest_lost_always.
Print Assumptions C60_one_read_always.
