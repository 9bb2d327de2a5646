(** Properties C108-C110: which blocks a downloader requests, and when. *)
From Coq Require Import List NArith ZArith Lia Bool Arith Permutation.
From Coq Require Import Init.Byte.
From Verif Require Import Base Assoc BitmapModel IdModel WireModel PendingModel PendingSpec PendingProofs PendingProps RequestSpec.
Import ListNotations.
Set Implicit Arguments.

Lemma assigned_announced : forall k evs, assigned k evs = announced k evs.
Proof.
  intros k evs. unfold assigned, announced.
  match goal with |- _ = fold_left ?f _ _ => assert (X : forall acc, assigned_from k acc evs = fold_left f evs acc) end; auto.
  induction evs as [|e t IH]; intro acc; auto. destruct e; cbn [assigned_from fold_left]; apply IH.
Qed.
Lemma block_request_of : forall k b st, request_of (mk_ba k b st) = block_request k b.
Proof. intros. unfold request_of, block_request. cbn [ba_piece ba_block]. f_equal. Qed.

(** What one handled event does. *)
Lemma offset_block : forall x, x mod BLOCK_SIZE = 0 -> x = x / BLOCK_SIZE * BLOCK_SIZE.
Proof. intros x H. pose proof BS_pos. pose proof (Nat.div_mod x BLOCK_SIZE). lia. Qed.
Lemma remove_block_spec : forall i l r rest, remove_block i l = Some (r, rest) ->
  ba_block r = i /\ exists a b, l = a ++ r :: b /\ rest = a ++ b.
Proof.
  intros i l. induction l as [|x t IH]; intros r rest H; cbn [remove_block] in H; [discriminate|].
  destruct (Nat.eqb_spec (ba_block x) i) as [E|E].
  - injection H as <- <-. split; auto. exists [], t. auto.
  - destruct (remove_block i t) as [[y u]|]; [|discriminate]. injection H as <- <-.
    destruct (IH y u eq_refl) as (B & a & b & -> & ->). split; auto. exists (x :: a), b. auto.
Qed.
Definition all_requested (l : list block_addr) : Prop := Forall (fun a => ba_status a = Requested) l.
Lemma dl_handle_spec : forall sha1 c s d e s1 d1 fin, dl_handle sha1 c s d e = Val (s1, d1, fin) ->
  preach c s -> all_requested (dl_blocks d) ->
  preach c s1 /\ dl_cap d1 = dl_cap d /\ dl_counter d1 = dl_counter d /\ length (dl_blocks d1) <= length (dl_blocks d) /\
  (all_requested (dl_blocks d1) \/
   exists rest k b, all_requested rest /\ dl_blocks d1 = rest ++ [mk_ba k b Queued] /\ refused c s e b) /\
  (s1 = s \/ exists m b, e = EvBlock m /\ N.to_nat (pm_begin m) = b * BLOCK_SIZE /\
     ((exists ds, pp_add_block c s (N.to_nat (pm_index m)) b (pm_block m) = Val (s1, ARLast (N.to_nat (pm_index m)) ds)) \/
      exists s0 ds h, pp_add_block c s (N.to_nat (pm_index m)) b (pm_block m) = Val (s0, ARLast (N.to_nat (pm_index m)) ds) /\
        dmget (N.to_nat (pm_index m)) (dl_pieces d) = Some h /\ sha1 (concat ds) <> h /\
        (s1 = s0 \/ pp_add_piece s0 (N.to_nat (pm_index m)) = Val s1))).
Proof.
  intros sha1 c s d e s1 d1 fin H P A. destruct e as [m|h i|i]; cbn [dl_handle] in H;
    [|injection H as <- <- <-; cbn [dl_blocks dl_cap dl_counter]; repeat split; auto..].
  unfold dl_block in H. destruct (Nat.eqb_spec (N.to_nat (pm_begin m) mod BLOCK_SIZE) 0) as [E0|E0]; cbn [negb] in H;
    [|injection H as <- <- <-; repeat split; auto].
  destruct (dmget (N.to_nat (pm_index m)) (dl_pieces d)) as [h|] eqn:G; [|injection H as <- <- <-; repeat split; auto].
  destruct (remove_block _ (dl_blocks d)) as [[rm rest]|] eqn:R; [|injection H as <- <- <-; repeat split; auto].
  apply remove_block_spec in R as (RB & a & b & EL & ER).
  assert (AR : all_requested rest).
  { rewrite EL in A. subst rest. apply Forall_app in A as [A1 A2]. inversion A2; subst. apply Forall_app. auto. }
  assert (LR : length (dl_blocks d) = S (length rest)) by (rewrite EL, ER, !app_length; cbn; lia).
  pose proof (offset_block _ E0) as OB.
  destruct (pp_add_block c s (N.to_nat (pm_index m)) (N.to_nat (pm_begin m) / BLOCK_SIZE) (pm_block m)) as [[s0 r]| |] eqn:EA; cbn [rbind snd fst] in H; try discriminate.
  assert (P0 : preach c s0).
  { eapply pr_step with (o := OBlock _ _ _); [exact P|]. cbn [pp_step]. rewrite EA. reflexivity. }
  destruct r as [| |idx ds]; [|discriminate|].
  - injection H as <- <- <-. cbn [dl_blocks dl_cap dl_counter].
    assert (s0 = s) as ->.
    { unfold pp_add_block in EA. destruct (negb _); [congruence|]. destruct (pmget _ _) as [p|]; [|congruence].
      destruct (_ <=? _); [discriminate|]. destruct (usize_dec c (pc_pending p)); cbn [rbind] in EA; try discriminate.
      destruct (_ =? _); [|discriminate]. destruct (blocks_data _); discriminate. }
    repeat split; auto.
    + rewrite app_length. cbn. lia.
    + right. exists rest, (ba_piece rm), (ba_block rm). repeat split; auto. exists m, s. rewrite RB. auto.
  - pose proof (add_block_last_idx _ _ _ _ _ EA) as ->.
    unfold piece_hash in H. destruct (bytes_eqb (sha1 (concat ds)) h) eqn:EB.
    + injection H as <- <- <-. cbn [dl_blocks dl_cap dl_counter]. repeat split; auto; [lia|].
      right. exists m, (N.to_nat (pm_begin m) / BLOCK_SIZE). repeat split; eauto.
    + assert (NE : sha1 (concat ds) <> h).
      { intro X. apply bytes_eqb_eq in X. congruence. }
      destruct (pp_add_piece s0 (N.to_nat (pm_index m))) as [s2| |] eqn:EP; [| |discriminate]; injection H as <- <- <-; cbn [dl_blocks dl_cap dl_counter].
      * repeat split; auto; [|lia|].
        -- eapply pr_step with (o := OAdd _); [exact P0|]. cbn [pp_step]. rewrite EP. reflexivity.
        -- right. exists m, (N.to_nat (pm_begin m) / BLOCK_SIZE). repeat split; auto. right. exists s0, ds, h. repeat split; auto.
      * repeat split; auto; [lia|]. right. exists m, (N.to_nat (pm_begin m) / BLOCK_SIZE). repeat split; auto. left. eauto.
Qed.

(** What taking blocks returns, owner or not. *)
Lemma vec_extend_le : forall n cap len, cap <= vec_extend_cap cap len n.
Proof.
  induction n as [|n IH]; intros cap len; cbn [vec_extend_cap]; [lia|]. etransitivity; [|apply IH].
  unfold vec_grow. destruct (cap =? len); lia.
Qed.
Lemma pp_take_cap : forall s now ps buf cap s' buf' cap', pp_take s now ps buf cap = Val (s', buf', cap') -> cap <= cap'.
Proof.
  intros s now ps buf cap s' buf' cap' H. unfold pp_take in H. destruct (take_pass is_unbegun _ _ _ _) as [r1| |]; cbn [rbind] in H; try discriminate.
  destruct (_ =? _).
  - injection H as <- <- <-. apply vec_extend_le.
  - destruct (take_pass (is_expired now) _ _ _ _) as [r2| |]; cbn [rbind] in H; try discriminate. injection H as <- <- <-.
    etransitivity; apply vec_extend_le.
Qed.
Lemma taken_facts : forall c s now ps buf cap s' buf' cap', preach c s -> pp_take s now ps buf cap = Val (s', buf', cap') ->
  exists new, buf' = buf ++ new /\ NoDup new /\
    (forall a, In a new -> ba_status a = Queued /\ In (ba_piece a) ps /\ wanted now s (ba_piece a) (ba_block a)) /\
    (forall k b, In k ps -> block_at s k b = Some Unbegun -> In (block_addr_new k b) new) /\
    (length buf' < cap -> forall k b p t, In k ps -> block_at s k b = Some (Pending p t) -> t + 7 < now -> In (block_addr_new k b) new) /\
    pp_piece_length s' = pp_piece_length s /\ pp_owner s' = pp_owner s.
Proof.
  intros c s now ps buf cap s' buf' cap' P H. destruct (pp_owner s) as [o|] eqn:EO.
  - destruct (@C22_take_partial c s o now ps buf cap P EO) as (s2 & new & cap2 & E & N & Q & U & W & X & _).
    assert (F : pp_piece_length s' = pp_piece_length s /\ pp_owner s' = pp_owner s).
    { rewrite (pp_take_spec s now ps buf cap EO) in H. cbv zeta in H. destruct (_ =? _); injection H as <- <- <-; auto. }
    rewrite H in E. injection E as -> -> ->.
    exists new. split; auto. split; auto. split; [|split; auto; split; auto; destruct F; split; congruence].
    intros a Ha. split; auto. destruct (W a Ha) as (K & [B|(p & t & B & T)]); (split; auto); [left; auto|right; exists p, t; auto].
  - unfold pp_take in H. rewrite EO in H.
    destruct (take_pass is_unbegun None now ps (pp_data s)) as [r1| |] eqn:E1; cbn [rbind] in H; try discriminate.
    pose proof (take_pass_none _ _ _ _ E1) as ->. cbn [fst snd length] in H. rewrite app_nil_r in H.
    assert (UN : forall k b, In k ps -> block_at s k b <> Some Unbegun).
    { intros k b Hk HB. pose proof (@C22_no_owner_always s now ps buf cap k b EO Hk HB) as X. unfold pp_take in X.
      rewrite EO, E1 in X. cbn [rbind fst snd length] in X. rewrite app_nil_r in X. rewrite H in X. discriminate. }
    cbn [vec_extend_cap] in H. destruct (Nat.eqb_spec cap (length buf)) as [EC|EC].
    + injection H as <- <- <-. exists []. rewrite app_nil_r. split; auto. split; [constructor|]. split; [intros a []|].
      split; [intros k b Hk HB; exfalso; exact (UN k b Hk HB)|]. split; [intro L; lia|auto].
    + destruct (take_pass (is_expired now) None now ps (pp_data s)) as [r2| |] eqn:E2; cbn [rbind] in H; try discriminate.
      pose proof (take_pass_none _ _ _ _ E2) as ->. cbn [fst snd] in H. injection H as <- <- <-. exists []. split; auto. split; [constructor|]. split; [intros a []|].
      split; [intros k b Hk HB; exfalso; exact (UN k b Hk HB)|]. split; [|auto].
      intros L k b p t Hk HB HT. exfalso. unfold block_at in HB. destruct (pmget k (pp_data s)) as [q|] eqn:G; [|discriminate].
        rewrite (@take_pass_none_panic (is_expired now) now ps (pp_data s) k q b (Pending p t)) in E2; auto; [discriminate|].
        cbn [is_expired]. apply Nat.ltb_lt. unfold REQUEST_TIMEOUT_SECS. lia.
Qed.
Lemma taken_few : forall c s now ps new, preach c s -> NoDup new ->
  (forall a, In a new -> ba_status a = Queued /\ In (ba_piece a) ps /\ wanted now s (ba_piece a) (ba_block a)) ->
  length new <= 10 * n_blocks (pp_piece_length s).
Proof.
  intros c s now ps new P N H. pose proof (preach_wf P) as (_ & EB & ND & L & F).
  assert (I : incl new (flat_map (fun k => map (fun b => mk_ba k b Queued) (seq 0 (n_blocks (pp_piece_length s)))) (map fst (pp_data s)))).
  { intros [k b st] Ha. destruct (H _ Ha) as (Q & _ & W). cbn [ba_status ba_piece ba_block] in *. subst st.
    assert (X : exists x, block_at s k b = Some x) by (destruct W as [W|(? & ? & W & _)]; eauto). destruct X as [x X].
    unfold block_at in X. destruct (pmget k (pp_data s)) as [q|] eqn:G; [|discriminate].
    apply in_flat_map. exists k. split; [apply pmget_keys; eauto|]. apply in_map_iff. exists b. split; auto.
    apply in_seq. split; [lia|]. cbn [plus]. rewrite <- EB. rewrite <- (@wf_get s k q (preach_wf P) G). apply nth_error_Some. congruence. }
  apply (NoDup_incl_length N) in I. etransitivity; [exact I|]. clear - L. rewrite <- (map_length fst) in L.
  revert L. generalize (map fst (pp_data s)) 10. intro l. induction l as [|k l IH]; intros n L; cbn [flat_map]; [cbn; lia|].
  rewrite app_length, map_length, seq_length. destruct n as [|n]; cbn [length] in L; [lia|].
  specialize (IH n). cbn [Nat.mul]. lia.
Qed.

(** One wake-up, taken apart. *)
Lemma send_all : forall l, all_requested (snd (dl_send l)) /\ length (snd (dl_send l)) = length l.
Proof.
  intro l. unfold dl_send, all_requested. cbn [snd]. split; [|apply map_length]. apply Forall_forall. intros a Ha.
  apply in_map_iff in Ha as (x & <- & _). destruct x as [k b []]; reflexivity.
Qed.
Lemma send_requested : forall l, all_requested l -> fst (dl_send l) = [].
Proof.
  intros l H. unfold dl_send. cbn [fst]. induction H as [|[k b st] l E H IH]; auto. cbn in E. subst st. exact IH.
Qed.
Lemma send_app : forall l l', fst (dl_send (l ++ l')) = fst (dl_send l) ++ fst (dl_send l').
Proof. intros. unfold dl_send. cbn [fst]. rewrite filter_app, map_app. reflexivity. Qed.
Lemma send_queued : forall l, (forall a, In a l -> ba_status a = Queued) -> fst (dl_send l) = map request_of l.
Proof.
  intros l H. unfold dl_send. cbn [fst]. f_equal. induction l as [|a l IH]; auto. cbn [filter].
  unfold is_queued at 1. rewrite (H a) by (cbn; auto). f_equal. apply IH. intros. apply H. cbn. auto.
Qed.
Lemma dl_step_parts : forall sha1 c now s d e s' d' fin reqs, dl_step sha1 c now s d e = Val (s', d', fin, reqs) ->
  exists s1 d1 blocks cap, dl_handle sha1 c s d e = Val (s1, d1, fin) /\
    ((dl_counter d1 mod 5 = 0 /\ pp_take s1 now (keys (dl_pieces d1)) (dl_blocks d1) (dl_cap d1) = Val (s', blocks, cap)) \/
     (dl_counter d1 mod 5 <> 0 /\ s' = s1 /\ blocks = dl_blocks d1 /\ cap = dl_cap d1)) /\
    d' = mk_dl (dl_pieces d1) (snd (dl_send blocks)) cap (dl_counter d1 + 1) /\ reqs = fst (dl_send blocks).
Proof.
  intros sha1 c now s d e s' d' fin reqs H. unfold dl_step in H.
  destruct (dl_handle sha1 c s d e) as [[[s1 d1] f]| |]; cbn [rbind] in H; try discriminate.
  change (ACTIVE_BLOCKS_PER_PEER / 3) with 5 in H. destruct (Nat.eqb_spec (dl_counter d1 mod 5) 0) as [E|E].
  - destruct (pp_take s1 now (keys (dl_pieces d1)) (dl_blocks d1) (dl_cap d1)) as [[[s2 bl] cp]| |] eqn:ET; cbn [rbind] in H; try discriminate.
    injection H as <- <- <- <-. exists s1, d1, bl, cp. auto.
  - cbn [rbind] in H. injection H as <- <- <- <-. exists s1, d1, (dl_blocks d1), (dl_cap d1). auto 10.
Qed.
Definition dinv (evs : list dl_event) (d : dl) : Prop :=
  dl_counter d = length evs /\ NoDup (keys (dl_pieces d)) /\ (forall i, dmget i (dl_pieces d) = announced i evs) /\
  all_requested (dl_blocks d) /\ 16 <= dl_cap d.
Lemma dinv_init : dinv [] dl_init.
Proof. repeat split; auto; try constructor; unfold dl_init, ACTIVE_BLOCKS_PER_PEER; cbn [dl_cap]; lia. Qed.
Lemma dinv_step : forall sha1 c now s d e s' d' fin reqs evs, dinv evs d -> preach c s -> dl_step sha1 c now s d e = Val (s', d', fin, reqs) ->
  dinv (evs ++ [e]) d'.
Proof.
  intros sha1 c now s d e s' d' fin reqs evs (IC & IN & IA & IR & IP) P H.
  destruct (dl_step_parts _ _ _ _ _ _ H) as (s1 & d1 & bl & cp & EH & ET & -> & ->).
  pose proof (@dl_handle_announced sha1 c s d e (s1, d1, fin) evs IN IA EH) as [N1 A1]. cbn [fst snd] in N1, A1.
  destruct (dl_handle_spec _ _ _ EH P IR) as (P1 & C1 & K1 & _).
  unfold dinv. cbn [dl_counter dl_pieces dl_blocks dl_cap]. rewrite app_length, K1, IC. cbn [length].
  split; auto. split; auto. split; auto. split; [apply send_all|].
  destruct ET as [[_ ET]|(_ & _ & _ & ->)]; [|lia]. apply pp_take_cap in ET. lia.
Qed.
Lemma lived_dinv : forall sha1 c h d, lived sha1 c h d -> dinv (map w_event h) d.
Proof.
  intros sha1 c h d L. induction L as [|h d now s e s' d' fin reqs L IH P E]; [apply dinv_init|].
  rewrite map_app. cbn [map w_event]. eapply dinv_step; eauto.
Qed.

(** An event other than the block itself leaves an unrequested block unrequested. *)
Lemma add_block_other : forall c s k b d s' r k' b' x, preach c s -> pp_add_block c s k b d = Val (s', r) -> r <> ARAdded ->
  block_at s k' b' = Some x -> is_downloaded x = false -> (k, b) <> (k', b') -> block_at s' k' b' = Some x.
Proof.
  intros c s k b d s' r k' b' x P H NA B D NE. unfold pp_add_block in H. destruct (negb _); [injection H as <- <-; auto|].
  destruct (pmget k (pp_data s)) as [p|] eqn:G; [|injection H as <- <-; auto].
  destruct (_ <=? _); [discriminate|]. destruct (usize_dec c (pc_pending p)) as [n| |]; cbn [rbind] in H; try discriminate.
  destruct (_ =? _); [|injection H as <- <-; contradiction NA; auto].
  destruct (blocks_data _) as [ds| |] eqn:EB; cbn [rbind] in H; try discriminate. injection H as <- <-.
  unfold block_at in *. cbn [pp_data pp_with]. destruct (Nat.eq_dec k k') as [<-|NK].
  - exfalso. rewrite G in B. cbn [pc_data] in EB.
    rewrite (@blocks_data_not (upd (pc_data p) b (Downloaded d)) b' x) in EB; [discriminate| |auto].
    rewrite nth_error_upd_other; auto; congruence.
  - unfold pmget, pmdel in *. rewrite (mget_mdel_other _ neqb_spec) by auto. exact B.
Qed.
Lemma add_piece_other : forall s k s' k' b' x, pp_add_piece s k = Val s' -> block_at s k' b' = Some x -> block_at s' k' b' = Some x.
Proof.
  intros s k s' k' b' x H B. unfold pp_add_piece in H. destruct (pmget k (pp_data s)) eqn:G; [injection H as <-; auto|].
  destruct (_ <=? _); [discriminate|]. destruct (pc_new _) as [q| |]; cbn [rbind] in H; try discriminate. injection H as <-.
  unfold block_at in *. cbn [pp_data pp_with]. destruct (Nat.eq_dec k k') as [<-|NK].
  - rewrite G in B. discriminate.
  - unfold pmget, pmset in *. rewrite (mget_mset_other _ neqb_spec) by auto. exact B.
Qed.
Lemma handle_keeps : forall sha1 c s d e s1 d1 fin k b x, preach c s -> all_requested (dl_blocks d) -> dl_handle sha1 c s d e = Val (s1, d1, fin) ->
  block_at s k b = Some x -> is_downloaded x = false -> ~ delivers e k b -> block_at s1 k b = Some x.
Proof.
  intros sha1 c s d e s1 d1 fin k b x P A H B D ND. destruct (dl_handle_spec _ _ _ H P A) as (_ & _ & _ & _ & _ & [->|S]); auto.
  destruct S as (m & b0 & -> & EB & S).
  assert (NE : (N.to_nat (pm_index m), b0) <> (k, b)).
  { intro X. injection X as X1 X2. apply ND. exists m. subst b0. auto. }
  destruct S as [(ds & E)|(s0 & ds & h & E & _ & _ & [->|EP])].
  - eapply add_block_other; eauto. discriminate.
  - eapply add_block_other; eauto. discriminate.
  - eapply add_piece_other; eauto. eapply add_block_other; eauto. discriminate.
Qed.

(** ** C108 *)
(** Full statement: a downloader requests every block nobody asked for of the
    pieces assigned to it, at its first wake-up and every fifth one after it, and
    nothing else but refused blocks in between. Part: if the wake-up does not end
    in a panic, as it does when the shared pieces have no owner (see below). *)
Theorem C108_refill_partial : forall sha1 c h now s e reqs d k b, lived sha1 c (h ++ [mk_wake now s e reqs]) d ->
  length h mod 5 = 0 -> assigned k (map w_event h ++ [e]) <> None -> block_at s k b = Some Unbegun -> ~ delivers e k b ->
  In (block_request k b) reqs.
Proof.
  intros sha1 c h now s e reqs d k b L M A B ND. inversion L as [EE|h0 d0 now0 s0 e0 s' d' fin reqs0 L0 P E EE].
  { destruct h; discriminate. }
  apply app_inj_tail in EE as [-> EE]. injection EE as -> -> -> ->. subst d'.
  pose proof (lived_dinv L0) as (IC & IN & IA & IR & IP). rewrite map_length in IC.
  destruct (dl_step_parts _ _ _ _ _ _ E) as (s1 & d1 & bl & cp & EH & ET & -> & ->).
  pose proof (@dl_handle_announced sha1 c s d0 e (s1, d1, fin) _ IN IA EH) as [N1 A1]. cbn [fst snd] in N1, A1.
  destruct (dl_handle_spec _ _ _ EH P IR) as (P1 & C1 & K1 & _).
  destruct ET as [[_ ET]|(NM & _)]; [|rewrite K1, IC in NM; contradiction].
  destruct (@taken_facts c s1 now _ _ _ s' _ _ P1 ET) as (new & -> & _ & Q & U & _).
  assert (IK : In k (keys (dl_pieces d1))).
  { rewrite assigned_announced, <- A1 in A. destruct (dmget k (dl_pieces d1)) as [x|] eqn:G; [|congruence].
    eapply (mget_some_key _ neqb_spec). exact G. }
  assert (B1 : block_at s1 k b = Some Unbegun) by exact (@handle_keeps sha1 c s d0 e s1 d1 fin k b Unbegun P IR EH B eq_refl ND).
  specialize (U k b IK B1). rewrite send_app. apply in_app_iff. right. rewrite send_queued by (intros; apply Q; auto).
  apply in_map_iff. exists (block_addr_new k b). split; [apply block_request_of|auto].
Qed.

Lemma add_last_frame : forall c s k b d s' ds k' b', preach c s -> pp_add_block c s k b d = Val (s', ARLast k ds) ->
  block_at s' k' b' = (if k' =? k then None else block_at s k' b').
Proof.
  intros c s k b d s' ds k' b' P H. unfold pp_add_block in H. destruct (negb _); [discriminate|].
  destruct (pmget k (pp_data s)) as [p|] eqn:G; [|discriminate].
  destruct (_ <=? _); [discriminate|]. destruct (usize_dec c (pc_pending p)) as [n| |]; cbn [rbind] in H; try discriminate.
  destruct (_ =? _); [|discriminate].
  destruct (blocks_data _) as [x| |] eqn:EB; cbn [rbind] in H; try discriminate. injection H as <- <-.
  pose proof (preach_wf P) as (_ & _ & ND & _). unfold block_at in *. cbn [pp_data pp_with].
  destruct (Nat.eqb_spec k' k) as [->|NK]; unfold pmget, pmdel in *.
  - rewrite (mget_mdel_same _ neqb_spec) by auto. reflexivity.
  - rewrite (mget_mdel_other _ neqb_spec) by auto. reflexivity.
Qed.
Lemma add_piece_frame : forall s k s' k' b', pp_add_piece s k = Val s' -> k' <> k -> block_at s' k' b' = block_at s k' b'.
Proof.
  intros s k s' k' b' H NK. unfold pp_add_piece in H. destruct (pmget k (pp_data s)) eqn:G; [injection H as <-; auto|].
  destruct (_ <=? _); [discriminate|]. destruct (pc_new _) as [q| |]; cbn [rbind] in H; try discriminate. injection H as <-.
  unfold block_at in *. cbn [pp_data pp_with]. unfold pmget, pmset in *. rewrite (mget_mset_other _ neqb_spec) by auto. reflexivity.
Qed.
(** Nothing else is requested. *)
Theorem C108_only : forall sha1 c h now s e reqs d r, lived sha1 c (h ++ [mk_wake now s e reqs]) d -> In r reqs ->
  exists k b, r = block_request k b /\
    (refused c s e b \/
     length h mod 5 = 0 /\ exists hash, assigned k (map w_event h ++ [e]) = Some hash /\ (wanted now s k b \/ spoils sha1 c s e k hash)).
Proof.
  intros sha1 c h now s e reqs d r L HR. inversion L as [EE|h0 d0 now0 s0 e0 s' d' fin reqs0 L0 P E EE].
  { destruct h; discriminate. }
  apply app_inj_tail in EE as [-> EE]. injection EE as -> -> -> ->. subst d'.
  pose proof (lived_dinv L0) as (IC & IN & IA & IR & IP). rewrite map_length in IC.
  destruct (dl_step_parts _ _ _ _ _ _ E) as (s1 & d1 & bl & cp & EH & ET & -> & ->).
  pose proof (@dl_handle_announced sha1 c s d0 e (s1, d1, fin) _ IN IA EH) as [N1 A1]. cbn [fst snd] in N1, A1.
  destruct (dl_handle_spec _ _ _ EH P IR) as (P1 & C1 & K1 & _ & QQ & SS).
  assert (OLD : In r (fst (dl_send (dl_blocks d1))) -> exists k b, r = block_request k b /\ refused c s e b).
  { intro H. destruct QQ as [QQ|(rest & k & b & AR & EB & RF)].
    - rewrite send_requested in H by auto. destruct H.
    - rewrite EB, send_app, (send_requested AR) in H. cbn in H. destruct H as [<-|[]]. exists k, b. split; auto. }
  destruct ET as [[M ET]|(_ & _ & -> & _)].
  2: { destruct (OLD HR) as (k & b & X & Y). exists k, b. auto. }
  destruct (@taken_facts c s1 now _ _ _ s' _ _ P1 ET) as (new & -> & _ & Q & _).
  rewrite send_app in HR. apply in_app_iff in HR as [HR|HR].
  { destruct (OLD HR) as (k & b & X & Y). exists k, b. auto. }
  rewrite send_queued in HR by (intros; apply Q; auto). apply in_map_iff in HR as ([k b st] & <- & HA).
  destruct (Q _ HA) as (_ & HK & HW). cbn [ba_piece ba_block] in HK, HW.
  exists k, b. split; [apply block_request_of|]. right. split; [congruence|].
  assert (X : exists hash, dmget k (dl_pieces d1) = Some hash) by (apply (key_mget _ neqb_spec); auto).
  destruct X as [hash X]. exists hash. rewrite assigned_announced, <- A1. split; auto.
  destruct SS as [->|(m & b0 & -> & EB & SS)]; auto.
  assert (XD : dmget k (dl_pieces d0) = Some hash).
  { cbn [dl_handle] in EH. pose proof (dl_block_pieces _ _ _ _ _ EH) as XX. cbn [fst snd] in XX. congruence. }
  destruct SS as [(ds & EA)|(s2 & ds & hh & EA & G & NE & SS)].
  - left. unfold wanted in *. rewrite !(@add_last_frame c s _ b0 _ s1 ds k b P EA) in HW. destruct (k =? _); auto.
    destruct HW as [HW|(? & ? & HW & _)]; discriminate.
  - destruct (Nat.eq_dec k (N.to_nat (pm_index m))) as [EK|NK].
    + right. exists m, b0, s2, ds. subst k. rewrite XD in G. injection G as <-. repeat split; auto.
    + left. assert (BB : block_at s1 k b = block_at s k b).
      { destruct SS as [->|EP]; [|rewrite (add_piece_frame _ _ EP NK)]; rewrite (@add_last_frame c s _ b0 _ s2 ds k b P EA);
          apply Nat.eqb_neq in NK; rewrite NK; reflexivity. }
      unfold wanted in *. rewrite BB in HW. exact HW.
Qed.
Print Assumptions C108_refill_partial.
Print Assumptions C108_only.
(** As the program stands the shared pieces have no owner (nothing calls
    [set_owner_peer]), and the task dies instead. *)
Theorem C108_refuted : forall sha1 c pl k h now, 0 < pl -> exists s0 s, pp_new pl = Val s0 /\ pp_add_piece s0 k = Val s /\ preach c s /\
  block_at s k 0 = Some Unbegun /\ dl_step sha1 c now s dl_init (EvStart h k) = Panic.
Proof.
  intros sha1 c pl k h now Hpl. pose proof (n_blocks_pos Hpl) as NP.
  set (s0 := mk_pp pl (n_blocks pl) None []).
  assert (E0 : pp_new pl = Val s0) by (unfold pp_new; rewrite ceil_n_blocks by auto; reflexivity).
  assert (P0 : preach c s0) by (apply pr_new with (pl := pl); auto).
  assert (E1 : pp_add_piece s0 k = Val (pp_with s0 [(k, mk_pc 0 0 (repeat Unbegun (n_blocks pl)))])).
  { rewrite (add_piece_new _ (preach_wf P0)); [reflexivity|unfold in_flight; cbn; auto|unfold n_in_flight; cbn; lia]. }
  exists s0. eexists. split; auto. split; [exact E1|]. split.
  { eapply pr_step with (o := OAdd k); [exact P0|]. cbn [pp_step]. rewrite E1. reflexivity. }
  assert (B : block_at (pp_with s0 [(k, mk_pc 0 0 (repeat Unbegun (n_blocks pl)))]) k 0 = Some Unbegun).
  { unfold block_at, pmget. cbn [pp_data pp_with mget]. rewrite Nat.eqb_refl. destruct (n_blocks pl); [lia|reflexivity]. }
  split; auto. unfold dl_step. cbn [dl_handle rbind dl_counter dl_init].
  change (0 mod (ACTIVE_BLOCKS_PER_PEER / 3) =? 0) with true. cbv iota.
  erewrite C22_no_owner_always; [reflexivity|reflexivity| |exact B].
  cbn [dl_pieces]. unfold dmset. cbn [mset keys map fst]. cbn. auto.
Qed.
Print Assumptions C108_refuted.

Lemma step_preach : forall sha1 c now s d e s' d' fin reqs, preach c s -> all_requested (dl_blocks d) ->
  dl_step sha1 c now s d e = Val (s', d', fin, reqs) -> preach c s'.
Proof.
  intros sha1 c now s d e s' d' fin reqs P A H. destruct (dl_step_parts _ _ _ _ _ _ H) as (s1 & d1 & bl & cp & EH & ET & _).
  destruct (dl_handle_spec _ _ _ EH P A) as (P1 & _). destruct ET as [[_ ET]|(_ & -> & _)]; auto.
  eapply pr_step with (o := OTake now _ _ _); [exact P1|]. cbn [pp_step]. rewrite ET. reflexivity.
Qed.
Lemma alone_lived : forall sha1 c evs s d h s' d' h', lived sha1 c h d -> preach c s -> alone sha1 c s d evs = Val (s', d', h') ->
  preach c s' /\ lived sha1 c (h ++ h') d'.
Proof.
  intros sha1 c evs. induction evs as [|[now e] t IH]; intros s d h s' d' h' L P H; cbn [alone] in H.
  - injection H as <- <- <-. rewrite app_nil_r. auto.
  - destruct (dl_step sha1 c now s d e) as [[[[s1 d1] fin] r1]| |] eqn:E; cbn [rbind] in H; try discriminate.
    destruct (alone sha1 c s1 d1 t) as [[[s2 d2] r2]| |] eqn:EA; cbn [rmap fst snd] in H; try discriminate. injection H as <- <- <-.
    pose proof (lv_wake now e L P E) as L1.
    assert (P1 : preach c s1) by (eapply step_preach; eauto; apply (lived_dinv L)).
    destruct (IH _ _ _ _ _ _ L1 P1 EA) as (P2 & L2). rewrite <- app_assoc in L2. auto.
Qed.
(** Two pieces of one block each; the second is assigned at the fourth wake-up and
    requested at the sixth. *)
Definition ex_h : ID := repeat x07 20.
Definition ex_evs : list (nat * dl_event) :=
  [(0, EvStart ex_h 3); (0, EvStop 9); (0, EvStop 9); (1, EvStart ex_h 4); (1, EvStop 9); (2, EvStop 9)].
Example C108_example : forall sha1, exists h s e d, lived sha1 false (h ++ [mk_wake 2 s e [block_request 4 0]]) d /\
  map w_sent h = [[block_request 3 0]; []; []; []; []] /\ length h mod 5 = 0 /\ assigned 4 (map w_event h ++ [e]) <> None /\ block_at s 4 0 = Some Unbegun /\ ~ delivers e 4 0.
Proof.
  intro sha1. set (s := ex_s 5 [3; 4]).
  assert (P : preach false s).
  { eapply preach_run with (ops := [OAdd 3; OAdd 4]); [apply (@preach_empty false 5 ex_peer); lia|]. vm_compute. reflexivity. }
  destruct (alone sha1 false s dl_init ex_evs) as [[[s' d'] h']| |] eqn:E; [|vm_compute in E; discriminate..].
  destruct (@alone_lived sha1 false ex_evs s dl_init [] s' d' h' (lv_start _ _) P E) as (_ & L). cbn [app] in L.
  exists (removelast h'), (w_shared (last h' (mk_wake 0 s (EvStop 0) []))), (EvStop 9), d'.
  vm_compute in E. injection E as _ _ <-. split; [exact L|]. split; [vm_compute; reflexivity|]. split; [reflexivity|].
  split; [discriminate|]. split; [vm_compute; reflexivity|]. intros (m & X & _). discriminate.
Qed.

(** ** C109 *)
(** Full statement: a request that was not answered for more than 7 s is sent
    again at the next search for blocks, as long as its piece is assigned. Part: if
    fewer than 16 requests are open. *)
Theorem C109_repeat_partial : forall sha1 c h now s e reqs d k b p t, lived sha1 c (h ++ [mk_wake now s e reqs]) d ->
  length h mod 5 = 0 -> assigned k (map w_event h ++ [e]) <> None -> block_at s k b = Some (Pending p t) -> t + 7 < now -> ~ delivers e k b ->
  length (dl_blocks d) < 16 -> In (block_request k b) reqs.
Proof.
  intros sha1 c h now s e reqs d k b p t L M A B T ND LB. inversion L as [EE|h0 d0 now0 s0 e0 s' d' fin reqs0 L0 P E EE].
  { destruct h; discriminate. }
  apply app_inj_tail in EE as [-> EE]. injection EE as -> -> -> ->. subst d'.
  pose proof (lived_dinv L0) as (IC & IN & IA & IR & IP). rewrite map_length in IC.
  destruct (dl_step_parts _ _ _ _ _ _ E) as (s1 & d1 & bl & cp & EH & ET & -> & ->).
  pose proof (@dl_handle_announced sha1 c s d0 e (s1, d1, fin) _ IN IA EH) as [N1 A1]. cbn [fst snd] in N1, A1.
  destruct (dl_handle_spec _ _ _ EH P IR) as (P1 & C1 & K1 & _).
  destruct ET as [[_ ET]|(NM & _)]; [|rewrite K1, IC in NM; contradiction].
  destruct (@taken_facts c s1 now _ _ _ s' _ _ P1 ET) as (new & -> & _ & Q & _ & X & _).
  assert (IK : In k (keys (dl_pieces d1))).
  { rewrite assigned_announced, <- A1 in A. destruct (dmget k (dl_pieces d1)) as [x|] eqn:G; [|congruence].
    eapply (mget_some_key _ neqb_spec). exact G. }
  assert (B1 : block_at s1 k b = Some (Pending p t)) by exact (@handle_keeps sha1 c s d0 e s1 d1 fin k b _ P IR EH B eq_refl ND).
  cbn [dl_blocks] in LB. rewrite (proj2 (send_all _)) in LB.
  specialize (X ltac:(lia) k b p t IK B1 T). rewrite send_app. apply in_app_iff. right. rewrite send_queued by (intros; apply Q; auto).
  apply in_map_iff. exists (block_addr_new k b). split; [apply block_request_of|auto].
Qed.
Print Assumptions C109_repeat_partial.

(** A block that is never answered is requested at most 16 times, however long
    the piece stays assigned. *)
Lemma quiet_step : forall sha1 c pl o k now x d e s' d' fin reqs, (forall m, e <> EvBlock m) ->
  (x = Unbegun /\ dl_blocks d = [] \/ exists p t, x = Pending p t) -> all_requested (dl_blocks d) -> dl_cap d = 16 -> length (dl_blocks d) <= 16 ->
  dl_step sha1 c now (mk_pp pl 1 (Some o) [(k, mk_pc 0 0 [x])]) d e = Val (s', d', fin, reqs) ->
  exists y, s' = mk_pp pl 1 (Some o) [(k, mk_pc 0 0 [y])] /\ (y = Unbegun /\ dl_blocks d' = [] \/ exists p t, y = Pending p t) /\
    all_requested (dl_blocks d') /\ dl_cap d' = 16 /\ length (dl_blocks d') <= 16 /\ length (dl_blocks d') = length (dl_blocks d) + length reqs.
Proof.
  intros sha1 c pl o k now x d e s' d' fin reqs NB HX A C L H.
  destruct (dl_step_parts _ _ _ _ _ _ H) as (s1 & d1 & bl & cp & EH & ET & -> & ->).
  assert (Z : s1 = mk_pp pl 1 (Some o) [(k, mk_pc 0 0 [x])] /\ dl_blocks d1 = dl_blocks d /\ dl_cap d1 = 16).
  { destruct e as [m|h i|i]; [exfalso; eapply NB; eauto|injection EH as <- <- <-; auto..]. }
  destruct Z as (-> & EB & EC). rewrite EB, EC in ET. cbn [dl_blocks dl_cap].
  assert (LS := proj2 (send_all bl)). assert (AS := proj1 (send_all bl)).
  destruct ET as [[_ ET]|(_ & -> & -> & ->)].
  2: { exists x. rewrite (send_requested A) in *. cbn [length]. rewrite LS. split; auto. split.
       - destruct HX as [[-> E]|HX]; [left|right; auto]. rewrite E. auto.
       - intuition lia. }
  rewrite (@pp_take_spec (mk_pp pl 1 (Some o) [(k, mk_pc 0 0 [x])]) o now _ _ _ eq_refl) in ET. cbv zeta in ET. cbn [pp_data] in ET.
  set (ps := keys (dl_pieces d1)) in ET.
  assert (TK : forall f z, taken f ps [(k, mk_pc 0 0 [z])] = if mem k ps then (if f z then [block_addr_new k 0] else []) else []).
  { intros f z. unfold taken. cbn [flat_map fst snd pc_data idxs]. destruct (mem k ps); auto. destruct (f z); reflexivity. }
  assert (MK : forall f z, mark_map f o now ps [(k, mk_pc 0 0 [z])] = [(k, mk_pc 0 0 [if mem k ps then (if f z then Pending o now else z) else z])]).
  { intros f z. unfold mark_map, mark_pc. cbn [map fst snd]. destruct (mem k ps); reflexivity. }
  rewrite !MK, !TK in ET.
  assert (RS : forall l, all_requested l -> forall b, length (fst (dl_send (l ++ b))) = length (fst (dl_send b))).
  { intros l Hl b. rewrite send_app, (send_requested Hl). reflexivity. }
  destruct (mem k ps).
  2: { cbn [length vec_extend_cap] in ET. rewrite !app_nil_r in ET.
       assert (X : s' = mk_pp pl 1 (Some o) [(k, mk_pc 0 0 [x])] /\ bl = dl_blocks d /\ cp = 16).
       { destruct (16 =? length (dl_blocks d)); injection ET as <- <- <-; auto. }
       destruct X as (-> & -> & ->). exists x. rewrite (send_requested A) in *. cbn [length]. rewrite LS. split; auto. split.
       - destruct HX as [[-> E]|HX]; [left|right; auto]. rewrite E. auto.
       - intuition lia. }
  destruct HX as [[-> E]|(p & t & ->)].
  - rewrite E in *. cbn [is_unbegun length app vec_extend_cap] in ET. unfold vec_grow in ET. cbn [Nat.eqb] in ET.
    cbn [is_expired] in ET. rewrite Nat.sub_diag in ET. cbn [Nat.ltb Nat.leb app vec_extend_cap length] in ET. injection ET as <- <- <-.
    exists (Pending o now). split; auto. split; [eauto|]. split; auto. cbn. auto 6 with arith.
  - cbn [is_unbegun length vec_extend_cap] in ET. rewrite app_nil_r in ET. destruct (Nat.eqb_spec 16 (length (dl_blocks d))) as [F|F].
    + injection ET as <- <- <-. exists (Pending p t). split; auto. split; [eauto|]. split; auto. rewrite LS, (send_requested A). cbn [length]. auto.
    + set (b := is_expired now (Pending p t)) in *. destruct b; injection ET as <- <- <-.
      * exists (Pending o now). split; auto. split; [eauto|]. split; auto. cbn [length vec_extend_cap]. unfold vec_grow.
        apply Nat.eqb_neq in F. rewrite F. apply Nat.eqb_neq in F. rewrite LS, app_length, (RS _ A). cbn. lia.
      * exists (Pending p t). rewrite app_nil_r in *. split; auto. split; [eauto|]. split; auto. cbn [length vec_extend_cap]. rewrite LS, (send_requested A). cbn. auto.
Qed.
Theorem C109_gives_up_always : forall sha1 c pl o k evs s d h, silent evs ->
  alone sha1 c (mk_pp pl 1 (Some o) [(k, mk_pc 0 0 [Unbegun])]) dl_init evs = Val (s, d, h) -> length (flat_map w_sent h) <= 16.
Proof.
  intros sha1 c pl o k evs.
  assert (GEN : forall x d s' d' h, silent evs -> (x = Unbegun /\ dl_blocks d = [] \/ exists p t, x = Pending p t) -> all_requested (dl_blocks d) ->
    dl_cap d = 16 -> length (dl_blocks d) <= 16 -> alone sha1 c (mk_pp pl 1 (Some o) [(k, mk_pc 0 0 [x])]) d evs = Val (s', d', h) ->
    length (dl_blocks d) + length (flat_map w_sent h) <= 16).
  { induction evs as [|[now e] t IH]; intros x d s' d' h S HX A C L H; cbn [alone] in H.
    - injection H as _ _ <-. cbn. lia.
    - destruct (dl_step _ _ _ _ _ _) as [[[[s1 d1] fin] r1]| |] eqn:E; cbn [rbind] in H; try discriminate.
      destruct (alone sha1 c s1 d1 t) as [[[s2 d2] r2]| |] eqn:EA; cbn [rmap fst snd] in H; try discriminate. injection H as _ _ <-.
      destruct (@quiet_step sha1 c pl o k now x d e s1 d1 fin r1) as (y & -> & HY & A1 & C1 & L1 & E1); auto.
      { intros m ->. apply (S now m). cbn. auto. }
      cbn [flat_map w_sent]. rewrite app_length.
      assert (S1 : silent t) by (intros n m Hm; apply (S n m); cbn; auto).
      pose proof (IH y d1 s2 d2 r2 S1 HY A1 C1 L1 EA). lia. }
  intros s d h S H. pose proof (GEN Unbegun dl_init s d h S (or_introl (conj eq_refl eq_refl)) (Forall_nil _) eq_refl (Nat.le_0_l 16) H) as X.
  cbn [dl_init dl_blocks length] in X. lia.
Qed.
Print Assumptions C109_gives_up_always.
(** So in the end a request that expired is not repeated. *)
Definition ex_wait : list (nat * dl_event) := flat_map (fun i => repeat (10 * i, EvStart ex_h 3) 5) (seq 0 16).
Theorem C109_refuted : forall sha1, exists h now s e d k b p t, lived sha1 false (h ++ [mk_wake now s e []]) d /\
  length h mod 5 = 0 /\ assigned k (map w_event h ++ [e]) <> None /\ block_at s k b = Some (Pending p t) /\ t + 7 < now /\ ~ delivers e k b /\
  length (flat_map w_sent h) = 16.
Proof.
  intro sha1. set (s := ex_s 5 [3]).
  assert (P : preach false s).
  { eapply preach_run with (ops := [OAdd 3]); [apply (@preach_empty false 5 ex_peer); lia|]. vm_compute. reflexivity. }
  destruct (alone sha1 false s dl_init (ex_wait ++ [(160, EvStart ex_h 3)])) as [[[s' d'] h']| |] eqn:E; [|vm_compute in E; discriminate..].
  destruct (@alone_lived sha1 false (ex_wait ++ [(160, EvStart ex_h 3)]) s dl_init [] s' d' h' (lv_start _ _) P E) as (_ & L). cbn [app] in L.
  exists (removelast h'), 160, (w_shared (last h' (mk_wake 0 s (EvStop 0) []))), (EvStart ex_h 3), d', 3, 0, ex_peer, 150.
  vm_compute in E. injection E as _ _ <-. split; [exact L|]. split; [reflexivity|]. split; [vm_compute; discriminate|].
  split; [vm_compute; reflexivity|]. split; [lia|]. split; [intros (m & X & _); discriminate|]. vm_compute. reflexivity.
Qed.
Print Assumptions C109_refuted.
(** The hypotheses of the part that holds are met: the second request. *)
Example C109_example : forall sha1, exists h s e d, lived sha1 false (h ++ [mk_wake 8 s e [block_request 3 0]]) d /\
  length h mod 5 = 0 /\ assigned 3 (map w_event h ++ [e]) <> None /\ block_at s 3 0 = Some (Pending ex_peer 0) /\ ~ delivers e 3 0 /\ length (dl_blocks d) < 16.
Proof.
  intro sha1. set (s := ex_s 5 [3]). set (evs := repeat (0, EvStart ex_h 3) 5 ++ [(8, EvStop 9)]).
  assert (P : preach false s).
  { eapply preach_run with (ops := [OAdd 3]); [apply (@preach_empty false 5 ex_peer); lia|]. vm_compute. reflexivity. }
  destruct (alone sha1 false s dl_init evs) as [[[s' d'] h']| |] eqn:E; [|vm_compute in E; discriminate..].
  destruct (@alone_lived sha1 false evs s dl_init [] s' d' h' (lv_start _ _) P E) as (_ & L). cbn [app] in L.
  exists (removelast h'), (w_shared (last h' (mk_wake 0 s (EvStop 0) []))), (EvStop 9), d'.
  vm_compute in E. injection E as _ <- <-. split; [exact L|]. split; [reflexivity|]. split; [vm_compute; discriminate|].
  split; [vm_compute; reflexivity|]. split; [intros (m & X & _); discriminate|]. cbn. lia.
Qed.

(** ** C110 *)
(** Full statement: a downloader has at most 16 requests open. Part: at most ten
    pieces' worth for each search for blocks so far. *)
Theorem C110_open_partial : forall sha1 c pl h d, lived sha1 c h d -> Forall (fun w => pp_piece_length (w_shared w) = pl) h ->
  length (dl_blocks d) <= (length h + 4) / 5 * (10 * n_blocks pl).
Proof.
  intros sha1 c pl h d L. induction L as [|h d now s e s' d' fin reqs L IH P E]; intro F; [cbn; lia|].
  apply Forall_app in F as [F1 F2]. inversion F2 as [|? ? F3 _]; subst. cbn [w_shared] in *. specialize (IH F1).
  pose proof (lived_dinv L) as (IC & IN & IA & IR & IP). rewrite map_length in IC.
  destruct (dl_step_parts _ _ _ _ _ _ E) as (s1 & d1 & bl & cp & EH & ET & -> & ->).
  destruct (dl_handle_spec _ _ _ EH P IR) as (P1 & C1 & K1 & L1 & _ & SS). cbn [dl_blocks]. rewrite (proj2 (send_all bl)), app_length. cbn [length].
  assert (PL : pp_piece_length s1 = pp_piece_length s).
  { assert (AB : forall k b x s2 r, pp_add_block c s k b x = Val (s2, r) -> pp_piece_length s2 = pp_piece_length s).
    { clear. intros k b x s2 r H. unfold pp_add_block in H. destruct (negb _); [injection H as <- <-; auto|].
      destruct (pmget k (pp_data s)) as [p|]; [|injection H as <- <-; auto]. destruct (_ <=? _); [discriminate|].
      destruct (usize_dec c (pc_pending p)); cbn [rbind] in H; try discriminate. destruct (_ =? _); [|injection H as <- <-; auto].
      destruct (blocks_data _); cbn [rbind] in H; try discriminate. injection H as <- <-. auto. }
    destruct SS as [->|(m & b & _ & _ & [(ds & EA)|(s0 & ds & hh & EA & _ & _ & [->|EP])])]; auto; apply AB in EA; auto.
    unfold pp_add_piece in EP. destruct (pmget _ _); [injection EP as <-; auto|]. destruct (_ <=? _); [discriminate|].
    destruct (pc_new _); cbn [rbind] in EP; try discriminate. injection EP as <-. auto. }
  destruct ET as [[M ET]|(M & -> & -> & ->)].
  - destruct (@taken_facts c s1 now _ _ _ s' _ _ P1 ET) as (new & -> & N & Q & _). pose proof (@taken_few c s1 now _ new P1 N Q) as T. rewrite PL in T.
    rewrite app_length. replace (length h + 1 + 4) with (length h + 1 * 5) by lia. rewrite Nat.div_add by lia.
    assert (X : (length h + 4) / 5 = length h / 5).
    { rewrite K1, IC in M. symmetry. apply Nat.div_unique with (r := 4); [lia|]. pose proof (Nat.div_mod (length h) 5). lia. }
    rewrite X in IH. rewrite Nat.mul_add_distr_r. lia.
  - etransitivity; [|apply Nat.mul_le_mono_r, Nat.div_le_mono with (a := length h + 4); lia]. lia.
Qed.
Print Assumptions C110_open_partial.
Theorem C110_refuted : forall sha1 n, 0 < n -> exists s e reqs d, lived sha1 false [mk_wake 0 s e reqs] d /\ length reqs = n /\ length (dl_blocks d) = n.
Proof.
  intros sha1 n Hn. pose proof BS_pos as HB. set (pl := n * BLOCK_SIZE).
  assert (HP : 0 < pl) by (unfold pl; nia).
  assert (NB : n_blocks pl = n).
  { unfold n_blocks, pl. symmetry. apply Nat.div_unique with (r := BLOCK_SIZE - 1); lia. }
  pose proof (@preach_empty false pl ex_peer HP) as P0. rewrite NB in P0.
  set (s0 := mk_pp pl n (Some ex_peer) []) in *.
  set (s := mk_pp pl n (Some ex_peer) [(3, mk_pc 0 0 (repeat Unbegun n))]).
  assert (E1 : pp_add_piece s0 3 = Val s).
  { rewrite (add_piece_new _ (preach_wf P0)); [reflexivity|unfold in_flight; cbn; auto|unfold n_in_flight; cbn; lia]. }
  assert (P : preach false s).
  { eapply pr_step with (o := OAdd 3); [exact P0|]. cbn [pp_step]. rewrite E1. reflexivity. }
  destruct (@C22_take_partial false s ex_peer 0 [3] [] 16 P eq_refl) as (s' & new & cap & ET & ND & Q & U & W & _). cbn [app] in ET.
  assert (LN : length new = n).
  { assert (BA : forall b, b < n -> block_at s 3 b = Some Unbegun).
    { intros b Hb. unfold block_at, s. cbn [pp_data pmget mget Nat.eqb pc_data]. unfold pmget. cbn [mget Nat.eqb pc_data].
      rewrite nth_error_repeat; auto. }
    apply Nat.le_antisymm.
    - assert (I : incl new (map (block_addr_new 3) (seq 0 n))).
      { intros [k b st] Ha. pose proof (Q _ Ha) as E. cbn in E. subst st. destruct (W _ Ha) as (K & X). cbn [ba_piece ba_block] in *.
        destruct K as [<-|[]]. apply in_map_iff. exists b. split; auto. apply in_seq. split; [lia|]. cbn [plus].
        assert (Y : exists x, block_at s 3 b = Some x) by (destruct X as [X|(? & ? & X & _)]; eauto). destruct Y as [x Y].
        unfold block_at, s, pmget in Y. cbn [pp_data mget Nat.eqb pc_data] in Y.
        rewrite <- (repeat_length Unbegun n). apply nth_error_Some. congruence. }
      apply (NoDup_incl_length ND) in I. rewrite map_length, seq_length in I. exact I.
    - assert (I : incl (map (block_addr_new 3) (seq 0 n)) new).
      { intros a Ha. apply in_map_iff in Ha as (b & <- & Hb). apply in_seq in Hb. apply U; [cbn; auto|]. apply BA. lia. }
      apply NoDup_incl_length in I; [rewrite map_length, seq_length in I; exact I|].
      apply FinFun.Injective_map_NoDup; [|apply seq_NoDup]. intros x y X. injection X as ->. auto. }
  assert (E : dl_step sha1 false 0 s dl_init (EvStart ex_h 3) =
    Val (s', mk_dl [(3, ex_h)] (snd (dl_send new)) cap 1, [], fst (dl_send new))).
  { unfold dl_step. cbn [dl_handle rbind dl_counter dl_init dl_pieces dl_blocks dl_cap].
    change (0 mod (ACTIVE_BLOCKS_PER_PEER / 3) =? 0) with true. cbv iota.
    change (keys (dmset 3 ex_h [])) with [3]. change ACTIVE_BLOCKS_PER_PEER with 16. rewrite ET. reflexivity. }
  exists s, (EvStart ex_h 3). eexists. eexists. split; [exact (lv_wake 0 (EvStart ex_h 3) (lv_start sha1 false) P E)|].
  cbn [dl_blocks]. rewrite (proj2 (send_all new)), send_queued, map_length; auto.
Qed.
Print Assumptions C110_refuted.
Example C110_example : forall sha1, exists h d, lived sha1 false h d /\ length h = 6 /\ Forall (fun w => pp_piece_length (w_shared w) = 5) h /\ length (dl_blocks d) = 2.
Proof.
  intro sha1. set (s := ex_s 5 [3; 4]).
  assert (P : preach false s).
  { eapply preach_run with (ops := [OAdd 3; OAdd 4]); [apply (@preach_empty false 5 ex_peer); lia|]. vm_compute. reflexivity. }
  destruct (alone sha1 false s dl_init ex_evs) as [[[s' d'] h']| |] eqn:E; [|vm_compute in E; discriminate..].
  destruct (@alone_lived sha1 false ex_evs s dl_init [] s' d' h' (lv_start _ _) P E) as (_ & L). cbn [app] in L.
  exists h', d'. vm_compute in E. injection E as _ <- <-. split; [exact L|]. split; [reflexivity|]. split; [|reflexivity].
  repeat constructor.
Qed.
