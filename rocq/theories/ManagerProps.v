(** Properties C29-C33 and C65-C67: the torrent manager. *)
From Coq Require Import List NArith ZArith Lia Bool Arith Permutation.
From Coq Require Import Init.Byte.
From Verif Require Import Base Assoc BitSpec BitmapModel BitmapProofs IdModel WireModel PeersModel PeersSpec PeersProofs PeersProps ManagerModel ManagerSpec ManagerProofs ManagerProofs2.
Import ListNotations.
Set Implicit Arguments.

Definition hash0 (b : byte) : ID := repeat b 20.
Definition three : list ID := [hash0 x01; hash0 x02; hash0 x03].
Definition always (n : nat) : bool := true.
Ltac start := eexists; eexists; split; [eexists; split; [vm_compute; reflexivity|reflexivity]|].
Ltac go := eapply sr_cons; [apply sys_perm_refl|vm_compute; reflexivity|].
Ltac cgo := eapply cr_cons; [apply sys_perm_refl| |vm_compute; reflexivity|].

(** ** C29 *)
Theorem C29_limits : forall hs s, sys_reach hs s ->
  length (m_active (fst s)) <= 10 /\ count_true (bits (m_pieces (fst s))) <= 9 /\
  (exists r, m_refresh (fst s) (snd s) = Val r) /\ (forall sent, exists r, m_assign (fst s) sent = Val r).
Proof.
  intros hs s R. destruct (reach_inv_m R) as [I N]. split; [apply (i_size I)|]. split; [|split].
  - pose proof (i_weight I). pose proof (bm_weight_spec (m_pieces (fst s))). lia.
  - destruct (@refresh_spec _ _ _ I N) as (a & b & c & E & _). eauto.
  - intro f. destruct (@m_assign_spec _ _ f I) as (a & b & E & _). eauto.
Qed.
(** A state with a peer that downloads. *)
Definition ex_history : list (mevent * list mout) :=
  [(ETable (QExtend [pa 1; pa 2]), []); (ERefresh, [OSpawn (pa 1); OSpawn (pa 2)]);
   (EMsg (pa 1) (CBitfield [xa0]), []); (EMsg (pa 2) (CHave 1), []); (EMsg (pa 1) CUnchoke, [])].
Example C29_example : exists s, sys_reach three s /\ length (m_active (fst s)) = 2 /\ m_freq (fst s) = [1; 1; 1]%N.
Proof.
  eexists. split.
  - eexists. exists ex_history. split; [eexists; split; [vm_compute; reflexivity|reflexivity]|]. do 5 go. apply sr_nil.
  - split; reflexivity.
Qed.

(** ** C30 *)
(** In every history the counts are at least the number of holders. *)
Theorem C30_never_too_low : forall hs s, sys_reach hs s -> forall i, i < length hs ->
  (N.of_nat (holders (m_active (fst s)) i) <= nth i (m_freq (fst s)) 0)%N.
Proof. intros hs s R i Hi. destruct (reach_inv_m R) as [I _]. apply (i_count I Hi). Qed.
(** Part: exact as long as nobody re-announces an active peer. *)
Theorem C30_exact_partial : forall hs s0 h s, sys_start hs s0 -> calm_run s0 h s -> forall i, i < length hs ->
  nth i (m_freq (fst s)) 0%N = N.of_nat (holders (m_active (fst s)) i).
Proof. intros hs s0 h s A B i Hi. apply (k_exact (calm_run_inv B (start_inv A)) Hi). Qed.
(** What "announced" means: a have message adds exactly its piece, the first
    bitfield sets exactly its bits. *)
Theorem C30_have_recorded : forall n m p inf i m', inv n m -> In (p, inf) (m_active m) -> handle_message m p (CHave (N.of_nat i)) = Val m' ->
  exists inf', In (p, inf') (m_active m') /\ (forall j, piece_in (pi_haves inf') j <-> j = i \/ piece_in (pi_haves inf) j) /\
    forall q x, q <> p -> (In (q, x) (m_active m') <-> In (q, x) (m_active m)).
Proof.
  intros n m p inf i m' I IN H. cbn [handle_message] in H. rewrite Nat2N.id in H. pose proof (@have_inv _ _ _ _ _ I H) as (I' & _).
  unfold handle_have in H. pose proof (i_nodup I) as N. rewrite (proj2 (@aget_spec p _ inf N) IN) in H.
  destruct (bm_change (pi_haves inf) i true) as [[b old]| |] eqn:E; try discriminate. cbn [rbind fst snd] in H.
  destruct (@inb_change _ _ _ _ _ E) as (_ & _ & J).
  set (inf' := mk_pinfo (pi_choking inf) (pi_interested inf) b (pi_working inf)) in *.
  assert (A : m_active m' = aset p inf' (m_active m)).
  { destruct old; [injection H as <-; reflexivity|]. destruct (freq_inc (m_freq m) i); try discriminate. injection H as <-. reflexivity. }
  exists inf'. rewrite A. split; [|split].
  - apply aget_spec; [apply aset_nodup; auto|]. unfold aget, aset. apply mget_mset_same. apply addr_eqb_spec.
  - intro j. cbn [pi_haves inf']. rewrite <- !inb_in, J. destruct (Nat.eqb_spec j i); intuition congruence.
  - intros q x NE. rewrite <- !aget_spec by (auto using aset_nodup). unfold aget, aset. rewrite mget_mset_other; auto; [tauto|apply addr_eqb_spec].
Qed.
Theorem C30_bitfield_recorded : forall n m p inf d m', inv n m -> In (p, inf) (m_active m) -> handle_message m p (CBitfield d) = Val m' ->
  exists inf', In (p, inf') (m_active m') /\
    (bits (pi_haves inf') = if (length d =? (n + 7) / 8) && (count_true (bits (pi_haves inf)) =? 0) then bits_of d else bits (pi_haves inf)).
Proof.
  intros n m p inf d m' I IN H. cbn [handle_message] in H. unfold accept_bitfield in H. pose proof (i_nodup I) as N. rewrite (proj2 (@aget_spec p _ inf N) IN) in H.
  pose proof (bm_weight_spec (pi_haves inf)) as W. destruct (i_info I _ _ IN) as [O1 O2].
  assert (LD : length (bm_data (pi_haves inf)) = (n + 7) / 8). { destruct O1 as [_ O]. unfold bits in O. rewrite bits_of_length in O. lia. }
  destruct (N.ltb_spec 0 (bm_weight (pi_haves inf))) as [Z|Z].
  - injection H as <-. exists inf. split; auto. destruct (Nat.eqb_spec (count_true (bits (pi_haves inf))) 0); [lia|]. rewrite andb_false_r. auto.
  - rewrite bm_replace_spec, LD in H. destruct (Nat.eqb_spec (length d) ((n + 7) / 8)) as [L|L].
    + destruct (bm_bits _) as [hs| |]; try discriminate. cbn [rbind] in H. destruct (freq_add _ _ _) as [f| |]; try discriminate. cbn [rbind] in H. injection H as <-.
      eexists. split.
      * apply aget_spec; [apply aset_nodup; auto|]. unfold aget, aset. cbn. apply mget_mset_same. apply addr_eqb_spec.
      * cbn [pi_haves andb]. destruct (Nat.eqb_spec (count_true (bits (pi_haves inf))) 0); [|lia]. reflexivity.
    + injection H as <-. exists inf. split; auto.
Qed.
Example C30_example : exists s0 s, sys_start three s0 /\ calm_run s0 ex_history s.
Proof.
  eexists. eexists. split; [eexists; split; [vm_compute; reflexivity|reflexivity]|].
  cgo; [intros o p E Hp H; destruct H|]. do 4 (cgo; [intros o p E; discriminate|]). apply cr_nil.
Qed.
(** Full statement fails: hearing of an active peer again resets what it
    announced, but not the counts. *)
Theorem C30_exact_refuted : exists hs s i, sys_reach hs s /\ i < length hs /\
  nth i (m_freq (fst s)) 0%N <> N.of_nat (holders (m_active (fst s)) i).
Proof.
  exists three. eexists. exists 0. split.
  - eexists. exists [(ETable (QInsert (pa 1)), []); (ERefresh, [OSpawn (pa 1)]); (EMsg (pa 1) (CHave 0), []); (ETable (QInsert (pa 1)), []); (ERefresh, [])].
    split; [eexists; split; [vm_compute; reflexivity|reflexivity]|]. do 5 go. apply sr_nil.
  - split; [cbn; lia|]. vm_compute. discriminate.
Qed.

(** ** C31 *)
Theorem C31_selection_sound : forall m p i h, bm_len (m_local m) <= length (bits (m_local m)) ->
  select_piece m = Val (Some (p, i, h)) ->
  i < bm_len (m_local m) /\ ~ piece_in (m_local m) i /\ nth_error (m_hashes m) i = Some h /\
  exists inf, In (p, inf) (m_active m) /\ pi_choking inf = false /\ piece_in (pi_haves inf) i /\ count_true (bits (pi_working inf)) < 4.
Proof.
  intros m p i h L H. destruct (@select_sound m p i h L H) as ((A & B & _) & C & inf & D & E & F & G). split; auto. split; [unfold piece_in; congruence|].
  split; auto. exists inf. split; auto. split; auto. split; auto. pose proof (bm_weight_spec (pi_working inf)). lia.
Qed.
(** In reachable states selection never aborts, and every command sent names a
    missing piece with its checksum, an active peer, and the first piece wanted. *)
Theorem C31_commands_sound : forall hs s sent s' out, sys_reach hs s -> sys_step s (EAssign sent) = Val (s', out) ->
  forall o, In o out -> exists p h i, o = OStart p h i /\ In p (map fst (m_active (fst s))) /\ nth_error (m_hashes (fst s)) i = Some h /\
    i < length hs /\ ~ piece_in (m_local (fst s)) i.
Proof.
  intros hs s f s' out R E o Ho. destruct (reach_inv_m R) as [I N]. cbn [sys_step] in E.
  destruct (@m_assign_spec _ _ f I) as (m' & o' & H & _ & _ & _ & _ & _ & _ & _ & _ & O). rewrite H in E. injection E as <- <-.
  destruct (O o Ho) as (p & h & i & -> & _ & (A & B & _) & _ & C & D). exists p, h, i. split; auto. split; auto. split; auto. split.
  - rewrite (bo_len (i_local I)) in B. auto.
  - unfold piece_in. congruence.
Qed.
Example C31_example : exists s, sys_reach three s /\ select_piece (fst s) = Val (Some (pa 1, 0, hash0 x01)).
Proof.
  eexists. split.
  - eexists. exists ex_history. split; [eexists; split; [vm_compute; reflexivity|reflexivity]|]. do 5 go. apply sr_nil.
  - vm_compute. reflexivity.
Qed.

(** ** C32 *)
(** Part: exactly the first wanted piece is considered. *)
Theorem C32_finds_first_partial : forall hs s i, sys_reach hs s ->
  wanted (fst s) i -> (forall j, j < i -> ~ wanted (fst s) j) ->
  (exists p h, select_piece (fst s) = Val (Some (p, i, h))) <-> (exists p, suitable (fst s) i p).
Proof.
  intros hs s i R W LE. destruct (reach_inv_m R) as [I N]. destruct (select_exact I) as (r & E & H). rewrite E. split.
  - intros (p & h & X). injection X as ->. exists p. apply H.
  - intros [p P]. destruct r as [[[q j] h]|].
    + destruct H as (W' & LE' & _ & _). assert (j = i). { destruct (Nat.lt_trichotomy i j) as [X|[X|X]]; auto; exfalso; [eapply LE'|eapply LE]; eauto. }
      subst j. eauto.
    + exfalso. destruct H as [H|(j & W' & LE' & NS)]; [eapply H; eauto|].
      assert (j = i). { destruct (Nat.lt_trichotomy i j) as [X|[X|X]]; auto; exfalso; [eapply LE'|eapply LE]; eauto. } subst j. eapply NS; eauto.
Qed.
Example C32_example : exists s, sys_reach three s /\ wanted (fst s) 0 /\ suitable (fst s) 0 (pa 1).
Proof.
  eexists. split.
  - eexists. exists ex_history. split; [eexists; split; [vm_compute; reflexivity|reflexivity]|]. do 5 go. apply sr_nil.
  - split; [vm_compute; auto|]. eexists. split; [left; reflexivity|]. vm_compute. auto.
Qed.
(** Full statement fails: piece 0 is only held by a choking peer, so piece 1 is
    not requested from the peer that offers it. *)
Theorem C32_starvation_refuted : exists hs s i p, sys_reach hs s /\ wanted (fst s) i /\ suitable (fst s) i p /\
  select_piece (fst s) = Val None.
Proof.
  exists three. eexists. exists 1, (pa 2). split.
  - eexists. exists [(ETable (QExtend [pa 1; pa 2]), []); (ERefresh, [OSpawn (pa 1); OSpawn (pa 2)]);
      (EMsg (pa 1) (CHave 0), []); (EMsg (pa 2) (CHave 1), []); (EMsg (pa 2) CUnchoke, [])].
    split; [eexists; split; [vm_compute; reflexivity|reflexivity]|]. do 5 go. apply sr_nil.
  - split; [vm_compute; auto|]. split; [|vm_compute; reflexivity]. eexists. split; [right; left; reflexivity|]. vm_compute. auto.
Qed.

(** ** C33 *)
Definition is_todo (c : con_message) : Prop := match c with CRequest _ | CFinishedPiece _ _ | CCancel _ => True | _ => False end.
(** Part: which messages are survived. *)
Theorem C33_survives_partial : forall hs s p c, sys_reach hs s -> (forall j, (nth j (m_freq (fst s)) 0 < 65535)%N) ->
  ~ is_todo c -> (forall i, c = CHave i -> In p (map fst (m_active (fst s))) -> (i < N.of_nat (length hs))%N) ->
  exists m, handle_message (fst s) p c = Val m.
Proof.
  intros hs s p c R F T V. destruct (reach_inv_m R) as [I N]. destruct c; cbn [handle_message] in *; try (exfalso; apply T; exact Logic.I); eauto.
  - destruct (@inactive_spec _ _ p UnableToConnect I) as (m' & E & _). eauto.
  - destruct (@inactive_spec _ _ p Unknown I) as (m' & E & _). eauto.
  - apply (@have_spec (length hs)); auto; [|apply F]. intros inf IN. apply (in_map fst) in IN. specialize (V i eq_refl IN). lia.
  - apply (@bitfield_total (length hs)); auto.
Qed.
(** The bound on the counts holds by itself in calm histories. *)
Theorem C33_survives_calm_partial : forall hs s0 h s p c, sys_start hs s0 -> calm_run s0 h s ->
  ~ is_todo c -> (forall i, c = CHave i -> In p (map fst (m_active (fst s))) -> (i < N.of_nat (length hs))%N) ->
  exists m, handle_message (fst s) p c = Val m.
Proof.
  intros hs s0 h s p c A B T V. apply (@C33_survives_partial hs); auto.
  - exists s0, h. split; auto. apply calm_is_run. auto.
  - intro j. destruct (k_inv (calm_run_inv B (start_inv A))) as [I _]. destruct (Nat.lt_ge_cases j (length hs)) as [L|L].
    + rewrite (@C30_exact_partial hs s0 h s A B j L). pose proof (holders_le (m_active (fst s)) j). pose proof (i_size I). lia.
    + rewrite nth_overflow; [lia|]. rewrite (i_freq I). auto.
Qed.
Example C33_example : exists s, sys_reach three s /\ (exists m, handle_message (fst s) (pa 2) (CHave 2) = Val m) /\ (forall j, (nth j (m_freq (fst s)) 0 < 65535)%N).
Proof.
  eexists. split; [|split].
  - eexists. exists ex_history. split; [eexists; split; [vm_compute; reflexivity|reflexivity]|]. do 5 go. apply sr_nil.
  - eexists. vm_compute. reflexivity.
  - intro j. do 3 (destruct j as [|j]; [vm_compute; reflexivity|]). destruct j; vm_compute; reflexivity.
Qed.
(** Full statement fails, in every state: request, cancel, and a have message
    beyond the bitmap. *)
Theorem C33_request_always : forall m p r w, con_of_message (Request r) = Val w -> handle_message m p w = Panic.
Proof. intros m p r w H. injection H as <-. reflexivity. Qed.
Theorem C33_cancel_always : forall m p r w, con_of_message (Cancel r) = Val w -> handle_message m p w = Panic.
Proof. intros m p r w H. injection H as <-. reflexivity. Qed.
Theorem C33_have_always : forall hs s p i, sys_reach hs s -> In p (map fst (m_active (fst s))) ->
  8 * ((length hs + 7) / 8) <= N.to_nat i -> handle_message (fst s) p (CHave i) = Panic.
Proof.
  intros hs s p i R K L. destruct (reach_inv_m R) as [I _]. cbn [handle_message]. unfold handle_have.
  destruct (aget p (m_active (fst s))) as [inf|] eqn:G; [|apply aget_none in G; tauto].
  apply aget_spec in G; [|apply (i_nodup I)]. destruct (i_info I _ _ G) as [O1 _].
  rewrite bm_change_none; [reflexivity|]. rewrite (bo_st O1). auto.
Qed.
(** Between the number of pieces and the end of the storage: aborts unless the
    padding bit is already set. *)
Theorem C33_have_padding_always : forall hs s p inf i, sys_reach hs s -> In (p, inf) (m_active (fst s)) ->
  length hs <= N.to_nat i -> ~ piece_in (pi_haves inf) (N.to_nat i) -> handle_message (fst s) p (CHave i) = Panic.
Proof.
  intros hs s p inf i R K L NP. destruct (reach_inv_m R) as [I _]. cbn [handle_message]. unfold handle_have.
  rewrite (proj2 (@aget_spec p _ inf (i_nodup I)) K). destruct (bm_change (pi_haves inf) (N.to_nat i) true) as [[b old]| |] eqn:E; auto.
  - destruct (@inb_change _ _ _ _ _ E) as (O & _ & _). cbn [rbind fst snd]. destruct old. { exfalso. apply NP. apply inb_in. auto. }
    unfold freq_inc. replace (nth_error (m_freq (fst s)) (N.to_nat i)) with (@None N); auto. symmetry. apply nth_error_None. rewrite (i_freq I). auto.
  - exfalso. unfold bm_change in E. destruct (nth_error _ _); discriminate.
Qed.
(** A finished download aborts the manager as well. *)
Theorem C33_finished_piece_always : forall m p idx d, handle_message m p (CFinishedPiece idx d) = Panic.
Proof. reflexivity. Qed.
Theorem C33_remote_abort_refuted : exists hs s p w c, sys_reach hs s /\ In p (map fst (m_active (fst s))) /\
  con_of_message w = Val c /\ handle_message (fst s) p c = Panic.
Proof.
  exists three. eexists. exists (pa 1), (Have 8). eexists. split.
  - eexists. exists ex_history. split; [eexists; split; [vm_compute; reflexivity|reflexivity]|]. do 5 go. apply sr_nil.
  - split; [left; reflexivity|]. split; [reflexivity|]. vm_compute. reflexivity.
Qed.

(** ** C65 *)
(** All commands of one round name the same piece. *)
Theorem C65_one_piece_always : forall hs s sent s' out, sys_reach hs s -> sys_step s (EAssign sent) = Val (s', out) ->
  forall p h i p' h' i', In (OStart p h i) out -> In (OStart p' h' i') out -> i = i'.
Proof.
  intros hs s f s' out R E p h i p' h' i' H1 H2. destruct (reach_inv_m R) as [I N]. cbn [sys_step] in E.
  destruct (@m_assign_spec _ _ f I) as (m' & o' & H & _ & _ & _ & _ & _ & _ & _ & _ & O). rewrite H in E. injection E as <- <-.
  destruct (O _ H1) as (q & k & j & X & _ & W & LE & _). injection X as <- <- <-.
  destruct (O _ H2) as (q' & k' & j' & X & _ & W' & LE' & _). injection X as <- <- <-.
  destruct (Nat.lt_trichotomy i i') as [X|[X|X]]; auto; exfalso; [eapply LE'|eapply LE]; eauto.
Qed.
(** One tick hands the same piece to the same peer nine times, though another
    piece is available from it. *)
Theorem C65_distinct_assignments_refuted : exists hs s s' p h i, sys_reach hs s /\
  sys_step s (EAssign always) = Val (s', repeat (OStart p h i) 9) /\
  (exists j, j <> i /\ wanted (fst s) j /\ suitable (fst s) j p).
Proof.
  exists three. eexists. eexists. exists (pa 1), (hash0 x01), 0. split.
  - eexists. exists ex_history. split; [eexists; split; [vm_compute; reflexivity|reflexivity]|]. do 5 go. apply sr_nil.
  - split; [vm_compute; reflexivity|]. exists 2. split; [lia|]. split; [vm_compute; auto|]. eexists. split; [left; reflexivity|]. vm_compute. auto.
Qed.
(** ... and the next tick does it again. *)
Theorem C65_again_next_tick_refuted : exists hs s s' s'' p h i, sys_reach hs s /\
  sys_step s (EAssign always) = Val (s', repeat (OStart p h i) 9) /\ sys_step s' (EAssign always) = Val (s'', repeat (OStart p h i) 8).
Proof.
  exists three. eexists. eexists. eexists. exists (pa 1), (hash0 x01), 0. split.
  - eexists. exists ex_history. split; [eexists; split; [vm_compute; reflexivity|reflexivity]|]. do 5 go. apply sr_nil.
  - split; vm_compute; reflexivity.
Qed.

(** ** C66 *)
Lemma step_conn : forall n s e s' out, sys_inv n s -> sys_step s e = Val (s', out) ->
  (forall p, In p (m_conn (fst s)) -> In p (m_conn (fst s')) /\ ~ In (OSpawn p) out) /\
  (forall p, In (OSpawn p) out -> In p (m_conn (fst s'))).
Proof.
  intros n [m t] e s' out [I N] E. destruct e as [p c| |f|o]; cbn [sys_step fst snd] in *.
  - destruct (handle_message m p c) as [m'| |] eqn:H; try discriminate. injection E as <- <-. destruct (@message_inv n m p c m' I H) as (_ & _ & C & _).
    cbn [fst]. rewrite C. split; [|intros q []]. intros q Hq. split; auto.
  - destruct (@refresh_spec n m t I N) as (m' & t' & o' & H & _ & _ & _ & D). rewrite H in E. injection E as <- <-. cbn [fst].
    destruct D as [D|(ps & _ & _ & _ & _ & _ & C & S)].
    + injection D as -> -> ->. split; [|intros q []]. intros q Hq. split; auto.
    + split.
      * intros q Hq. split; [apply C; auto|]. intro X. destruct (S _ X) as (q' & Y & _ & Z). injection Y as <-. auto.
      * intros q Hq. destruct (S _ Hq) as (q' & Y & Z & _). injection Y as <-. apply C. auto.
  - destruct (@m_assign_spec n m f I) as (m' & o' & H & _ & _ & _ & _ & C & _ & _ & _ & O). rewrite H in E. injection E as <- <-. cbn [fst]. rewrite C. split.
    + intros q Hq. split; auto. intro X. destruct (O _ X) as (? & ? & ? & Y & _). discriminate.
    + intros q X. destruct (O _ X) as (? & ? & ? & Y & _). discriminate.
  - destruct (q_step t o) as [[t' o']| |] eqn:H; try discriminate. injection E as <- <-. split; [|intros q []]. intros q Hq. split; auto.
Qed.
(** In every history each peer is contacted at most once, ever. *)
Theorem C66_contacted_once_always : forall hs s0 h s p, sys_start hs s0 -> sys_run s0 h s ->
  forall a e out b, h = a ++ (e, out) :: b -> In (OSpawn p) out -> forall e' out', In (e', out') b -> ~ In (OSpawn p) out'.
Proof.
  intros hs s0 h s p A R. pose proof (k_inv (start_inv A)) as SI. clear A. revert SI. generalize (length hs). intros n SI.
  assert (KEEP : forall s h s', sys_run s h s' -> sys_inv n s -> In p (m_conn (fst s)) -> forall e' out', In (e', out') h -> ~ In (OSpawn p) out').
  { clear. induction 1 as [|s s1 e s2 out h s' P E R IH]; intros SI HC e' out' H; [destruct H|].
    pose proof (perm_inv SI P) as S1. assert (HC1 : In p (m_conn (fst s1))) by (destruct P as (a & t & _ & _ & ->); auto).
    destruct (step_conn _ S1 E) as [K _]. destruct (K p HC1) as [K1 K2]. destruct H as [H|H]; [injection H as <- <-; auto|].
    eapply IH; eauto. eapply step_inv; eauto. }
  induction R as [|s s1 e s2 out h s' P E R IH]; intros a e0 out0 b EQ HS e' out' HB; [destruct a; discriminate|].
  pose proof (perm_inv SI P) as S1. pose proof (step_inv _ S1 E) as S2.
  destruct a as [|x a]; cbn [app] in EQ.
  - injection EQ as -> -> ->. destruct (step_conn _ S1 E) as [_ K]. eapply KEEP; eauto.
  - injection EQ as EQ1 EQ2. eapply IH; eauto.
Qed.
(** So a peer that was unreachable once and is tried again occupies a slot
    although nothing talks to it. *)
Theorem C66_retry_refuted : exists hs s0 h s p, sys_start hs s0 /\ sys_run s0 h s /\
  h = [(ETable (QInsert p), []); (ERefresh, [OSpawn p]); (EMsg p CUnreachable, []); (ERefresh, [])] /\
  In p (map fst (m_active (fst s))).
Proof.
  exists three. eexists. exists [(ETable (QInsert (pa 1)), []); (ERefresh, [OSpawn (pa 1)]); (EMsg (pa 1) CUnreachable, []); (ERefresh, [])]. eexists. exists (pa 1). split; [eexists; split; [vm_compute; reflexivity|reflexivity]|]. split; [do 4 go; apply sr_nil|].
  split; [reflexivity|]. left. reflexivity.
Qed.
(** Part: a peer that was never contacted before is contacted when it gets a
    slot. *)
Theorem C66_new_peers_contacted_partial : forall hs s s' out p, sys_reach hs s -> sys_step s ERefresh = Val (s', out) ->
  In p (map fst (m_active (fst s'))) -> ~ In p (map fst (m_active (fst s))) -> ~ In p (m_conn (fst s)) -> In (OSpawn p) out.
Proof.
  intros hs [m t] s' out p R E H1 H2 H3. destruct (reach_inv_m R) as [I N]. cbn [sys_step fst snd] in *.
  unfold m_refresh in E. destruct (_ <? _); try discriminate. destruct (_ =? 0). { injection E as <- <-. cbn in H1. tauto. }
  destruct (q_batch t (m_inactive m) _) as [[t' ps]| |]; try discriminate. cbn [rbind fst snd] in E.
  destruct (add_peers (with_inactive m []) ps) as [[m' o]| |] eqn:A; try discriminate. cbn in E. injection E as <- <-. cbn [fst] in H1.
  assert (G : forall ps m m' o, add_peers m ps = Val (m', o) -> In p (map fst (m_active m')) -> ~ In p (map fst (m_active m)) -> ~ In p (m_conn m) -> In (OSpawn p) o).
  { clear. induction ps as [|q ps IH]; intros m m' o A H1 H2 H3; cbn [add_peers] in A. { injection A as <- <-. tauto. }
    destruct (pi_new _) as [i| |]; try discriminate. cbn [rbind] in A.
    destruct (add_peers _ ps) as [[m1 o1]| |] eqn:E; try discriminate. injection A as <- <-. cbn [fst snd] in *.
    destruct (addr_dec p q) as [->|NE].
    - apply in_or_app. left. unfold c_connect. destruct (existsb (addr_eqb q) (m_conn m)) eqn:X; [|left; auto]. apply existsb_addr in X. tauto.
    - apply in_or_app. right. eapply IH; eauto; cbn [with_active with_conn m_active m_conn].
      + rewrite aset_in_keys. tauto.
      + unfold c_connect. destruct (existsb _ _); cbn; intuition congruence. }
  eapply G; eauto.
Qed.
Example C66_example : exists s s', sys_reach three s /\ sys_step s ERefresh = Val (s', [OSpawn (pa 1)]).
Proof.
  eexists. eexists. split.
  - eexists. exists [(ETable (QInsert (pa 1)), [])]. split; [eexists; split; [vm_compute; reflexivity|reflexivity]|]. go. apply sr_nil.
  - vm_compute. reflexivity.
Qed.

(** ** C67 *)
(** A slot for an active piece is never freed. *)
Theorem C67_slots_never_freed_always : forall hs s e s' out i, sys_reach hs s -> sys_step s e = Val (s', out) ->
  piece_in (m_pieces (fst s)) i -> piece_in (m_pieces (fst s')) i.
Proof.
  intros hs [m t] e s' out i R E P. destruct (reach_inv_m R) as [I N]. destruct e as [p c| |f|o]; cbn [sys_step fst snd] in *.
  - destruct (handle_message m p c) as [m'| |] eqn:H; try discriminate. injection E as <- <-. cbn [fst].
    replace (m_pieces m') with (m_pieces m); auto. clear - H. destruct c; cbn [handle_message] in H; try discriminate; try (injection H as <-; reflexivity); try (injection H as <-; unfold modify; destruct (aget _ _); reflexivity).
    + unfold mark_inactive in H. destruct (aget p (m_active m)) as [o|]; [|injection H as <-; auto]. destruct (bm_bits _); try discriminate. cbn [rbind] in H. destruct (freq_dec _ _); try discriminate. injection H as <-. reflexivity.
    + unfold mark_inactive in H. destruct (aget p (m_active m)) as [o|]; [|injection H as <-; auto]. destruct (bm_bits _); try discriminate. cbn [rbind] in H. destruct (freq_dec _ _); try discriminate. injection H as <-. reflexivity.
    + unfold handle_have in H. destruct (aget p (m_active m)) as [o|]; [|injection H as <-; auto]. destruct (bm_change _ _ _) as [[b []]| |]; try discriminate; cbn [rbind snd fst] in H; [injection H as <-; auto|].
      destruct (freq_inc _ _); try discriminate. injection H as <-. reflexivity.
    + unfold accept_bitfield in H. destruct (aget p (m_active m)) as [o|]; [|injection H as <-; auto]. destruct (N.ltb 0 (bm_weight (pi_haves o))); [injection H as <-; auto|].
      destruct (bm_replace_data (pi_haves o) b) as [b'| |]; [|injection H as <-; auto|discriminate]. destruct (bm_bits b'); try discriminate. cbn [rbind] in H. destruct (freq_add _ _ _); try discriminate. injection H as <-. reflexivity.
  - destruct (@refresh_spec _ m t I N) as (m' & t' & o' & H & _ & _ & Q & _). rewrite H in E. injection E as <- <-. cbn [fst]. rewrite Q. auto.
  - destruct (@m_assign_spec _ m f I) as (m' & o' & H & _ & _ & _ & _ & _ & _ & _ & Q & _). rewrite H in E. injection E as <- <-. cbn [fst]. auto.
  - destruct (q_step t o) as [[t' o']| |] eqn:H; try discriminate. injection E as <- <-. auto.
Qed.
(** So an active piece may have nobody working on it. *)
Theorem C67_active_piece_has_worker_refuted : exists hs s i, sys_reach hs s /\ piece_in (m_pieces (fst s)) i /\
  forall p inf, In (p, inf) (m_active (fst s)) -> ~ piece_in (pi_working inf) i.
Proof.
  exists three. eexists. exists 0. split.
  - eexists. exists (ex_history ++ [(EAssign always, repeat (OStart (pa 1) (hash0 x01) 0) 9); (EMsg (pa 1) CDisconnected, [])]).
    split; [eexists; split; [vm_compute; reflexivity|reflexivity]|]. unfold ex_history. cbn [app]. do 7 go. apply sr_nil.
  - split; [vm_compute; reflexivity|]. intros p inf [H|[]]. injection H as <- <-. vm_compute. discriminate.
Qed.
(** Part: when a piece is assigned the peer is marked as working on it. *)
Theorem C67_marked_partial : forall n m p i m', inv n m -> In p (map fst (m_active m)) -> mark_ongoing m p i = Val m' ->
  piece_in (m_pieces m') i /\ exists inf, In (p, inf) (m_active m') /\ piece_in (pi_working inf) i.
Proof.
  intros n m p i m' I K H. unfold mark_ongoing in H. destruct (aget p (m_active m)) as [o|] eqn:G; [|apply aget_none in G; tauto]. cbn [rbind] in H.
  destruct (bm_change (m_pieces m) i true) as [[b old]| |] eqn:E; try discriminate. cbn [rbind] in H.
  destruct (bm_change (pi_working o) i true) as [[w oldw]| |] eqn:Ew; try discriminate. cbn [rbind fst] in H. injection H as <-.
  cbn [with_pieces with_active m_pieces m_active]. split.
  - destruct (@inb_change _ _ _ _ _ E) as (_ & _ & J). apply inb_in. rewrite J, Nat.eqb_refl. auto.
  - eexists. split.
    + apply aget_spec; [apply aset_nodup; apply (i_nodup I)|]. unfold aget, aset. apply mget_mset_same. apply addr_eqb_spec.
    + cbn [pi_working]. destruct (@inb_change _ _ _ _ _ Ew) as (_ & _ & J). apply inb_in. rewrite J, Nat.eqb_refl. auto.
Qed.

(** ** C70 *)
(** What the table is told about a peer that is gone. *)
Definition reported (c : con_message) : option status :=
  match c with CUnreachable => Some UnableToConnect | CDisconnected => Some Unknown | _ => None end.
(** An active peer that is gone frees its place at once, and the next refresh
    tells the table; then it is given out again or has the reported status. *)
Theorem C70_gone_returned : forall hs s p c st, sys_reach hs s -> In p (map fst (m_active (fst s))) -> reported c = Some st ->
  exists s1 s2 out, sys_step s (EMsg p c) = Val (s1, []) /\
    (forall q, In q (map fst (m_active (fst s1))) <-> q <> p /\ In q (map fst (m_active (fst s)))) /\
    sys_step s1 ERefresh = Val (s2, out) /\ m_inactive (fst s2) = [] /\
    (status_of (snd s2) p Active /\ In p (map fst (m_active (fst s2))) \/ status_of (snd s2) p st /\ ~ In p (map fst (m_active (fst s2)))).
Proof.
  intros hs [m t] p c st R A RC. destruct (reach_inv_m R) as [I N]. cbn [fst snd] in *.
  assert (H : exists m1, handle_message m p c = Val m1 /\ inv (length hs) m1 /\ m_active m1 = adel p (m_active m) /\ m_inactive m1 = m_inactive m ++ [(p, st)]).
  { destruct c; try discriminate; cbn [reported] in RC; injection RC as <-; cbn [handle_message].
    - destruct (@inactive_spec _ _ p UnableToConnect I) as (m1 & E & I1 & _ & D & F & _). exists m1. destruct F as [F|[_ F]]; [auto|contradiction].
    - destruct (@inactive_spec _ _ p Unknown I) as (m1 & E & I1 & _ & D & F & _). exists m1. destruct F as [F|[_ F]]; [auto|contradiction]. }
  destruct H as (m1 & E1 & I1 & D1 & F1).
  assert (K1 : forall q, In q (map fst (m_active m1)) <-> q <> p /\ In q (map fst (m_active m))).
  { intro q. rewrite D1. apply adel_keys. apply (i_nodup I). }
  assert (L : length (m_active m1) < 10).
  { pose proof (i_size I). rewrite D1. unfold adel. rewrite length_mdel.
    assert (X : mhas addr_eqb p (m_active m) = true) by (apply (mhas_in _ addr_eqb_spec); exact A). rewrite X.
    assert (m_active m <> []) by (intro Z; rewrite Z in A; destruct A). destruct (m_active m); [congruence|]. cbn [length] in *. lia. }
  destruct (@C25_batch t (m_inactive m1) (10 - length (m_active m1)) N) as (t1 & t' & ps & E & N1 & ST & G).
  destruct (@add_peers_spec ps (length hs) (with_inactive m1 []) (inv_inactive [] I1)) as (m2 & out & E' & I' & X' & K' & Q' & P' & C' & S').
  { cbn [with_inactive m_active]. pose proof (gb_size G). lia. }
  exists (m1, t), (m2, t'), out. cbn [sys_step fst snd]. rewrite E1. split; [reflexivity|]. split; [exact K1|]. split.
  - unfold m_refresh, MAX_ACTIVE_PEERS. destruct (Nat.ltb_spec 10 (length (m_active m1))); [lia|].
    destruct (Nat.eqb_spec (10 - length (m_active m1)) 0); [lia|]. rewrite E. cbn [rbind fst snd]. rewrite E'. reflexivity.
  - split; [rewrite Q'; reflexivity|]. assert (LR : last_returned (m_inactive m1) p = Some st).
    { rewrite F1. unfold last_returned. rewrite fold_left_app. cbn [fold_left fst snd]. rewrite (proj2 (addr_eqb_spec p p) eq_refl). reflexivity. }
    assert (S1 : status_of t1 p st). { apply ST. rewrite LR. reflexivity. }
    destruct (in_dec addr_dec p ps) as [IP|IP].
    + left. split; [apply (gb_marked G); auto|]. apply K'. auto.
    + right. split; [apply (gb_frame G); auto|]. intro Z. apply K' in Z as [Z|Z]; [auto|]. cbn [with_inactive m_active] in Z. apply K1 in Z. tauto.
Qed.
Example C70_example : exists s, sys_reach three s /\ In (pa 1) (map fst (m_active (fst s))).
Proof.
  eexists. split.
  - eexists. exists ex_history. split; [eexists; split; [vm_compute; reflexivity|reflexivity]|]. do 5 go. apply sr_nil.
  - left. reflexivity.
Qed.

Print Assumptions C29_limits.
Print Assumptions C30_never_too_low.
Print Assumptions C30_exact_partial.
Print Assumptions C30_have_recorded.
Print Assumptions C30_bitfield_recorded.
Print Assumptions C30_exact_refuted.
Print Assumptions C31_selection_sound.
Print Assumptions C31_commands_sound.
Print Assumptions C32_finds_first_partial.
Print Assumptions C32_starvation_refuted.
Print Assumptions C33_survives_partial.
Print Assumptions C33_survives_calm_partial.
Print Assumptions C33_have_always.
Print Assumptions C33_have_padding_always.
Print Assumptions C33_remote_abort_refuted.
Print Assumptions C65_one_piece_always.
Print Assumptions C65_distinct_assignments_refuted.
Print Assumptions C65_again_next_tick_refuted.
Print Assumptions C66_contacted_once_always.
Print Assumptions C66_retry_refuted.
Print Assumptions C66_new_peers_contacted_partial.
Print Assumptions C67_slots_never_freed_always.
Print Assumptions C67_active_piece_has_worker_refuted.
Print Assumptions C67_marked_partial.
Print Assumptions C70_gone_returned.
