(** Proofs about the torrent manager: ticks and whole runs. *)
From Coq Require Import List NArith ZArith Lia Bool Arith Permutation.
From Verif Require Import Base Assoc BitSpec BitmapModel BitmapProofs IdModel WireModel PeersModel PeersSpec PeersProofs PeersProps ManagerModel ManagerSpec ManagerProofs.
Import ListNotations.
Set Implicit Arguments.

(** ** taking new peers *)
Lemma pi_new_ok : forall n, 0 < n -> exists i, pi_new n = Val i /\ bm_ok n (pi_haves i) /\ bm_ok n (pi_working i) /\ (forall j, piece_inb (pi_haves i) j = false) /\ pi_choking i = true.
Proof.
  intros n H. destruct (bm_ok_new_total H) as (b & E & O). unfold pi_new. rewrite E. cbn [rbind]. eexists. split; [reflexivity|].
  cbn [pi_haves pi_working pi_choking]. split; [auto|]. split; [auto|]. split; [|auto]. intro j. rewrite inb_nth. apply bm_ok_new in E as (_ & B & _). rewrite B.
  apply nth_repeat.
Qed.
Definition spawns (conn ps : list addr) (out : list mout) : Prop :=
  (forall o, In o out -> exists p, o = OSpawn p /\ In p ps /\ ~ In p conn).
Lemma existsb_addr : forall p l, existsb (addr_eqb p) l = true <-> In p l.
Proof.
  intros. rewrite existsb_exists. split.
  - intros (x & H & E). apply addr_eqb_spec in E. subst. auto.
  - intro H. exists p. split; auto. apply addr_eqb_spec. auto.
Qed.
Lemma add_peers_spec : forall ps n m, inv n m -> length (m_active m) + length ps <= 10 ->
  exists m' out, add_peers m ps = Val (m', out) /\ inv n m' /\
    ((forall p, In p ps -> ~ In p (map fst (m_active m))) -> NoDup ps -> exact n m -> exact n m') /\
    (forall q, In q (map fst (m_active m')) <-> In q ps \/ In q (map fst (m_active m))) /\
    m_inactive m' = m_inactive m /\ m_pieces m' = m_pieces m /\
    (forall q, In q (m_conn m') <-> In q ps \/ In q (m_conn m)) /\ spawns (m_conn m) ps out.
Proof.
  induction ps as [|p t IH]; intros n m I L; cbn [add_peers].
  - exists m, []. split; [reflexivity|]. do 2 (split; [auto|]). split; [intro; cbn; tauto|]. do 2 (split; [auto|]). split; [intro; cbn; tauto|]. intros o [].
  - destruct (@pi_new_ok (bm_len (m_local m))) as (i & E & O1 & O2 & Z & _). { rewrite (bo_len (i_local I)). apply (i_pos I). }
    rewrite E. cbn [rbind]. rewrite (bo_len (i_local I)) in O1, O2.
    set (c := c_connect (m_conn m) p).
    set (m1 := with_active (with_conn m (fst c)) (aset p i (m_active m))).
    assert (C : forall q, In q (fst c) <-> q = p \/ In q (m_conn m)).
    { intro q. subst c. unfold c_connect. destruct (existsb (addr_eqb p) (m_conn m)) eqn:X; cbn [fst].
      - apply existsb_addr in X. split; auto. intros [->|]; auto.
      - cbn. intuition congruence. }
    assert (HH : forall j, holders (aset p i (m_active m)) j + match aget p (m_active m) with Some o => b1 (piece_inb (pi_haves o) j) | None => 0 end = holders (m_active m) j).
    { intro j. rewrite (holders_aset (m_active m) p i j), Z. cbn. lia. }
    assert (I1 : inv n m1).
    { pose proof I as II. destruct II. subst m1. split; cbn [with_conn with_active m_hashes m_freq m_assigned m_local m_pieces m_active]; auto.
      - apply aset_nodup; auto.
      - destruct (in_dec addr_dec p (map fst (m_active m))).
        + rewrite <- (map_length fst), aset_keys, map_length; auto.
        + rewrite aset_keys_new by auto. rewrite app_length. cbn [length] in *. lia.
      - intros q o H. apply aset_in in H as [H|H]; [|eapply i_info; eauto]. injection H as -> ->. auto.
      - intros j Hj. specialize (HH j). pose proof (i_count j Hj). lia. }
    destruct (IH n m1 I1) as (m' & out & E' & I' & X' & K' & Q' & P' & C' & S').
    { subst m1. cbn [with_active m_active]. cbn [length] in L. destruct (in_dec addr_dec p (map fst (m_active m))).
      - rewrite <- (map_length fst), aset_keys, map_length; auto. lia.
      - rewrite aset_keys_new by auto. rewrite app_length. cbn [length] in *. lia. }
    rewrite E'. cbn [rmap fst snd]. do 2 eexists. split; [reflexivity|]. split; [auto|]. split; [|split; [|split; [|split; [|split]]]]; auto.
    + intros D ND X. inversion ND as [|? ? NI ND']; subst. apply X'; auto.
      * intros q Hq. subst m1. cbn [with_active m_active]. rewrite aset_in_keys. intros [->|H]; auto. apply (D q); auto. right; auto.
      * intros j Hj. subst m1. cbn [with_conn with_active m_freq m_active]. rewrite X by auto. specialize (HH j).
        assert (G : aget p (m_active m) = None) by (apply aget_none; apply D; left; auto). rewrite G in HH. lia.
    + intro q. rewrite K'. subst m1. cbn [with_active m_active]. rewrite aset_in_keys. cbn. intuition congruence.
    + intro q. rewrite C'. subst m1. cbn [with_active with_conn m_conn]. rewrite C. cbn. intuition congruence.
    + intros o H. apply in_app_or in H as [H|H].
      * subst c. unfold c_connect in H. destruct (existsb (addr_eqb p) (m_conn m)) eqn:X; cbn [snd] in H; [destruct H|].
        destruct H as [<-|[]]. exists p. split; auto. split; [left; auto|]. intro Y. apply existsb_addr in Y. congruence.
      * destruct (S' _ H) as (q & -> & Hq & HN). exists q. split; auto. split; [right; auto|]. intro Y. apply HN.
        subst m1. cbn [with_active with_conn m_conn]. rewrite C. auto.
Qed.
Lemma refresh_spec : forall n m tab, inv n m -> NoDup (map fst tab) ->
  exists m' tab' out, m_refresh m tab = Val (m', tab', out) /\ inv n m' /\ NoDup (map fst tab') /\ m_pieces m' = m_pieces m /\
   ((m', tab', out) = (m, tab, []) \/
    exists ps, q_batch tab (m_inactive m) (10 - length (m_active m)) = Val (tab', ps) /\ NoDup ps /\
      ((forall p, In p ps -> ~ In p (map fst (m_active m))) -> exact n m -> exact n m') /\
      (forall q, In q (map fst (m_active m')) <-> In q ps \/ In q (map fst (m_active m))) /\ m_inactive m' = [] /\
      (forall q, In q (m_conn m') <-> In q ps \/ In q (m_conn m)) /\ spawns (m_conn m) ps out).
Proof.
  intros n m tab I N. unfold m_refresh. pose proof (i_size I) as SZ. unfold MAX_ACTIVE_PEERS.
  destruct (Nat.ltb_spec 10 (length (m_active m))); [lia|].
  destruct (Nat.eqb_spec (10 - length (m_active m)) 0) as [Z|Z].
  - do 3 eexists. split; [reflexivity|]. do 3 (split; [auto|]). left; auto.
  - destruct (@C25_batch tab (m_inactive m) (10 - length (m_active m)) N) as (t1 & t' & ps & E & N1 & _ & G).
    rewrite E. cbn [rbind fst snd].
    destruct (@add_peers_spec ps n (with_inactive m []) (inv_inactive [] I)) as (m' & out & E' & I' & X' & K' & Q' & P' & C' & S').
    { cbn [with_inactive m_active]. pose proof (gb_size G). lia. }
    rewrite E'. cbn [rmap fst snd]. do 3 eexists. split; [reflexivity|]. split; [auto|]. split; [rewrite (gb_same_peers G); auto|].
    split; [auto|]. right. exists ps. split; [auto|]. split; [apply (gb_nodup G)|]. split; [|auto].
    intros D X. apply X'; auto. apply (gb_nodup G).
Qed.

(** ** choosing pieces *)
Lemma find_peer_spec : forall i k ps, (forall p inf, In (p, inf) ps -> i < length (bits (pi_haves inf))) ->
  exists r, find_peer ps i k = Val r /\
   match r with
   | Some p => exists inf, In (p, inf) ps /\ pi_choking inf = false /\ piece_in (pi_haves inf) i /\ bm_weight (pi_working inf) = N.of_nat k
   | None => forall p inf, In (p, inf) ps -> pi_choking inf = false -> piece_in (pi_haves inf) i -> bm_weight (pi_working inf) <> N.of_nat k
   end.
Proof.
  induction ps as [|[p inf] t IH]; intros L; cbn [find_peer].
  - exists None. split; [reflexivity|]. intros p inf [].
  - destruct IH as (r & E & R). { intros q j H. apply (L q j). right; auto. }
    assert (ST : forall r', (r' = r) -> match r' with
      | Some p0 => exists inf0, In (p0, inf0) ((p, inf) :: t) /\ pi_choking inf0 = false /\ piece_in (pi_haves inf0) i /\ bm_weight (pi_working inf0) = N.of_nat k
      | None => (pi_choking inf = true \/ ~ piece_in (pi_haves inf) i \/ bm_weight (pi_working inf) <> N.of_nat k) ->
         forall p0 inf0, In (p0, inf0) ((p, inf) :: t) -> pi_choking inf0 = false -> piece_in (pi_haves inf0) i -> bm_weight (pi_working inf0) <> N.of_nat k end).
    { intros r' ->. destruct r as [q|].
      - destruct R as (j & A & B). exists j. split; auto. right; auto.
      - intros D q j [H|H] C P; [|eapply R; eauto]. injection H as -> ->. destruct D as [D|[D|D]]; congruence. }
    destruct (pi_choking inf) eqn:CH.
    + exists r. split; auto. pose proof (ST r eq_refl) as S1. destruct r; [exact S1|apply S1; left; auto].
    + assert (LI : i < length (bits (pi_haves inf))) by (apply (L p); left; auto).
      rewrite bm_get_spec. destruct (nth_error (bits (pi_haves inf)) i) as [v|] eqn:NV; [|apply nth_error_None in NV; lia].
      cbn [rbind]. destruct v; cbn [andb].
      * destruct (N.eqb_spec (bm_weight (pi_working inf)) (N.of_nat k)) as [W|W].
        -- exists (Some p). split; auto. exists inf. split; [left; auto|auto].
        -- exists r. split; auto. pose proof (ST r eq_refl) as S1. destruct r; [exact S1|apply S1; right; right; auto].
      * exists r. split; auto. pose proof (ST r eq_refl) as S1. destruct r; [exact S1|]. apply S1. right. left. unfold piece_in. congruence.
Qed.
(** soundness of [find_peer] without assumptions *)
Lemma find_peer_sound : forall i k ps p, find_peer ps i k = Val (Some p) ->
  exists inf, In (p, inf) ps /\ pi_choking inf = false /\ piece_in (pi_haves inf) i /\ bm_weight (pi_working inf) = N.of_nat k.
Proof.
  induction ps as [|[q inf] t IH]; intros p H; cbn [find_peer] in H; [discriminate|].
  destruct (pi_choking inf) eqn:CH. { destruct (IH _ H) as (j & A & B). exists j. split; auto. right; auto. }
  rewrite bm_get_spec in H. destruct (nth_error (bits (pi_haves inf)) i) as [v|] eqn:NV; [|discriminate]. cbn [rbind] in H.
  destruct (v && (bm_weight (pi_working inf) =? N.of_nat k)%N) eqn:C.
  - injection H as ->. apply andb_true_iff in C as [-> W]. apply N.eqb_eq in W. exists inf. split; [left; auto|auto].
  - destruct (IH _ H) as (j & A & B). exists j. split; auto. right; auto.
Qed.
Lemma remaining_in : forall bs f a k i, In i (remaining_from k bs f a) ->
  k <= i /\ nth_error bs (i - k) = Some false /\ (0 < fr f (i - k))%N.
Proof.
  induction bs as [|b bs IH]; intros f a k i H; [destruct H|]. destruct f as [|x f]; [destruct H|]. destruct a as [|y a]; [destruct H|].
  cbn [remaining_from] in H.
  assert (R : In i (remaining_from (S k) bs f a) -> k <= i /\ nth_error (b :: bs) (i - k) = Some false /\ (0 < fr (x :: f) (i - k))%N).
  { intro HI. apply IH in HI as (A & B & C). replace (i - k) with (S (i - S k)) by lia. split; [lia|]. split; auto. }
  destruct b; cbn [negb andb] in H; auto. destruct (N.ltb_spec 0 x) as [X|X]; cbn [andb] in H; auto. destruct H as [<-|H]; auto.
  rewrite Nat.sub_diag. split; auto.
Qed.
Lemma remaining_complete : forall bs f a k i, length f = length bs -> length a = length bs -> k <= i -> nth_error bs (i - k) = Some false -> (0 < fr f (i - k))%N ->
  In i (remaining_from k bs f a).
Proof.
  induction bs as [|b bs IH]; intros f a k i L1 L2 K B F. { destruct (i - k); discriminate. }
  destruct f as [|x f]; [discriminate|]. destruct a as [|y a]; [discriminate|]. cbn [length] in *. cbn [remaining_from].
  destruct (Nat.eq_dec i k) as [->|NE].
  - rewrite Nat.sub_diag in *. cbn in B. injection B as ->. unfold fr in F. cbn [nth] in F. destruct (N.ltb_spec 0 x); [|lia]. left; auto.
  - replace (i - k) with (S (i - S k)) in * by lia. assert (In i (remaining_from (S k) bs f a)) by (apply IH; auto; lia).
    destruct (negb b && (0 <? x)%N); auto. right; auto.
Qed.
Lemma remaining_head : forall bs f a k i t, remaining_from k bs f a = i :: t -> length f = length bs -> length a = length bs ->
  forall j, k <= j -> j < i -> ~ (nth_error bs (j - k) = Some false /\ (0 < fr f (j - k))%N).
Proof.
  induction bs as [|b bs IH]; intros f a k i t H L1 L2 j K J [B F]; [discriminate|].
  destruct f as [|x f]; [discriminate|]. destruct a as [|y a]; [discriminate|]. cbn [length remaining_from] in *.
  destruct (negb b && (0 <? x)%N) eqn:C; [injection H as <- <-; lia|].
  destruct (Nat.eq_dec j k) as [->|NE].
  - rewrite Nat.sub_diag in *. cbn in B. injection B as ->. unfold fr in F. cbn [nth negb andb] in *. destruct (N.ltb_spec 0 x); [discriminate|lia].
  - replace (j - k) with (S (j - S k)) in * by lia. apply (@IH f a (S k) i t H ltac:(lia) ltac:(lia) j ltac:(lia) J). split; [exact B|exact F].
Qed.
(** A piece that is still missing and that somebody has, as far as the counts
    tell. *)
Definition wanted (m : mgr) (i : nat) : Prop := nth_error (bits (m_local m)) i = Some false /\ i < bm_len (m_local m) /\ (0 < fr (m_freq m) i)%N.
Lemma first_with_in : forall a c l i, first_with a c l = Val (Some i) -> In i l /\ nth_error a i = Some (N.of_nat c).
Proof.
  induction l as [|x l IH]; intros i H; cbn [first_with] in H; [discriminate|].
  destruct (nth_error a x) as [y|] eqn:E; [|discriminate]. destruct (N.eqb_spec y (N.of_nat c)).
  - injection H as ->. subst. split; auto. left; auto.
  - apply IH in H as [A B]. split; auto. right; auto.
Qed.
Lemma sel_loop_sound : forall m rem ks p i, sel_loop m rem ks = Val (Some (p, i)) ->
  exists k, In k ks /\ In i rem /\ nth_error (m_assigned m) i = Some (N.of_nat (k / 4)) /\ find_peer (m_active m) i (k mod 4) = Val (Some p).
Proof.
  induction ks as [|k ks IH]; intros p i H; cbn [sel_loop] in H; [discriminate|].
  destruct (first_with (m_assigned m) (k / MAX_PIECE_PER_PEER) rem) as [[j|]| |] eqn:E; try discriminate; cbn [rbind] in H.
  - destruct (find_peer (m_active m) j (k mod MAX_PIECE_PER_PEER)) as [[q|]| |] eqn:F; try discriminate; cbn [rbind] in H.
    + injection H as -> ->. apply first_with_in in E as [A B]. exists k. split; [left; auto|auto].
    + destruct (IH _ _ H) as (k' & A & B). exists k'. split; auto. right; auto.
  - destruct (IH _ _ H) as (k' & A & B). exists k'. split; auto. right; auto.
Qed.
Lemma select_sound : forall m p i h, bm_len (m_local m) <= length (bits (m_local m)) -> select_piece m = Val (Some (p, i, h)) ->
  wanted m i /\ nth_error (m_hashes m) i = Some h /\
  exists inf, In (p, inf) (m_active m) /\ pi_choking inf = false /\ piece_in (pi_haves inf) i /\ (bm_weight (pi_working inf) < 4)%N.
Proof.
  intros m p i h L H. unfold select_piece, sequential_select, remaining in H. rewrite bm_bits_spec in H by (unfold bits in L; rewrite bits_of_length in L; auto).
  cbn [rmap rbind] in H. destruct (sel_loop m _ _) as [[[q j]|]| |] eqn:E; try discriminate. cbn [rbind] in H.
  destruct (nth_error (m_hashes m) j) as [h'|] eqn:EH; [|discriminate]. injection H as -> -> ->.
  apply sel_loop_sound in E as (k & Hk & Hi & _ & F). apply remaining_in in Hi as (_ & B & C). rewrite Nat.sub_0_r in *.
  apply find_peer_sound in F as (inf & A1 & A2 & A3 & A4). split; [|split; auto].
  - unfold wanted. assert (i < bm_len (m_local m)).
    { assert (X : nth_error (firstn (bm_len (m_local m)) (bits (m_local m))) i <> None) by congruence. apply nth_error_Some in X. rewrite firstn_length in X. lia. }
    split; auto. rewrite <- B. clear - H. revert i H. generalize (bits (m_local m)). induction (bm_len (m_local m)); intros l i H; [lia|].
    destruct l; [destruct i; auto|]. destruct i; cbn; auto. apply IHn. lia.
  - exists inf. split; auto. split; auto. split; auto. rewrite A4. pose proof (Nat.mod_upper_bound k 4 ltac:(lia)). lia.
Qed.

(** exact behaviour in reachable states *)
Definition suitable (m : mgr) (i : nat) (p : addr) : Prop :=
  exists inf, In (p, inf) (m_active m) /\ pi_choking inf = false /\ piece_in (pi_haves inf) i /\ (bm_weight (pi_working inf) < 4)%N.
Lemma nth_error_repeat : forall A (x : A) n i, i < n -> nth_error (repeat x n) i = Some x.
Proof. induction n; intros i H; [lia|]. destruct i; cbn; auto. apply IHn. lia. Qed.
Lemma first_with_zero : forall n c l, (forall i, In i l -> i < n) -> first_with (repeat 0%N n) c l = Val (match c, l with O, i :: _ => Some i | _, _ => None end).
Proof.
  induction l as [|x l IH]; intros H; cbn [first_with]; [destruct c; auto|].
  rewrite nth_error_repeat by (apply H; left; auto). destruct c; cbn [N.eqb N.of_nat]; auto. rewrite IH; auto. intros. apply H. right; auto.
Qed.
Definition select_first (m : mgr) (rem : list nat) : res (option (addr * nat)) :=
  match rem with
  | [] => Val None
  | i :: _ => rbind (find_peer (m_active m) i 0) (fun p => match p with Some q => Val (Some (q, i)) | None =>
      rbind (find_peer (m_active m) i 1) (fun p => match p with Some q => Val (Some (q, i)) | None =>
      rbind (find_peer (m_active m) i 2) (fun p => match p with Some q => Val (Some (q, i)) | None =>
      rbind (find_peer (m_active m) i 3) (fun p => match p with Some q => Val (Some (q, i)) | None => Val None end) end) end) end)
  end.
Lemma sel_loop_zero : forall n m rem, m_assigned m = repeat 0%N n -> (forall i, In i rem -> i < n) ->
  sel_loop m rem (seq 0 (MAX_PEER_PER_PIECE * MAX_PIECE_PER_PEER)) = select_first m rem.
Proof.
  intros n m rem A R. change (seq 0 (MAX_PEER_PER_PIECE * MAX_PIECE_PER_PEER)) with [0;1;2;3;4;5;6;7;8;9;10;11].
  assert (Z : forall k, 1 <= k / MAX_PIECE_PER_PEER -> forall ks, sel_loop m rem (k :: ks) = sel_loop m rem ks).
  { intros k Hk ks. cbn [sel_loop]. rewrite A, first_with_zero by auto. destruct (k / MAX_PIECE_PER_PEER); [lia|]. reflexivity. }
  assert (T : sel_loop m rem [4;5;6;7;8;9;10;11] = Val None).
  { do 8 (rewrite Z; [|vm_compute; lia]). reflexivity. }
  assert (Y : forall k ks, k / MAX_PIECE_PER_PEER = 0 -> sel_loop m rem (k :: ks) = match rem with [] => sel_loop m rem ks
     | i :: _ => rbind (find_peer (m_active m) i (k mod MAX_PIECE_PER_PEER)) (fun p => match p with Some q => Val (Some (q, i)) | None => sel_loop m rem ks end) end).
  { intros k ks Hk. cbn [sel_loop]. rewrite A, first_with_zero by auto. rewrite Hk. destruct rem; reflexivity. }
  destruct rem as [|i t].
  - do 4 (rewrite Y; [|reflexivity]). exact T.
  - do 4 (rewrite Y; [|reflexivity]). rewrite T. reflexivity.
Qed.
Lemma remaining_inv : forall n m, inv n m -> exists rem, remaining m = Val rem /\ (forall i, In i rem <-> wanted m i) /\
  match rem with [] => forall i, ~ wanted m i | i :: _ => wanted m i /\ forall j, j < i -> ~ wanted m j end.
Proof.
  intros n m I. unfold remaining. rewrite (bm_ok_bits (i_local I)). cbn [rmap]. eexists. split; [reflexivity|].
  assert (R : length (firstn n (bits (m_local m))) = n) by (rewrite firstn_length; pose proof (bm_ok_room (i_local I)); lia).
  assert (NE : forall i, i < n -> nth_error (firstn n (bits (m_local m))) i = nth_error (bits (m_local m)) i).
  { clear. generalize (bits (m_local m)). induction n; intros l i H; [lia|]. destruct l, i; cbn; auto. apply IHn. lia. }
  assert (W : forall i, In i (remaining_from 0 (firstn n (bits (m_local m))) (m_freq m) (m_assigned m)) <-> wanted m i).
  { intro i. unfold wanted. rewrite (bo_len (i_local I)). split.
    - intro H. apply remaining_in in H as (_ & B & C). rewrite Nat.sub_0_r in *.
      assert (i < n). { rewrite <- R. apply nth_error_Some. congruence. } rewrite <- NE; auto.
    - intros (B & L & C). apply remaining_complete; rewrite ?R, ?Nat.sub_0_r; auto; try lia.
      + apply (i_freq I).
      + rewrite (i_assigned I). apply repeat_length.
      + rewrite NE; auto. }
  split; auto. destruct (remaining_from _ _ _ _) as [|i t] eqn:E.
  - intros i Hi. apply W in Hi. destruct Hi.
  - split; [apply W; left; auto|]. intros j J Wj.
    eapply (@remaining_head _ _ _ _ _ _ E); rewrite ?R; [apply (i_freq I)|rewrite (i_assigned I); apply repeat_length|apply Nat.le_0_l|exact J|].
    rewrite Nat.sub_0_r. destruct Wj as (A & B & C). rewrite (bo_len (i_local I)) in B. rewrite NE; auto.
Qed.
Lemma select_exact : forall n m, inv n m ->
  exists r, select_piece m = Val r /\
   match r with
   | Some (p, i, h) => wanted m i /\ (forall j, j < i -> ~ wanted m j) /\ nth_error (m_hashes m) i = Some h /\ suitable m i p
   | None => (forall i, ~ wanted m i) \/ exists i, wanted m i /\ (forall j, j < i -> ~ wanted m j) /\ forall p, ~ suitable m i p
   end.
Proof.
  intros n m I. unfold select_piece, sequential_select. destruct (remaining_inv I) as (rem & E & W & H). rewrite E. cbn [rbind].
  assert (RN : forall i, In i rem -> i < n). { intros i Hi. apply W in Hi as (_ & L & _). rewrite (bo_len (i_local I)) in L. auto. }
  rewrite (@sel_loop_zero n m rem (i_assigned I) RN). destruct rem as [|i t]; cbn [select_first rbind].
  - eexists. split; [reflexivity|]. left. auto.
  - destruct H as [W1 W2]. assert (Hn : i < n) by (apply RN; left; auto).
    destruct (nth_error (m_hashes m) i) as [h|] eqn:EH. 2:{ apply nth_error_None in EH. pose proof (i_hashes I). lia. }
    assert (LP : forall p inf, In (p, inf) (m_active m) -> i < length (bits (pi_haves inf))).
    { intros p inf HI. destruct (i_info I _ _ HI) as [O1 _]. pose proof (bm_ok_room O1). lia. }
    assert (FOUND : forall p inf k, In (p, inf) (m_active m) -> pi_choking inf = false -> piece_in (pi_haves inf) i -> bm_weight (pi_working inf) = N.of_nat k -> k < 4 ->
       wanted m i /\ (forall j, j < i -> ~ wanted m j) /\ nth_error (m_hashes m) i = Some h /\ suitable m i p).
    { intros. split; auto. split; auto. split; auto. exists inf. split; auto. split; auto. split; auto. lia. }
    destruct (@find_peer_spec i 0 (m_active m) LP) as (r0 & E0 & R0). rewrite E0. cbn [rbind]. destruct r0 as [p|].
    { cbn [rbind]. rewrite EH. eexists. split; [reflexivity|]. destruct R0 as (inf & A & B & C & D). eapply FOUND; eauto. }
    destruct (@find_peer_spec i 1 (m_active m) LP) as (r1 & E1 & R1). rewrite E1. cbn [rbind]. destruct r1 as [p|].
    { cbn [rbind]. rewrite EH. eexists. split; [reflexivity|]. destruct R1 as (inf & A & B & C & D). eapply FOUND; eauto. }
    destruct (@find_peer_spec i 2 (m_active m) LP) as (r2 & E2 & R2). rewrite E2. cbn [rbind]. destruct r2 as [p|].
    { cbn [rbind]. rewrite EH. eexists. split; [reflexivity|]. destruct R2 as (inf & A & B & C & D). eapply FOUND; eauto. }
    destruct (@find_peer_spec i 3 (m_active m) LP) as (r3 & E3 & R3). rewrite E3. cbn [rbind]. destruct r3 as [p|].
    { cbn [rbind]. rewrite EH. eexists. split; [reflexivity|]. destruct R3 as (inf & A & B & C & D). eapply FOUND; eauto. }
    cbn [rbind]. eexists. split; [reflexivity|]. right. exists i. split; auto. split; auto. intros p (inf & A & B & C & D).
    specialize (R0 p inf A B C). specialize (R1 p inf A B C). specialize (R2 p inf A B C). specialize (R3 p inf A B C). lia.
Qed.

(** ** handing out pieces *)
Lemma mark_spec : forall n m p i, inv n m -> In p (map fst (m_active m)) -> i < n -> (bm_weight (m_pieces m) <= 8)%N ->
  exists m', mark_ongoing m p i = Val m' /\ inv n m' /\ (exact n m -> exact n m') /\ map fst (m_active m') = map fst (m_active m) /\
    m_inactive m' = m_inactive m /\ m_conn m' = m_conn m /\ m_local m' = m_local m /\ m_freq m' = m_freq m /\
    (bm_weight (m_pieces m') <= bm_weight (m_pieces m) + 1)%N /\ (forall j, piece_in (m_pieces m') j <-> j = i \/ piece_in (m_pieces m) j).
Proof.
  intros n m p i I K L W. unfold mark_ongoing. destruct (aget p (m_active m)) as [o|] eqn:G. 2:{ apply aget_none in G. tauto. }
  assert (IN : In (p, o) (m_active m)) by (apply aget_spec; auto; apply (i_nodup I)). destruct (i_info I _ _ IN) as [O1 O2].
  cbn [rbind].
  destruct (@bm_change_some (m_pieces m) i true) as (b' & old & E & _). { pose proof (bm_ok_room (i_pieces I)). lia. }
  rewrite E. cbn [rbind].
  destruct (@bm_change_some (pi_working o) i true) as (w' & oldw & Ew & _). { pose proof (bm_ok_room O2). lia. }
  rewrite Ew. cbn [rbind fst]. eexists. split; [reflexivity|].
  pose proof (@ok_change _ _ _ _ _ _ (i_pieces I) E) as O3. pose proof (@ok_change _ _ _ _ _ _ O2 Ew) as O4.
  pose proof (@weight_change _ _ _ _ E) as WC.
  set (inf := mk_pinfo (pi_choking o) (pi_interested o) (pi_haves o) w').
  destruct (@inv_update n m p o inf (m_freq m) I G O1 O4 (i_freq I)) as [A B]. { intros. reflexivity. }
  split; [|split; [|split; [|split; [|split; [|split; [|split; [|split]]]]]]]; cbn [with_pieces with_active m_active m_inactive m_conn m_local m_freq m_pieces]; auto.
  - destruct A. split; auto. cbn. lia.
  - apply aset_keys; auto.
  - intro j. rewrite <- !inb_in. destruct (@inb_change _ _ _ _ _ E) as (_ & _ & J). rewrite J. destruct (Nat.eqb_spec j i); intuition congruence.
Qed.
Definition starts (i : nat) (out : list mout) : Prop := forall o, In o out -> exists p h, o = OStart p h i.
Lemma assign_spec : forall k n m sent, inv n m -> N.to_nat (bm_weight (m_pieces m)) + k <= 9 ->
  exists m' out, assign_loop m sent k = Val (m', out) /\ inv n m' /\ (exact n m -> exact n m') /\ map fst (m_active m') = map fst (m_active m) /\
    m_inactive m' = m_inactive m /\ m_conn m' = m_conn m /\ m_local m' = m_local m /\ m_freq m' = m_freq m /\
    (forall j, piece_in (m_pieces m) j -> piece_in (m_pieces m') j) /\
    (forall o, In o out -> exists p h i, o = OStart p h i /\ In p (m_conn m) /\ wanted m i /\ (forall j, j < i -> ~ wanted m j) /\ nth_error (m_hashes m) i = Some h /\ In p (map fst (m_active m))).
Proof.
  induction k as [|k IH]; intros n m sent I L; cbn [assign_loop].
  - exists m, []. split; [reflexivity|]. repeat (split; [auto; fail|]). intros o [].
  - destruct (select_exact I) as (r & E & R). rewrite E. cbn [rbind]. destruct r as [[[p i] h]|].
    2:{ exists m, []. split; [reflexivity|]. repeat (split; [auto; fail|]). intros o []. }
    destruct R as (W & LE & HH & (inf & IN & _)).
    assert (KP : In p (map fst (m_active m))) by (apply (in_map fst) in IN; auto).
    unfold start_piece. destruct (existsb (addr_eqb p) (m_conn m) && sent k) eqn:X.
    + apply andb_true_iff in X as [X _]. apply existsb_addr in X.
      destruct (@mark_spec n m p i I KP) as (m1 & E1 & I1 & X1 & K1 & Q1 & C1 & L1 & F1 & W1 & P1).
      { destruct W as (_ & B & _). rewrite (bo_len (i_local I)) in B. auto. } { lia. }
      rewrite E1. cbn [rmap rbind fst snd].
      assert (H1 : m_hashes m1 = m_hashes m).
      { clear - E1. unfold mark_ongoing in E1. destruct (aget p (m_active m)); cbn [rbind] in E1.
        - destruct (bm_change (m_pieces m) i true); try discriminate. cbn [rbind] in E1. destruct (bm_change (pi_working p0) i true); try discriminate. injection E1 as <-. reflexivity.
        - destruct (pi_new _); try discriminate. cbn [rbind] in E1. destruct (bm_change (m_pieces m) i true); try discriminate. cbn [rbind] in E1. destruct (bm_change (pi_working _) i true); try discriminate. injection E1 as <-. reflexivity. }
      destruct (IH n m1 sent I1 ltac:(lia)) as (m' & out & E' & I' & X' & K' & Q' & C' & L' & F' & P' & O').
      rewrite E'. cbn [rmap fst snd]. do 2 eexists. split; [reflexivity|]. split; [auto|]. split; [auto|].
      split; [congruence|]. split; [congruence|]. split; [congruence|]. split; [congruence|]. split; [congruence|]. split.
      { intros j Hj. apply P'. apply P1. auto. }
      assert (WW : forall j, wanted m1 j <-> wanted m j) by (intro; unfold wanted; rewrite L1, F1; tauto).
      intros o [<-|Ho].
      * exists p, h, i. repeat (split; [auto; fail|]). auto.
      * destruct (O' o Ho) as (q & h' & j & A & B & C & D & F & G). exists q, h', j. split; auto. split; [congruence|]. split; [apply WW; auto|].
        split; [intros j' Hj'; rewrite <- WW; auto|]. split; congruence.
    + cbn [rbind fst snd]. destruct (IH n m sent I ltac:(lia)) as (m' & out & E' & R').
      rewrite E'. cbn [rmap fst snd]. do 2 eexists. split; [reflexivity|]. exact R'.
Qed.
Lemma m_assign_spec : forall n m sent, inv n m ->
  exists m' out, m_assign m sent = Val (m', out) /\ inv n m' /\ (exact n m -> exact n m') /\ map fst (m_active m') = map fst (m_active m) /\
    m_inactive m' = m_inactive m /\ m_conn m' = m_conn m /\ m_local m' = m_local m /\ m_freq m' = m_freq m /\
    (forall j, piece_in (m_pieces m) j -> piece_in (m_pieces m') j) /\
    (forall o, In o out -> exists p h i, o = OStart p h i /\ In p (m_conn m) /\ wanted m i /\ (forall j, j < i -> ~ wanted m j) /\ nth_error (m_hashes m) i = Some h /\ In p (map fst (m_active m))).
Proof.
  intros n m sent I. unfold m_assign, MAX_ACTIVE_PIECES. pose proof (i_weight I) as W.
  destruct (Nat.ltb_spec 9 (N.to_nat (bm_weight (m_pieces m)))); [lia|]. apply assign_spec; auto. lia.
Qed.

(** ** whole runs *)
Definition sys_inv (n : nat) (s : sys) : Prop := inv n (fst s) /\ NoDup (map fst (snd s)).
Record calm_inv (n : nat) (s : sys) : Prop := {
  k_inv : sys_inv n s;
  k_exact : exact n (fst s);
  k_active : forall p, In p (map fst (m_active (fst s))) -> status_of (snd s) p Active;
  k_inactive : forall p st, In (p, st) (m_inactive (fst s)) -> ~ In p (map fst (m_active (fst s)))
}.
Lemma start_inv : forall hs s, sys_start hs s -> calm_inv (length hs) s.
Proof.
  intros hs s (m & E & ->). destruct (inv_init _ E) as [A B]. split; auto; cbn [fst snd].
  - split; auto. constructor.
  - intros p H. unfold m_init in E. destruct (bm_new _); try discriminate. injection E as <-. destruct H.
  - intros p st H. unfold m_init in E. destruct (bm_new _); try discriminate. injection E as <-. destruct H.
Qed.
Lemma perm_inv : forall n s s', sys_inv n s -> sys_perm s s' -> sys_inv n s'.
Proof.
  intros n s s' [A B] (a & t & P & Q & ->). split; cbn [fst snd]. apply (inv_perm A P).
  eapply Permutation_NoDup; [apply Permutation_map; eauto|auto].
Qed.
Lemma perm_calm : forall n s s', calm_inv n s -> sys_perm s s' -> calm_inv n s'.
Proof.
  intros n s s' C P. pose proof (perm_inv (k_inv C) P) as S. destruct P as (a & t & P & Q & ->). split; auto; cbn [fst snd with_active m_active m_inactive].
  - apply (inv_perm (proj1 (k_inv C)) P). apply (k_exact C).
  - intros p H. eapply Permutation_in; [eauto|]. apply (k_active C). eapply Permutation_in; [apply Permutation_sym; apply Permutation_map; eauto|auto].
  - intros p st H X. apply (k_inactive C _ _ H). eapply Permutation_in; [apply Permutation_sym; apply Permutation_map; eauto|auto].
Qed.
Lemma step_inv : forall n s e s' out, sys_inv n s -> sys_step s e = Val (s', out) -> sys_inv n s'.
Proof.
  intros n [m t] e s' out [I N] E. destruct e as [p c| |f|o]; cbn [sys_step fst snd] in *.
  - destruct (handle_message m p c) as [m'| |] eqn:H; try discriminate. injection E as <- <-. split; auto. apply (@message_inv n m p c m' I H).
  - destruct (@refresh_spec n m t I N) as (m' & t' & o' & H & I' & N' & _). rewrite H in E. injection E as <- <-. split; auto.
  - destruct (@m_assign_spec n m f I) as (m' & o' & H & I' & _). rewrite H in E. injection E as <- <-. split; auto.
  - destruct (@C27_total t o N) as (t' & o' & H & N'). rewrite H in E. injection E as <- <-. split; auto.
Qed.
Lemma step_calm : forall n s e s' out, calm_inv n s -> sys_step s e = Val (s', out) ->
  (forall o p, e = ETable o -> In p (names o) -> ~ In p (map fst (m_active (fst s)))) -> calm_inv n s'.
Proof.
  intros n [m t] e s' out C E Q. pose proof (step_inv _ (k_inv C) E) as SI. destruct (k_inv C) as [I N]. cbn [fst snd] in *.
  pose proof (k_exact C) as KX. pose proof (k_active C) as KA. pose proof (k_inactive C) as KI. cbn [fst snd] in KX, KA, KI.
  destruct e as [p c| |f|o]; cbn [sys_step fst snd] in *.
  - destruct (handle_message m p c) as [m'| |] eqn:H; try discriminate. injection E as <- <-.
    destruct (@message_inv n m p c m' I H) as (A & B & _ & D). split; auto; cbn [fst snd]; destruct (peer_gone c).
    + intros q Hq. destruct D as [D _]. rewrite D in Hq. apply adel_keys in Hq as [_ Hq]; [|apply (i_nodup I)]. auto.
    + intros q Hq. destruct D as [D _]. rewrite D in Hq. auto.
    + destruct D as [D (st & F)]. intros q st' Hq X. rewrite D in X. apply adel_keys in X as [X1 X2]; [|apply (i_nodup I)].
      destruct F as [F|[F _]]; rewrite F in Hq; [|apply (KI _ _ Hq X2)]. apply in_app_or in Hq as [Hq|[Hq|[]]]; [apply (KI _ _ Hq X2)|]. congruence.
    + destruct D as [D F]. intros q st' Hq X. rewrite F in Hq. rewrite D in X. apply (KI _ _ Hq X).
  - destruct (@refresh_spec n m t I N) as (m' & t' & o' & H & I' & N' & _ & D). rewrite H in E. injection E as <- <-.
    destruct D as [D|(ps & EB & ND & X & K & IN & _)]; [injection D as -> -> _; auto|].
    destruct (@C25_batch t (m_inactive m) (10 - length (m_active m)) N) as (t1 & t2 & ps2 & EB2 & N1 & ST & G).
    rewrite EB in EB2. injection EB2 as <- <-.
    assert (A1 : forall p, In p (map fst (m_active m)) -> status_of t1 p Active).
    { intros p Hp. apply ST. destruct (last_returned (m_inactive m) p) as [st|] eqn:LR; [|auto].
      exfalso. assert (Z : exists st, In (p, st) (m_inactive m)).
      { clear - LR. unfold last_returned in LR. revert LR. generalize (m_inactive m). intro l.
        induction l as [|[q sq] l IH] using rev_ind; cbn; [discriminate|]. rewrite fold_left_app. cbn [fold_left fst snd].
        destruct (addr_eqb q p) eqn:EQ; [|intro LR; destruct (IH LR) as [x Hx]; exists x; apply in_or_app; auto].
        apply addr_eqb_spec in EQ. subst. intros _. exists sq. apply in_or_app. right. left. auto. }
      destruct Z as [st' Hs]. apply (KI _ _ Hs Hp). }
    assert (DJ : forall p, In p ps -> ~ In p (map fst (m_active m))).
    { intros p Hp Ha. destruct (gb_eligible G _ Hp) as (st & r & S & R). pose proof (@status_fun _ _ _ _ N1 S (A1 _ Ha)). subst st. discriminate. }
    split; auto; cbn [fst snd].
    + intros p Hp. apply K in Hp as [Hp|Hp]; [apply (gb_marked G); auto|].
      apply (gb_frame G); [intro Z; apply (DJ _ Z Hp)|]. auto.
    + intros p st Hp. rewrite IN in Hp. destruct Hp.
  - destruct (@m_assign_spec n m f I) as (m' & o' & H & I' & X & K & IN & _). rewrite H in E. injection E as <- <-. split; auto; cbn [fst snd].
    + intros p Hp. rewrite K in Hp. auto.
    + intros p st Hp. rewrite IN in Hp. rewrite K. apply (KI _ _ Hp).
  - destruct (q_step t o) as [[t' o']| |] eqn:H; try discriminate. injection E as <- <-. split; auto; cbn [fst snd].
    intros p Hp. apply (@stays_active t o t' o' p N H (KA p Hp)). intro Z. apply (Q o p eq_refl Z Hp).
Qed.
Lemma run_inv : forall n s h s', sys_run s h s' -> sys_inv n s -> sys_inv n s'.
Proof. induction 1; intros; auto. apply IHsys_run. eapply step_inv; [|eauto]. eapply perm_inv; eauto. Qed.
Lemma reach_inv_m : forall hs s, sys_reach hs s -> sys_inv (length hs) s.
Proof. intros hs s (s0 & h & A & B). eapply run_inv; eauto. apply (k_inv (start_inv A)). Qed.
Lemma calm_run_inv : forall n s h s', calm_run s h s' -> calm_inv n s -> calm_inv n s'.
Proof. induction 1; intros; auto. apply IHcalm_run. eapply step_calm; [eapply perm_calm; eauto|eauto|auto]. Qed.
Lemma sys_perm_refl : forall s, sys_perm s s.
Proof. intros [m t]. exists (m_active m), t. split; auto. split; auto. destruct m; reflexivity. Qed.
