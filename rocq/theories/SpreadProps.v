(** How pieces are spread over the peers: C124, the least busy peer gets the piece
    and nobody works on more than four, and C65 continued, how many commands one
    round gives and when nobody is told twice. *)
From Coq Require Import List NArith ZArith Lia Bool Arith Permutation.
From Coq Require Import Init.Byte.
From Verif Require Import Base Assoc BitSpec BitmapModel BitmapProofs IdModel WireModel PeersModel PeersSpec PeersProofs PeersProps ManagerModel ManagerSpec ManagerProofs ManagerProofs2 ManagerProps ManagerHistoryProps.
Import ListNotations.
Set Implicit Arguments.

(** ** Vocabulary *)
(** Active peer [p] works on [c] pieces. *)
Definition load (m : mgr) (p : addr) (c : nat) : Prop := exists inf, In (p, inf) (m_active m) /\ count_true (bits (pi_working inf)) = c.
(** [p] could be given piece [i]: active, does not choke us, has the piece. *)
Definition offers (m : mgr) (p : addr) (i : nat) : Prop := exists inf, In (p, inf) (m_active m) /\ pi_choking inf = false /\ piece_in (pi_haves inf) i.
(** [i] is the first piece that is missing and announced by somebody. *)
Definition first_wanted (m : mgr) (i : nat) : Prop := wanted m i /\ forall j, j < i -> ~ wanted m j.
(** The peers told to start in one round. *)
Definition told_peers (out : list mout) : list addr := flat_map (fun o => match o with OStart p _ _ => [p] | OSpawn _ => [] end) out.

(** ** Proofs *)
Definition wt (m : mgr) (q : addr) : nat := match aget q (m_active m) with Some inf => count_true (bits (pi_working inf)) | None => 0 end.
Lemma count_cons : forall a l, count_true (a :: l) = b1 a + count_true l.
Proof. intros [] l; reflexivity. Qed.
Lemma count_mono : forall l' l, (forall i, nth_error l' i = Some true -> nth_error l i = Some true) -> count_true l' <= count_true l.
Proof.
  induction l' as [|a l' IH]; intros l H; [cbn; lia|]. destruct l as [|b l].
  - rewrite count_cons. assert (E : count_true l' <= count_true []). { apply IH. intros i X. specialize (H (S i) X). discriminate. }
    destruct a; [specialize (H 0 eq_refl); discriminate|]. cbn [b1]. exact E.
  - rewrite !count_cons. assert (E : count_true l' <= count_true l) by (apply IH; intros i X; exact (H (S i) X)).
    destruct a; [specialize (H 0 eq_refl); injection H as ->; cbn [b1]; lia|destruct b; cbn [b1]; lia].
Qed.
Lemma count_upd_exact : forall l i, i < length l -> count_true (upd l i true) = if nth i l false then count_true l else S (count_true l).
Proof.
  induction l as [|a l IH]; intros [|i] H; cbn [length] in H; try lia; cbn [upd nth]; rewrite !count_cons.
  - destruct a; cbn [b1]; lia.
  - rewrite IH by lia. destruct (nth i l false), a; cbn [b1]; lia.
Qed.
Lemma wt_le : forall m m' q, (forall j, wkb m' q j = true -> wkb m q j = true) -> wt m' q <= wt m q.
Proof.
  intros m m' q H. unfold wt, wkb in *. destruct (aget q (m_active m')) as [x|]; [|lia].
  assert (G : forall j, nth_error (bits (pi_working x)) j = Some true -> match aget q (m_active m) with Some y => nth_error (bits (pi_working y)) j = Some true | None => False end).
  { intros j X. specialize (H j (proj2 (inb_in _ _) X)). destruct (aget q (m_active m)); [|discriminate]. apply inb_in. exact H. }
  destruct (aget q (m_active m)) as [y|]; [apply count_mono; exact G|]. change 0 with (count_true []). apply count_mono. intros j X. destruct (G j X).
Qed.
Lemma wt_load : forall m p c, NoDup (map fst (m_active m)) -> load m p c -> wt m p = c.
Proof. intros m p c N (inf & A & B). unfold wt. apply aget_spec in A; auto. rewrite A. exact B. Qed.
Lemma suit_offers : forall m i p, NoDup (map fst (m_active m)) -> (suitable m i p <-> offers m p i /\ wt m p < 4).
Proof.
  intros m i p N. unfold suitable, offers, wt. split.
  - intros (inf & A & B & C & D). split; [eauto|]. apply aget_spec in A; auto. rewrite A. pose proof (bm_weight_spec (pi_working inf)). lia.
  - intros [(inf & A & B & C) D]. exists inf. split; auto. split; auto. split; auto. apply aget_spec in A; auto. rewrite A in D. pose proof (bm_weight_spec (pi_working inf)). lia.
Qed.
Lemma mark_wt : forall n m p i m', inv n m -> In p (map fst (m_active m)) -> mark_ongoing m p i = Val m' ->
  (forall q, wt m' q = if addr_eqb q p then if wkb m p i then wt m p else S (wt m p) else wt m q) /\
  (forall q j, offers m' q j <-> offers m q j) /\ m_hashes m' = m_hashes m.
Proof.
  intros n m p i m' I K H. pose proof (i_nodup I) as N. unfold mark_ongoing in H. destruct (aget p (m_active m)) as [o|] eqn:G; [|apply aget_none in G; tauto]. cbn [rbind] in H.
  destruct (bm_change (m_pieces m) i true) as [[b old]| |] eqn:E; try discriminate. cbn [rbind] in H.
  destruct (bm_change (pi_working o) i true) as [[w oldw]| |] eqn:Ew; try discriminate. cbn [rbind fst] in H. injection H as <-.
  cbn [with_pieces with_active m_active m_hashes]. split; [|split; [|reflexivity]].
  - intro q. unfold wt. cbn [with_pieces with_active m_active]. rewrite aget_aset. destruct (addr_eqb q p) eqn:Q; auto. cbn [pi_working].
    unfold wkb. rewrite G. apply bm_change_val in Ew as (L & O & B & _). rewrite B, count_upd_exact by auto. rewrite inb_nth. reflexivity.
  - assert (N' : NoDup (map fst (aset p (mk_pinfo (pi_choking o) (pi_interested o) (pi_haves o) w) (m_active m)))).
    { rewrite aset_keys; auto. }
    intros q j. unfold offers. cbn [with_pieces with_active m_active]. split; intros (inf & A & B & C).
    + apply aget_spec in A; auto. rewrite aget_aset in A. destruct (addr_eqb q p) eqn:Q.
      * apply addr_eqb_spec in Q. subst q. injection A as <-. exists o. split; [apply aget_spec; auto|]. auto.
      * exists inf. split; [apply aget_spec; auto|]. auto.
    + apply aget_spec in A; auto. destruct (addr_eqb q p) eqn:Q.
      * apply addr_eqb_spec in Q. subst q. assert (o = inf) by congruence. subst o. eexists. split; [apply aget_spec; auto; rewrite aget_aset, addr_rfl; reflexivity|]. auto.
      * exists inf. split; [apply aget_spec; auto; rewrite aget_aset, Q; auto|]. auto.
Qed.
Lemma select_least : forall n m p i h, inv n m -> select_piece m = Val (Some (p, i, h)) -> forall q, suitable m i q -> wt m p <= wt m q.
Proof.
  intros n m p i h I H q SQ. pose proof (i_nodup I) as N. destruct (select_exact I) as (r & E & R). rewrite H in E. injection E as <-. destruct R as (_ & _ & _ & SP).
  unfold select_piece, sequential_select in H. destruct (remaining_inv I) as (rem & E & W & _). rewrite E in H. cbn [rbind] in H.
  assert (RN : forall i, In i rem -> i < n). { intros j Hj. apply W in Hj as (_ & L & _). rewrite (bo_len (i_local I)) in L. auto. }
  rewrite (@sel_loop_zero n m rem (i_assigned I) RN) in H. destruct rem as [|j t]; cbn [select_first rbind] in H; [discriminate|].
  assert (Hn : j < n) by (apply RN; left; auto).
  assert (LP : forall p inf, In (p, inf) (m_active m) -> j < length (bits (pi_haves inf))).
  { intros p' inf HI. destruct (i_info I _ _ HI) as [O1 _]. pose proof (bm_ok_room O1). lia. }
  assert (FIN : forall k pk, (forall a inf, In (a, inf) (m_active m) -> pi_choking inf = false -> piece_in (pi_haves inf) j -> ~ (N.to_nat (bm_weight (pi_working inf)) < k)) ->
     (exists inf, In (pk, inf) (m_active m) /\ pi_choking inf = false /\ piece_in (pi_haves inf) j /\ bm_weight (pi_working inf) = N.of_nat k) ->
     match nth_error (m_hashes m) j with Some x => Val (Some (pk, j, x)) | None => Panic end = Val (Some (p, i, h)) -> wt m p <= wt m q).
  { intros k pk LO (inf & A & B & C & D) X. destruct (nth_error (m_hashes m) j); [|discriminate]. injection X as -> -> _.
    destruct SQ as (infq & Aq & Bq & Cq & _). specialize (LO _ _ Aq Bq Cq). unfold wt. apply aget_spec in A, Aq; auto. rewrite A, Aq.
    rewrite <- !bm_weight_spec. lia. }
  destruct (@find_peer_spec j 0 (m_active m) LP) as (r0 & E0 & R0). rewrite E0 in H. cbn [rbind] in H. destruct r0 as [p0|].
  { cbn [rbind] in H. apply (FIN 0 p0); auto. intros; lia. }
  destruct (@find_peer_spec j 1 (m_active m) LP) as (r1 & E1 & R1). rewrite E1 in H. cbn [rbind] in H. destruct r1 as [p1|].
  { cbn [rbind] in H. apply (FIN 1 p1); auto. intros a inf A B C. specialize (R0 a inf A B C). lia. }
  destruct (@find_peer_spec j 2 (m_active m) LP) as (r2 & E2 & R2). rewrite E2 in H. cbn [rbind] in H. destruct r2 as [p2|].
  { cbn [rbind] in H. apply (FIN 2 p2); auto. intros a inf A B C. specialize (R0 a inf A B C). specialize (R1 a inf A B C). lia. }
  destruct (@find_peer_spec j 3 (m_active m) LP) as (r3 & E3 & R3). rewrite E3 in H. cbn [rbind] in H. destruct r3 as [p3|].
  { cbn [rbind] in H. apply (FIN 3 p3); auto. intros a inf A B C. specialize (R0 a inf A B C). specialize (R1 a inf A B C). specialize (R2 a inf A B C). lia. }
  cbn [rbind] in H. discriminate.
Qed.
Lemma assign_four : forall k n m sent m' out, inv n m -> N.to_nat (bm_weight (m_pieces m)) + k <= 9 -> assign_loop m sent k = Val (m', out) ->
  (forall q, wt m q <= 4) -> forall q, wt m' q <= 4.
Proof.
  induction k as [|k IH]; intros n m sent m' out I L H F q; cbn [assign_loop] in H; [injection H as <- <-; auto|].
  destruct (select_exact I) as (r & E & R). rewrite E in H. cbn [rbind] in H. destruct r as [[[p i] h]|]; [|injection H as <- <-; auto].
  destruct R as (W & LE & HH & SP). assert (KP : In p (map fst (m_active m))) by (destruct SP as (inf & IN & _); apply (in_map fst) in IN; auto).
  unfold start_piece in H. destruct (existsb (addr_eqb p) (m_conn m) && sent k) eqn:X.
  - destruct (@mark_spec n m p i I KP) as (m1 & E1 & I1 & _ & _ & _ & _ & _ & _ & W1 & _).
    { destruct W as (_ & B & _). rewrite (bo_len (i_local I)) in B. auto. } { lia. }
    rewrite E1 in H. cbn [rmap rbind fst snd] in H. destruct (assign_loop m1 sent k) as [[m2 o2]| |] eqn:A; try discriminate. cbn in H. injection H as <- <-.
    apply (IH n m1 sent m2 o2 I1 ltac:(lia) A). intro a. destruct (mark_wt p i I KP E1) as [MW _]. rewrite MW. apply suit_offers in SP as [_ SP]; [|apply (i_nodup I)].
    destruct (addr_eqb a p); auto. destruct (wkb m p i); lia.
  - cbn [rbind fst snd] in H. destruct (assign_loop m sent k) as [[m2 o2]| |] eqn:A; try discriminate. cbn in H. injection H as <- <-. apply (IH n m sent m2 o2 I ltac:(lia) A F).
Qed.
Lemma wt_perm : forall n s s1 q, sys_inv n s -> sys_perm s s1 -> wt (fst s1) q <= wt (fst s) q.
Proof. intros n s s1 q SI P. apply wt_le. intro j. rewrite (wkb_perm SI P). auto. Qed.
Lemma run_four : forall n s h s', sys_run s h s' -> sys_inv n s -> (forall q, wt (fst s) q <= 4) -> forall q, wt (fst s') q <= 4.
Proof.
  induction 1 as [|s s1 e s2 out h s' P E R IH]; intros SI F q; auto. pose proof (perm_inv SI P) as S1. apply IH; [eapply step_inv; eauto|]. clear q.
  assert (F1 : forall q, wt (fst s1) q <= 4) by (intro q; pose proof (wt_perm q SI P); specialize (F q); lia).
  destruct (step_hist _ S1 E) as (_ & _ & W & _). destruct e as [p c| |f|o].
  3:{ cbn [sys_step] in E. destruct S1 as [I _]. destruct (m_assign (fst s1) f) as [[m' o']| |] eqn:H; try discriminate. injection E as <- <-. cbn [fst].
    unfold m_assign in H. change MAX_ACTIVE_PIECES with 9 in H. destruct (9 <? _) eqn:L; try discriminate. apply Nat.ltb_ge in L. eapply assign_four; eauto. lia. }
  all: intro q; specialize (F1 q); enough (wt (fst s2) q <= wt (fst s1) q) by lia; apply wt_le; intros j X; destruct (W q j X) as [Y|Y]; auto; exfalso.
  - cbn [sys_step] in E. destruct (handle_message _ _ _); try discriminate. injection E as _ <-. discriminate.
  - cbn [sys_step] in E. destruct S1 as [I1 N1]. destruct (m_refresh (fst s1) (snd s1)) as [[[m' t'] o']| |] eqn:H; try discriminate. injection E as <- <-.
    destruct (@refresh_wk _ _ _ _ _ _ I1 N1 H) as (_ & _ & _ & _ & S). cbn [fst snd] in Y. rewrite no_starts in Y; auto. discriminate.
  - cbn [sys_step] in E. destruct (q_step _ _); try discriminate. injection E as _ <-. discriminate.
Qed.
(** Every active peer has a connection. *)
Lemma run_known : forall n s h s', sys_run s h s' -> sys_inv n s -> (forall q, In q (map fst (m_active (fst s))) -> In q (m_conn (fst s))) ->
  forall q, In q (map fst (m_active (fst s'))) -> In q (m_conn (fst s')).
Proof.
  induction 1 as [|s s1 e s2 out h s' P E R IH]; intros SI F; auto. pose proof (perm_inv SI P) as S1. apply IH; [eapply step_inv; eauto|]. clear IH R s' h.
  assert (F1 : forall q, In q (map fst (m_active (fst s1))) -> In q (m_conn (fst s1))).
  { destruct P as (a & t & Pa & _ & ->). cbn [fst with_active m_active m_conn]. intros q Hq. apply F. eapply Permutation_in; [apply Permutation_sym, Permutation_map; eauto|auto]. }
  destruct s1 as [m t]. destruct S1 as [I N]. cbn [fst snd] in *. destruct e as [p c| |f|o]; cbn [sys_step fst snd] in E.
  - destruct (handle_message m p c) as [m'| |] eqn:H; try discriminate. injection E as <- <-. cbn [fst]. destruct (@message_inv n m p c m' I H) as (_ & _ & C & K). rewrite C.
    intros q Hq. apply F1. destruct (peer_gone c).
    + destruct K as [K _]. rewrite K in Hq. destruct (aget q (m_active m)) as [o|] eqn:G; [apply aget_spec in G; [|apply (i_nodup I)]; apply (in_map fst) in G; auto|]. exfalso.
      assert (ND : NoDup (map fst (adel p (m_active m)))) by (rewrite <- K; apply (i_nodup (proj1 (@message_inv n m p c m' I H)))).
      assert (Z : aget q (adel p (m_active m)) = None) by (rewrite aget_adel by apply (i_nodup I); destruct (addr_eqb q p); auto). apply aget_none in Z. auto.
    + destruct K as [K _]. rewrite K in Hq. auto.
  - destruct (@refresh_spec n m t I N) as (m' & t' & o' & H & _ & _ & _ & D). rewrite H in E. injection E as <- <-. cbn [fst].
    destruct D as [D|(ps & _ & _ & _ & K & _ & C & _)]; [injection D as -> -> ->; auto|]. intros q Hq. apply C. apply K in Hq. destruct Hq; auto.
  - destruct (@m_assign_spec n m f I) as (m' & o' & H & _ & _ & K & _ & C & _). rewrite H in E. injection E as <- <-. cbn [fst]. rewrite K, C. auto.
  - destruct (q_step t o) as [[t' o']| |]; try discriminate. injection E as <- <-. auto.
Qed.
Lemma reach_known : forall hs s, sys_reach hs s -> forall q, In q (map fst (m_active (fst s))) -> In q (m_conn (fst s)).
Proof.
  intros hs s (s0 & h & A & B). eapply run_known; [exact B|apply (k_inv (start_inv A))|]. destruct A as (m & M & ->). unfold m_init in M.
  destruct (bm_new _); try discriminate. injection M as <-. intros q [].
Qed.

(** ** C124 *)
(** The peer that gets a piece works on no more pieces than any other that
    could get it. *)
Theorem C124_least_busy : forall hs s p i h q c d, sys_reach hs s -> select_piece (fst s) = Val (Some (p, i, h)) ->
  load (fst s) p c -> offers (fst s) q i -> load (fst s) q d -> c <= d.
Proof.
  intros hs s p i h q c d R H LP OQ LQ. destruct (reach_inv_m R) as [I _]. pose proof (i_nodup I) as N.
  apply wt_load in LP, LQ; auto. subst c d. destruct (Nat.lt_ge_cases (wt (fst s) q) 4) as [L|L].
  - eapply select_least; eauto. apply suit_offers; auto.
  - destruct (select_exact I) as (r & E & X). rewrite H in E. injection E as <-. destruct X as (_ & _ & _ & SP). apply suit_offers in SP as [_ SP]; auto. lia.
Qed.
(** In no history does a peer work on more than four pieces. *)
Theorem C124_at_most_four : forall hs s p c, sys_reach hs s -> load (fst s) p c -> c <= 4.
Proof.
  intros hs s p c R L. destruct (reach_inv_m R) as [I _]. apply wt_load in L; [|apply (i_nodup I)]. subst c. destruct R as (s0 & h & A & B).
  eapply run_four; [exact B|apply (k_inv (start_inv A))|]. destruct A as (m & M & ->). unfold m_init in M.
  destruct (bm_new _); try discriminate. injection M as <-. intro q. cbn. lia.
Qed.

(** ** C65 *)
(** A peer that stays able to get [i] after it got it. *)
Definition lasting (m : mgr) (p : addr) (i : nat) : Prop := offers m p i /\ exists c, load m p c /\ (c < 3 \/ c = 3 /\ works m p i).
Definition lastb (m : mgr) (p : addr) (i : nat) : Prop := offers m p i /\ (wt m p < 3 \/ wt m p = 3 /\ wkb m p i = true).
Lemma lasting_lastb : forall m p i, NoDup (map fst (m_active m)) -> (lasting m p i <-> lastb m p i).
Proof.
  intros m p i N. unfold lasting, lastb. rewrite wkb_works by auto. split.
  - intros (O & c & L & X). apply wt_load in L; auto. subst c. auto.
  - intros (O & X). split; auto. exists (wt m p). split; auto. destruct O as (inf & A & _). exists inf. split; auto. unfold wt. apply aget_spec in A; auto. rewrite A. auto.
Qed.
Lemma told_app : forall a b, told_peers (a ++ b) = told_peers a ++ told_peers b.
Proof. intros. apply flat_map_app. Qed.
Definition all_taken (n : nat) : bool := true.
Lemma loop_lasting : forall k n m m' out p i, inv n m -> N.to_nat (bm_weight (m_pieces m)) + k <= 9 -> (forall q, In q (map fst (m_active m)) -> In q (m_conn m)) ->
  first_wanted m i -> lastb m p i -> assign_loop m all_taken k = Val (m', out) -> length out = k.
Proof.
  induction k as [|k IH]; intros n m m' out p i I L KN [FW1 FW2] LA H; cbn [assign_loop] in H; [injection H as <- <-; auto|].
  pose proof (i_nodup I) as N.
  assert (SPI : suitable m i p). { apply suit_offers; auto. destruct LA as [O X]. split; auto. lia. }
  destruct (select_exact I) as (r & E & R). rewrite E in H. cbn [rbind] in H. destruct r as [[[q j] h]|].
  2:{ exfalso. destruct R as [R|(j & W' & LE' & NS)]; [eapply R; eauto|]. assert (j = i). { destruct (Nat.lt_trichotomy i j) as [X|[X|X]]; auto; exfalso; [eapply LE'|eapply FW2]; eauto. } subst j. eapply NS; eauto. }
  destruct R as (W & LE & HH & SQ). assert (j = i). { destruct (Nat.lt_trichotomy i j) as [X|[X|X]]; auto; exfalso; [eapply LE|eapply FW2]; eauto. } subst j.
  assert (KQ : In q (map fst (m_active m))) by (destruct SQ as (inf & IN & _); apply (in_map fst) in IN; auto).
  unfold start_piece in H. rewrite (proj2 (existsb_addr q (m_conn m)) (KN _ KQ)) in H. cbn [andb all_taken] in H.
  destruct (@mark_spec n m q i I KQ) as (m1 & E1 & I1 & _ & K1 & _ & C1 & L1 & F1 & W1 & _).
  { destruct W as (_ & B & _). rewrite (bo_len (i_local I)) in B. auto. } { lia. }
  rewrite E1 in H. cbn [rmap rbind fst snd] in H. destruct (assign_loop m1 all_taken k) as [[m2 o2]| |] eqn:A; try discriminate. cbn in H. injection H as <- <-.
  cbn [length]. f_equal. destruct (mark_wt q i I KQ E1) as (MW & MO & _). destruct (mark_wk q i I KQ E1) as [MK _].
  apply (IH n m1 m2 o2 p i I1); auto; [lia|rewrite K1, C1; auto| |].
  - unfold first_wanted, wanted in *. rewrite L1, F1. auto.
  - destruct LA as [O X]. split; [apply MO; auto|]. rewrite MW, MK. destruct (addr_eqb p q) eqn:PQ.
    + apply addr_eqb_spec in PQ. subst q. rewrite Nat.eqb_refl. cbn [andb orb]. destruct (wkb m p i); [|destruct X as [X|[_ X]]; [|discriminate]]; lia.
    + cbn [andb orb]. auto.
Qed.
Lemma loop_once : forall k n m m' out i S, inv n m -> N.to_nat (bm_weight (m_pieces m)) + k <= 9 -> (forall q, In q (map fst (m_active m)) -> In q (m_conn m)) ->
  first_wanted m i -> NoDup S -> (forall q, In q S <-> suitable m i q) -> (forall q, In q S -> wt m q = 3 /\ wkb m q i = false) ->
  assign_loop m all_taken k = Val (m', out) -> length out = Nat.min (length S) k /\ NoDup (told_peers out) /\ incl (told_peers out) S.
Proof.
  induction k as [|k IH]; intros n m m' out i S I L KN [FW1 FW2] NS SS LA H; cbn [assign_loop] in H.
  { injection H as <- <-. cbn. rewrite Nat.min_0_r. split; auto. split; [constructor|intros x []]. }
  pose proof (i_nodup I) as N. destruct (select_exact I) as (r & E & R). rewrite E in H. cbn [rbind] in H. destruct r as [[[q j] h]|].
  2:{ injection H as <- <-. destruct S as [|x S]; [split; [auto|]; split; [constructor|intros x []]|]. exfalso. assert (SX : suitable m i x) by (apply SS; left; auto).
      destruct R as [R|(j & W' & LE' & NP)]; [eapply R; eauto|]. assert (j = i). { destruct (Nat.lt_trichotomy i j) as [X|[X|X]]; auto; exfalso; [eapply LE'|eapply FW2]; eauto. } subst j. eapply NP; eauto. }
  destruct R as (W & LE & HH & SQ). assert (j = i). { destruct (Nat.lt_trichotomy i j) as [X|[X|X]]; auto; exfalso; [eapply LE|eapply FW2]; eauto. } subst j.
  assert (KQ : In q (map fst (m_active m))) by (destruct SQ as (inf & IN & _); apply (in_map fst) in IN; auto).
  unfold start_piece in H. rewrite (proj2 (existsb_addr q (m_conn m)) (KN _ KQ)) in H. cbn [andb all_taken] in H.
  destruct (@mark_spec n m q i I KQ) as (m1 & E1 & I1 & _ & K1 & _ & C1 & L1 & F1 & W1 & _).
  { destruct W as (_ & B & _). rewrite (bo_len (i_local I)) in B. auto. } { lia. }
  rewrite E1 in H. cbn [rmap rbind fst snd] in H. destruct (assign_loop m1 all_taken k) as [[m2 o2]| |] eqn:A; try discriminate. cbn in H. injection H as <- <-.
  destruct (mark_wt q i I KQ E1) as (MW & MO & _). destruct (mark_wk q i I KQ E1) as [MK _]. pose proof (i_nodup I1) as N1.
  assert (QS : In q S) by (apply SS; auto). apply in_split in QS as (S1 & S2 & ->). pose proof (NoDup_remove_1 _ _ _ NS) as NS1. pose proof (NoDup_remove_2 _ _ _ NS) as NQ.
  assert (OTH : forall x, In x (S1 ++ S2) -> addr_eqb x q = false). { intros x Hx. destruct (addr_eqb x q) eqn:XQ; auto. apply addr_eqb_spec in XQ. subst. contradiction. }
  destruct (IH n m1 m2 o2 i (S1 ++ S2) I1) as (B1 & B2 & B3); auto; [lia|rewrite K1, C1; auto| | | |].
  - unfold first_wanted, wanted in *. rewrite L1, F1. auto.
  - intro x. rewrite suit_offers by auto. rewrite MO, MW. split.
    + intro Hx. rewrite (OTH x Hx). apply suit_offers; auto. apply SS. apply in_app_iff in Hx. apply in_app_iff. cbn. tauto.
    + destruct (addr_eqb x q) eqn:XQ.
      * intros [_ X]. destruct (LA q) as [T1 T2]; [apply in_app_iff; cbn; auto|]. rewrite T1, T2 in X. lia.
      * intro X. apply suit_offers in X; auto. apply SS in X. apply in_app_iff in X. apply in_app_iff. cbn in X. destruct X as [X|[X|X]]; auto. subst x. rewrite addr_rfl in XQ. discriminate.
  - intros x Hx. rewrite MW, MK, (OTH x Hx). cbn [andb orb]. apply LA. apply in_app_iff in Hx. apply in_app_iff. cbn. tauto.
  - cbn [told_peers flat_map app]. fold (told_peers o2). cbn [length]. rewrite B1, !app_length. cbn [length]. split; [lia|]. split.
    + constructor; auto.
    + intros x [<-|Hx]; [apply in_app_iff; cbn; auto|]. specialize (B3 x Hx). apply in_app_iff in B3. apply in_app_iff. cbn. tauto.
Qed.
Lemma assign_is_loop : forall n m f r, inv n m -> m_assign m f = Val r ->
  assign_loop m f (9 - count_true (bits (m_pieces m))) = Val r /\ N.to_nat (bm_weight (m_pieces m)) + (9 - count_true (bits (m_pieces m))) <= 9.
Proof.
  intros n m f r I H. unfold m_assign in H. change MAX_ACTIVE_PIECES with 9 in H. rewrite bm_weight_spec in *. destruct (9 <? _) eqn:L; try discriminate.
  apply Nat.ltb_ge in L. split; [exact H|lia].
Qed.
(** All free places for active pieces are used up on the first wanted piece, if
    somebody has it who works on fewer than three pieces, or on three with this
    one among them. *)
Theorem C65_count_always : forall hs s s' out i p, sys_reach hs s -> first_wanted (fst s) i -> lasting (fst s) p i ->
  sys_step s (EAssign all_taken) = Val (s', out) -> length out = 9 - count_true (bits (m_pieces (fst s))).
Proof.
  intros hs s s' out i p R FW LA E. destruct (reach_inv_m R) as [I _]. cbn [sys_step] in E. destruct (m_assign (fst s) all_taken) as [[m' o']| |] eqn:H; try discriminate. injection E as <- <-.
  destruct (assign_is_loop _ I H) as [H' L]. apply lasting_lastb in LA; [|apply (i_nodup I)]. eapply loop_lasting; eauto. apply (reach_known R).
Qed.
(** So there is a peer that is told twice unless as many peers are told as there
    are places. *)
Theorem C65_repeated_always : forall hs s s' out i p S, sys_reach hs s -> first_wanted (fst s) i -> lasting (fst s) p i ->
  (forall q, offers (fst s) q i -> In q S) -> length S < 9 - count_true (bits (m_pieces (fst s))) ->
  sys_step s (EAssign all_taken) = Val (s', out) -> ~ NoDup (told_peers out).
Proof.
  intros hs s s' out i p S R FW LA AS LS E ND. pose proof (C65_count_always R FW LA E) as LO. destruct (reach_inv_m R) as [I _].
  assert (X : length (told_peers out) = length out /\ incl (told_peers out) S).
  { assert (G : forall o, In o out -> exists q h, o = OStart q h i /\ In q S).
    { cbn [sys_step] in E. destruct (m_assign (fst s) all_taken) as [[m' o']| |] eqn:H; try discriminate. injection E as <- <-.
      destruct (assign_is_loop _ I H) as [H' L]. clear - I H' L AS FW. remember (9 - count_true (bits (m_pieces (fst s)))) as k eqn:EK. clear EK.
      cbn [snd]. revert I H' L AS FW. generalize (fst s). intro m. revert m m' o'. induction k as [|k IH]; intros m m' o' I H L AS FW; cbn [assign_loop] in H.
      { injection H as <- <-. intros o []. }
      destruct (select_exact I) as (r & E & R). rewrite E in H. cbn [rbind] in H. destruct r as [[[q j] h]|]; [|injection H as <- <-; intros o []].
      destruct R as (W & LE & HH & SQ). destruct FW as [FW1 FW2]. assert (j = i). { destruct (Nat.lt_trichotomy i j) as [X|[X|X]]; auto; exfalso; [eapply LE|eapply FW2]; eauto. } subst j.
      assert (KQ : In q (map fst (m_active m))) by (destruct SQ as (inf & IN & _); apply (in_map fst) in IN; auto).
      unfold start_piece in H. destruct (existsb _ _ && _).
      - destruct (@mark_spec _ m q i I KQ) as (m1 & E1 & I1 & _ & K1 & _ & C1 & L1 & F1 & W1 & _).
        { destruct W as (_ & B & _). rewrite (bo_len (i_local I)) in B. auto. } { lia. }
        rewrite E1 in H. cbn [rmap rbind fst snd] in H. destruct (assign_loop m1 all_taken k) as [[m2 o2]| |] eqn:A; try discriminate. cbn in H. injection H as <- <-.
        destruct (mark_wt q i I KQ E1) as (_ & MO & _). intros o [<-|Ho].
        + exists q, h. split; auto. apply AS. apply suit_offers in SQ as [? _]; [auto|apply (i_nodup I)].
        + apply (IH m1 m2 o2 I1 A); auto; [lia|intros x Hx; apply AS, MO; auto|]. unfold first_wanted, wanted in *. rewrite L1, F1. auto.
      - cbn [rbind fst snd] in H. destruct (assign_loop m all_taken k) as [[m2 o2]| |] eqn:A; try discriminate. cbn in H. injection H as <- <-.
        intros o Ho. apply (IH m m2 o2 I A); auto; [lia|split; auto]. }
    clear - G. induction out as [|o out IH]; [split; [reflexivity|intros x []]|]. destruct (G o) as (q & h & -> & HQ); [left; auto|].
    destruct IH as [A B]; [intros; apply G; right; auto|]. cbn [told_peers flat_map app]. fold (told_peers out). split; [cbn [length]; auto|]. intros x [<-|Hx]; auto. }
  destruct X as [X1 X2]. pose proof (NoDup_incl_length ND X2). lia.
Qed.
(** Nobody is told twice if all who have the piece and work on fewer than four
    pieces work on three others. *)
Theorem C65_spread_partial : forall hs s s' out i S, sys_reach hs s -> first_wanted (fst s) i -> NoDup S -> (forall q, In q S <-> suitable (fst s) i q) ->
  (forall q, In q S -> load (fst s) q 3 /\ ~ works (fst s) q i) -> sys_step s (EAssign all_taken) = Val (s', out) ->
  NoDup (told_peers out) /\ incl (told_peers out) S /\ length out = Nat.min (length S) (9 - count_true (bits (m_pieces (fst s)))).
Proof.
  intros hs s s' out i S R FW NS SS LA E. destruct (reach_inv_m R) as [I _]. cbn [sys_step] in E. destruct (m_assign (fst s) all_taken) as [[m' o']| |] eqn:H; try discriminate. injection E as <- <-.
  destruct (assign_is_loop _ I H) as [H' L].
  assert (LB : forall q, In q S -> wt (fst s) q = 3 /\ wkb (fst s) q i = false).
  { intros q Hq. destruct (LA q Hq) as [A B]. split; [apply wt_load; auto; apply (i_nodup I)|]. destruct (wkb (fst s) q i) eqn:Z; auto. apply wkb_works in Z; [contradiction|apply (i_nodup I)]. }
  destruct (@loop_once _ _ _ _ _ i S I L (reach_known R) FW NS SS LB H') as (A & B & C). auto.
Qed.

(** ** Examples *)
(** Only the first command of a round gets through. *)
Definition first_taken (k : nat) : bool := k =? 8.
(** Two peers offer piece 0, one of them works on it already. *)
Definition ex_two : list (mevent * list mout) :=
  ex_history ++ [(EMsg (pa 2) CUnchoke, []); (EMsg (pa 2) (CHave 0), []); (EAssign first_taken, [OStart (pa 1) (hash0 x01) 0])].
Example C124_example : exists s, sys_reach three s /\ select_piece (fst s) = Val (Some (pa 2, 0, hash0 x01)) /\
  load (fst s) (pa 2) 0 /\ offers (fst s) (pa 1) 0 /\ load (fst s) (pa 1) 1.
Proof.
  eexists. split.
  - eexists. exists ex_two. split; [eexists; split; [vm_compute; reflexivity|reflexivity]|]. cbn [ex_two ex_history app]. do 8 go. apply sr_nil.
  - split; [vm_compute; reflexivity|]. split; [|split].
    + eexists. split; [cbn; auto|reflexivity].
    + eexists. split; [left; reflexivity|]. vm_compute. auto.
    + eexists. split; [left; reflexivity|reflexivity].
Qed.
Example C65_count_example : exists s, sys_reach three s /\ first_wanted (fst s) 0 /\ lasting (fst s) (pa 1) 0 /\
  count_true (bits (m_pieces (fst s))) = 0 /\ forall q, offers (fst s) q 0 -> In q [pa 1].
Proof.
  eexists. split.
  - eexists. exists ex_history. split; [eexists; split; [vm_compute; reflexivity|reflexivity]|]. do 5 go. apply sr_nil.
  - split; [split; [vm_compute; auto|lia]|]. split; [|split; [reflexivity|]].
    + split; [eexists; split; [left; reflexivity|vm_compute; auto]|]. exists 0. split; [eexists; split; [left; reflexivity|reflexivity]|]. left. lia.
    + intros q (inf & [X|[X|[]]] & B & C); injection X as <- <-; [left; auto|discriminate B].
Qed.
(** A peer that works on pieces 3, 2 and 1 is told once to fetch piece 0. *)
Definition four : list ID := [hash0 x01; hash0 x02; hash0 x03; hash0 x04].
Definition nth_taken (n k : nat) : bool := k =? n.
Definition ex_busy : list (mevent * list mout) :=
  [(ETable (QExtend [pa 1]), []); (ERefresh, [OSpawn (pa 1)]); (EMsg (pa 1) CUnchoke, []);
   (EMsg (pa 1) (CHave 3), []); (EAssign (nth_taken 8), [OStart (pa 1) (hash0 x04) 3]);
   (EMsg (pa 1) (CHave 2), []); (EAssign (nth_taken 7), [OStart (pa 1) (hash0 x03) 2]);
   (EMsg (pa 1) (CHave 1), []); (EAssign (nth_taken 6), [OStart (pa 1) (hash0 x02) 1]); (EMsg (pa 1) (CHave 0), [])].
Example C65_spread_example : exists s s', sys_reach four s /\ first_wanted (fst s) 0 /\ (forall q, In q [pa 1] <-> suitable (fst s) 0 q) /\
  load (fst s) (pa 1) 3 /\ ~ works (fst s) (pa 1) 0 /\ sys_step s (EAssign all_taken) = Val (s', [OStart (pa 1) (hash0 x01) 0]).
Proof.
  eexists. eexists. split.
  - eexists. exists ex_busy. split; [eexists; split; [vm_compute; reflexivity|reflexivity]|]. cbn [ex_busy]. do 10 go. apply sr_nil.
  - split; [split; [split; [reflexivity|split; [apply Nat.ltb_lt; reflexivity|reflexivity]]|lia]|]. split; [|split; [|split]].
    + intro q. split.
      * intros [<-|[]]. eexists. split; [left; reflexivity|]. vm_compute. auto.
      * intros (inf & [X|[]] & _). injection X as <- _. left. auto.
    + eexists. split; [left; reflexivity|reflexivity].
    + intros (inf & [X|[]] & B). injection X as <-. discriminate B.
    + vm_compute. reflexivity.
Qed.
Print Assumptions C124_least_busy.
Print Assumptions C124_at_most_four.
Print Assumptions C65_count_always.
Print Assumptions C65_repeated_always.
Print Assumptions C65_spread_partial.
