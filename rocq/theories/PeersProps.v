(** Properties C25-C28: the peer table. *)
From Coq Require Import List NArith ZArith Lia Bool Arith Permutation.
From Coq Require Import Init.Byte.
From Verif Require Import Base Assoc IdModel WireModel PeersModel PeersSpec PeersProofs.
Import ListNotations.
Set Implicit Arguments.

Definition pa (n : N) : addr := mk_addr x01 x02 x03 x04 n.

(** Status with which a peer was last returned, if it was. *)
Definition last_returned (bad : list (addr * status)) (p : addr) : option status :=
  fold_left (fun acc ps => if addr_eqb (fst ps) p then Some (snd ps) else acc) bad None.
Lemma return_status : forall bad m p st, NoDup (map fst m) ->
  (status_of (q_return m bad) p st <-> match last_returned bad p with Some st' => st = st' | None => status_of m p st end).
Proof.
  intro bad. induction bad as [|[q sq] t IH] using rev_ind; intros m p st N; [cbn; tauto|].
  unfold q_return, last_returned. rewrite !fold_left_app. cbn [fold_left fst snd].
  fold (q_return m t). fold (last_returned t p). destruct (@return_keys t m N) as [N1 _].
  destruct (addr_eqb q p) eqn:E.
  - apply addr_eqb_spec in E. subst q. rewrite status_get by (apply NoDup_qset; auto). unfold qget, qset.
    rewrite (mget_mset_same _ addr_eqb_spec). split; congruence.
  - rewrite qset_status_other; auto. intro X. subst q. assert (addr_eqb p p = true) by (apply addr_eqb_spec; auto). congruence.
Qed.

(** ** C25 *)
(** [m1] is the table after the returned peers got their new status. *)
Theorem C25_batch : forall m bad limit, NoDup (map fst m) ->
  exists m1 m' out, q_batch m bad limit = Val (m', out) /\ NoDup (map fst m1) /\
    (forall p st, status_of m1 p st <-> match last_returned bad p with Some st' => st = st' | None => status_of m p st end) /\
    good_batch batch_rank limit m1 m' out.
Proof.
  intros m bad limit N. exists (q_return m bad). destruct (@return_keys bad m N) as [N1 _].
  destruct (@batch_spec limit _ N1) as (m' & out & E & G). exists m', out. split; auto. split; auto. split; auto.
  intros. apply return_status. auto.
Qed.
Theorem C25_good_peers : forall m limit, NoDup (map fst m) ->
  exists m' out, q_good m limit = Val (m', match out with [] => None | _ => Some out end) /\ good_batch good_rank limit m m' out.
Proof.
  intros m limit N. destruct (@good_spec limit _ N) as (m' & out & E & G). exists m', out. split; auto.
  unfold q_good. rewrite E. cbn [rmap fst snd]. destruct out; reflexivity.
Qed.
(** Peers heard of become available (or available again); others keep their
    status. *)
Theorem C25_learnt_available : forall m ps, NoDup (map fst m) ->
  exists m', q_step m (QExtend ps) = Val (m', []) /\ forall p st,
    (In p ps -> (status_of m' p st <-> st = Unknown)) /\ (~ In p ps -> (status_of m' p st <-> status_of m p st)).
Proof.
  intros m ps N. eexists. split; [reflexivity|]. intros p st. revert m N. induction ps as [|q ps IH] using rev_ind; intros m N.
  - split; [intros []|]. intros _. reflexivity.
  - unfold q_extend. rewrite fold_left_app. cbn [fold_left]. fold (q_extend m ps).
    destruct (@extend_keys ps m N) as [N1 _]. unfold q_insert. destruct (addr_dec p q) as [->|NE].
    + split; [|intro H; exfalso; apply H; apply in_or_app; right; left; auto]. intros _.
      rewrite status_get by (apply NoDup_qset; auto). unfold qget, qset. rewrite (mget_mset_same _ addr_eqb_spec). split; congruence.
    + rewrite qset_status_other by auto. destruct (IH m N) as [A B]. split; intro H.
      * apply A. apply in_app_or in H as [H|[H|[]]]; auto. congruence.
      * apply B. intro X. apply H. apply in_or_app. auto.
Qed.
Definition ex_tab : peers := [(pa 1, UnableToConnect); (pa 2, Active); (pa 3, NoUsefulPieces); (pa 4, Unknown); (pa 5, Unknown)].
Example C25_example : NoDup (map fst ex_tab) /\
  q_batch ex_tab [(pa 2, ChokedForTooLong)] 4 =
    Val ([(pa 1, UnableToConnect); (pa 2, Active); (pa 3, Active); (pa 4, Active); (pa 5, Active)], [pa 4; pa 5; pa 3; pa 2]) /\
  q_good ex_tab 2 =
    Val ([(pa 1, UnableToConnect); (pa 2, Active); (pa 3, Active); (pa 4, Unknown); (pa 5, Unknown)], Some [pa 2; pa 3]).
Proof.
  split; [|split; vm_compute; reflexivity].
  cbn. repeat constructor; cbn; intuition discriminate.
Qed.

(** ** C26 *)
(** Part: until somebody names the peer again (returned, or learnt again), no
    batch contains it. *)
Theorem C26_not_handed_out_again_partial : forall m bad limit out h m' p, NoDup (map fst m) ->
  qrun m ((QBatch bad limit, out) :: h) m' -> In p out ->
  (forall o out', In (o, out') h -> ~ In p (names o)) ->
  forall bad' limit' out', In (QBatch bad' limit', out') h -> ~ In p out'.
Proof.
  intros m bad limit out h m' p N R Hp HN. inversion R as [|? m1 ? m2 ? ? ? P E R2]; subst.
  assert (N1 : NoDup (map fst m1)) by (eapply Permutation_NoDup; [apply Permutation_map|]; eauto).
  assert (A : status_of m2 p Active).
  { cbn [q_step] in E. unfold q_batch in E. destruct (@return_keys bad m1 N1) as [N3 _].
    destruct (@batch_spec limit _ N3) as (m3 & o3 & E3 & G). rewrite E in E3. injection E3 as <- <-. apply (gb_marked G). auto. }
  assert (N2 : NoDup (map fst m2)).
  { destruct (@step_keys m1 (QBatch bad limit) N1) as (m3 & o3 & E3 & N3 & _). rewrite E in E3. injection E3 as <- <-. auto. }
  clear - R2 A N2 HN. induction R2 as [m m' P|m m1 o m2 out h m' P E R2 IH]; intros bad' limit' out' HI; [destruct HI|].
  assert (N1 : NoDup (map fst m1)) by (eapply Permutation_NoDup; [apply Permutation_map|]; eauto).
  assert (A1 : status_of m1 p Active) by (eapply Permutation_in; eauto).
  destruct (@stays_active m1 o m2 out p N1 E A1) as [A2 B2]; [eapply HN; left; eauto|].
  assert (N3 : NoDup (map fst m2)).
  { destruct (@step_keys m1 o N1) as (m3 & o3 & E3 & N3 & _). rewrite E in E3. injection E3 as <- <-. auto. }
  destruct HI as [HI|HI].
  - injection HI as -> ->. eapply B2. reflexivity.
  - eapply IH; eauto. intros. eapply HN. right; eauto.
Qed.
Example C26_example : exists m', qrun ex_tab [(QBatch [] 2, [pa 4; pa 5]); (QExtend [pa 9], []); (QBatch [] 2, [pa 9; pa 3])] m'.
Proof.
  eexists. eapply qr_cons; [apply Permutation_refl|vm_compute; reflexivity|].
  eapply qr_cons; [apply Permutation_refl|vm_compute; reflexivity|].
  eapply qr_cons; [apply Permutation_refl|vm_compute; reflexivity|]. apply qr_nil. apply Permutation_refl.
Qed.
(** Hearing of a peer again, or asking for good peers, hands out a peer in use. *)
Theorem C26_refuted_by_insert : exists m p m1 m2 m3, q_step m (QBatch [] 1) = Val (m1, [p]) /\
  q_step m1 (QExtend [p]) = Val (m2, []) /\ q_step m2 (QBatch [] 1) = Val (m3, [p]).
Proof.
  exists [(pa 1, Unknown)], (pa 1). do 3 eexists. repeat split; vm_compute; reflexivity.
Qed.
Theorem C26_not_handed_out_again_refuted : exists m p h m', NoDup (map fst m) /\ qrun m h m' /\
  (forall o out, In (o, out) h -> forall bad l, o = QBatch bad l -> bad = []) /\
  exists a b c la lb, h = a ++ (QBatch [] la, [p]) :: b ++ (QBatch [] lb, [p]) :: c.
Proof.
  exists [(pa 1, Unknown)], (pa 1), [(QBatch [] 1, [pa 1]); (QInsert (pa 1), []); (QBatch [] 1, [pa 1])]. eexists. split; [|split; [|split]].
  - cbn. repeat constructor; intros [].
  - eapply qr_cons; [apply Permutation_refl|vm_compute; reflexivity|].
    eapply qr_cons; [apply Permutation_refl|vm_compute; reflexivity|].
    eapply qr_cons; [apply Permutation_refl|vm_compute; reflexivity|]. apply qr_nil. apply Permutation_refl.
  - intros o out [H|[H|[H|[]]]] bad l E; injection H as <- <-; try discriminate; injection E as <- <-; auto.
  - exists [], [(QInsert (pa 1), [])], [], 1, 1. reflexivity.
Qed.
Theorem C26_good_peers_in_use_refuted : exists m p m1 m2, q_step m (QBatch [] 1) = Val (m1, [p]) /\
  q_step m1 (QGood 1) = Val (m2, [p]).
Proof. exists [(pa 1, Unknown)], (pa 1). do 2 eexists. split; vm_compute; reflexivity. Qed.

(** ** C27 *)
Theorem C27_peers_never_lost : forall h m', qrun [] h m' ->
  NoDup (q_addresses m') /\ forall p, In p (q_addresses m') <-> exists o out, In (o, out) h /\ In p (names o).
Proof.
  intros h m' R. destruct (qrun_keys R) as [A B]; [constructor|]. split; auto. intro p. unfold q_addresses, keys. rewrite B. cbn. tauto.
Qed.
(** Every history runs: no operation aborts. *)
Theorem C27_total : forall m o, NoDup (map fst m) -> exists m' out, q_step m o = Val (m', out) /\ NoDup (map fst m').
Proof. intros m o N. destruct (@step_keys m o N) as (m' & out & E & N' & _). eauto. Qed.
Example C27_example : exists m', qrun [] [(QExtend [pa 1; pa 2; pa 1], []); (QBatch [(pa 3, UnableToConnect)] 2, [pa 1; pa 2]); (QInsert (pa 2), [])] m' /\ length m' = 3.
Proof.
  eexists. split.
  - eapply qr_cons; [apply Permutation_refl|vm_compute; reflexivity|].
    eapply qr_cons; [apply Permutation_refl|vm_compute; reflexivity|].
    eapply qr_cons; [apply Permutation_refl|vm_compute; reflexivity|]. apply qr_nil. apply Permutation_refl.
  - reflexivity.
Qed.

(** ** C28 *)
Definition reachable_peers (m : peers) : list (addr * status) :=
  filter (fun ps => negb (status_eqb (snd ps) UnableToConnect)) m.
(** Part: the answer, the set of peers and unreachable peers are right. *)
Theorem C28_enough_answer_partial : forall umax m, NoDup (map fst m) -> length m < umax ->
  exists m' b, q_enough umax m = Val (m', b) /\ (b = true <-> 128 <= length (reachable_peers m)) /\
    map fst m' = map fst m /\ (forall p, status_of m p UnableToConnect -> status_of m' p UnableToConnect).
Proof.
  intros umax m N L. destruct (@good_spec umax _ N) as (m' & out & E & G). unfold q_enough, q_good. rewrite E. cbn [rmap fst snd].
  do 2 eexists. split; [reflexivity|].
  assert (IO : forall p, In p out <-> In p (map fst (reachable_peers m))).
  { intro p. unfold reachable_peers. rewrite in_map_iff. split.
    - intro H. destruct (gb_eligible G p H) as (st & r & S & R). exists (p, st). split; auto. apply filter_In. split; auto.
      destruct st; auto; discriminate.
    - intros ([p' st] & <- & H). apply filter_In in H as [H1 H2]. cbn in H2.
      destruct (gb_maximal G) as [M|M].
      + exfalso. assert (X : length out <= length (map fst m)).
        { apply NoDup_incl_length; [apply (gb_nodup G)|]. intros q Hq. destruct (gb_eligible G q Hq) as (s & r & S & _).
          apply (in_map fst) in S. exact S. }
        rewrite map_length in X. lia.
      + destruct st; try discriminate; eapply M; eauto; reflexivity. }
  assert (NR : NoDup (map fst (reachable_peers m))).
  { unfold reachable_peers. clear - N. induction m as [|[p st] t IH]; cbn; [constructor|].
    cbn in N. inversion N; subst. destruct (negb _); cbn; auto. constructor; auto.
    intro H. apply H1. apply in_map_iff in H as (x & <- & H). apply filter_In in H as [H _]. apply in_map. auto. }
  assert (LE : length out = length (reachable_peers m)).
  { rewrite <- (map_length fst (reachable_peers m)). apply Permutation_length. apply NoDup_Permutation; auto. apply (gb_nodup G). }
  split; [|split].
  - rewrite Nat.leb_le. destruct out; rewrite <- LE; cbn; unfold ENOUGH_GOOD_PEERS; tauto.
  - apply (gb_same_peers G).
  - intros p H. apply (gb_frame G); auto. intro X. destruct (gb_eligible G p X) as (st & r & S & R).
    pose proof (@status_fun m p _ _ N S H). subst st. discriminate.
Qed.
Example C28_example : NoDup (map fst ex_tab) /\ length ex_tab < 6 /\ length (reachable_peers ex_tab) = 4.
Proof. split; [apply C25_example|]. split; cbn; lia. Qed.
(** Asking marks every reachable peer as in use, so none is left for batches. *)
Theorem C28_enough_no_side_effect_refuted : exists m m' b, NoDup (map fst m) /\ q_enough 1000 m = Val (m', b) /\
  m' <> m /\ (exists m1 p, q_batch m [] 1 = Val (m1, [p])) /\ exists m2, q_batch m' [] 1 = Val (m2, []).
Proof.
  exists [(pa 1, Unknown)]. do 2 eexists. split; [cbn; repeat constructor; intros []|].
  split; [reflexivity|]. split; [discriminate|]. split; [do 2 eexists; reflexivity|]. eexists; reflexivity.
Qed.

(** Always: all reachable peers are marked, whatever the answer, and a batch
    taken next contains unreachable peers only. *)
Theorem C28_marks_all_always : forall umax m m' b, NoDup (map fst m) -> length m < umax -> q_enough umax m = Val (m', b) ->
  (forall p st, status_of m p st -> status_of m' p (match st with UnableToConnect => UnableToConnect | _ => Active end)) /\
  forall limit m2 out p, q_batch m' [] limit = Val (m2, out) -> In p out -> status_of m p UnableToConnect.
Proof.
  intros umax m m' b N L E. destruct (@good_spec umax _ N) as (m1 & out & E1 & G). unfold q_enough, q_good in E. rewrite E1 in E. cbn [rmap fst snd] in E.
  injection E as <- _.
  assert (ST : forall p st, status_of m p st -> status_of m1 p (match st with UnableToConnect => UnableToConnect | _ => Active end)).
  { intros p st S. destruct (in_dec addr_dec p out) as [IN|NI].
    - destruct (gb_eligible G p IN) as (st' & r & S' & R). pose proof (@status_fun m p _ _ N S S'). subst st'.
      pose proof (gb_marked G p IN). destruct st; auto; discriminate.
    - assert (U : st = UnableToConnect).
      { destruct (gb_maximal G) as [M|M].
        - exfalso. assert (X : length out <= length (map fst m)).
          { apply NoDup_incl_length; [apply (gb_nodup G)|]. intros q Hq. destruct (gb_eligible G q Hq) as (s & r & S' & _).
            apply (in_map fst) in S'. exact S'. }
          rewrite map_length in X. lia.
        - destruct st; auto; exfalso; apply NI; eapply M; eauto; reflexivity. }
      subst st. apply (gb_frame G); auto. }
  split; auto. intros limit m2 o p B IN. pose proof (gb_same_peers G) as K. assert (N1 : NoDup (map fst m1)) by (rewrite K; auto).
  unfold q_batch in B. cbn [q_return fold_left] in B. destruct (@batch_spec limit _ N1) as (m3 & o3 & E3 & G3). rewrite E3 in B. injection B as <- <-.
  destruct (gb_eligible G3 p IN) as (st & r & S & R).
  assert (KP : In p (map fst m)). { rewrite <- K. apply (in_map fst) in S. exact S. }
  apply in_map_iff in KP as ([q st0] & EQ & KP). cbn in EQ. subst q. pose proof (ST _ _ KP) as S2. pose proof (@status_fun m1 p _ _ N1 S S2). subst st.
  destruct st0; try discriminate. exact KP.
Qed.

Print Assumptions C25_batch.
Print Assumptions C25_good_peers.
Print Assumptions C25_learnt_available.
Print Assumptions C26_not_handed_out_again_partial.
Print Assumptions C26_not_handed_out_again_refuted.
Print Assumptions C26_good_peers_in_use_refuted.
Print Assumptions C27_peers_never_lost.
Print Assumptions C27_total.
Print Assumptions C28_enough_answer_partial.
Print Assumptions C28_enough_no_side_effect_refuted.
Print Assumptions C28_marks_all_always.
