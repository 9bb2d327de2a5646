(** C62 continued: what a block received twice does, and that histories
    without one never abort. *)
From Coq Require Import List NArith ZArith Lia Bool Arith Permutation.
From Coq Require Import Init.Byte.
From Verif Require Import Base Assoc BitmapModel IdModel WireModel PendingModel PendingSpec PendingProofs PendingProps.
Import ListNotations.
Set Implicit Arguments.

Definition held (p : pc) : nat := length (filter is_downloaded (pc_data p)).

Lemma held_upd : forall l b d, length (filter is_downloaded (upd l b (Downloaded d))) <= S (length (filter is_downloaded l)).
Proof.
  induction l as [|y t IH]; intros b d; [destruct b; cbn; lia|]. destruct b as [|b]; cbn.
  - destruct (is_downloaded y); cbn; lia.
  - specialize (IH b d). destruct (is_downloaded y); cbn; lia.
Qed.
Lemma held_again : forall l b d d0, nth_error l b = Some (Downloaded d0) ->
  length (filter is_downloaded (upd l b (Downloaded d))) = length (filter is_downloaded l).
Proof.
  induction l as [|y t IH]; intros b d d0 H; [destruct b; discriminate|]. destruct b as [|b]; cbn in H |- *.
  - injection H as ->. reflexivity.
  - destruct (is_downloaded y); cbn; erewrite IH by eauto; reflexivity.
Qed.
Lemma held_all : forall l ds, blocks_data l = Val ds -> length (filter is_downloaded l) = length l.
Proof.
  induction l as [|[| |d] t IH]; intros ds H; cbn in *; try discriminate; auto.
  destruct (blocks_data t) as [u| |]; try discriminate. erewrite IH by eauto. reflexivity.
Qed.
(** What an operation does to one piece: nothing to the counts, one more block
    counted, or completion. *)
Lemma step_piece : forall c s o s' out k p, wf_pp s -> pp_step c s o = Val (s', out) -> pmget k (pp_data s) = Some p ->
  (exists p', pmget k (pp_data s') = Some p' /\ (forall ds, out <> PBlock (ARLast k ds)) /\
     (pc_downloaded p' = pc_downloaded p /\ held p' = held p \/ pc_downloaded p' = S (pc_downloaded p) /\ pc_downloaded p + 1 <> pp_bpp s /\ held p' <= S (held p))) \/
  (pmget k (pp_data s') = None /\ pc_downloaded p + 1 = pp_bpp s /\ pp_bpp s <= S (held p)).
Proof.
  intros c s o s' out k p W H G. destruct o as [i|i b d|now ps buf cap|a]; cbn [pp_step] in H.
  - left. destruct (in_dec Nat.eq_dec i (map fst (pp_data s))) as [I|I].
    + rewrite add_piece_known in H by auto. injection H as <- <-. exists p. split; auto. split; [discriminate|auto].
    + destruct (Nat.lt_ge_cases (n_in_flight s) 10) as [L|L].
      * rewrite add_piece_new in H by auto. injection H as <- <-. exists p. split; [|split; [discriminate|auto]].
        unfold pp_with. cbn [pp_data]. unfold pmget, pmset. rewrite (mget_mset_other _ neqb_spec); auto.
        intros ->. apply I. apply pmget_keys. eauto.
      * rewrite add_piece_full in H by auto. injection H as <- <-. exists p. split; auto. split; [discriminate|auto].
  - destruct (pp_check_bounds s b d) eqn:EC.
    2:{ rewrite add_block_refused in H by auto. injection H as <- <-. left. exists p. split; auto. split; [discriminate|auto]. }
    destruct (pmget i (pp_data s)) as [q|] eqn:Gi.
    2:{ rewrite add_block_refused in H by (right; apply pmget_none; auto). injection H as <- <-. left. exists p. split; auto. split; [discriminate|auto]. }
    rewrite (@add_block_some c s i b d q W EC Gi) in H.
    destruct (usize_dec c (pc_pending q)) as [pend| |]; cbn [rbind rmap] in H; try discriminate. cbv zeta in H.
    destruct (Nat.eqb_spec (pp_bpp s) (pc_downloaded q + 1)) as [E|E].
    + destruct (blocks_data _) as [ds| |] eqn:ED; cbn [rbind rmap fst snd] in H; try discriminate. injection H as <- <-.
      destruct (Nat.eq_dec i k) as [->|N].
      * right. rewrite G in Gi. injection Gi as <-. split; [|split; [auto|]].
        { unfold pp_with. cbn [pp_data]. unfold pmget, pmdel. apply (mget_mdel_same _ neqb_spec). apply W. }
        apply held_all in ED. rewrite upd_length in ED.
        rewrite (wf_get _ W G) in ED. rewrite <- ED. apply held_upd.
      * left. exists p. split; [|split; [intros ds' X; injection X as X _; auto|auto]]. unfold pp_with. cbn [pp_data]. unfold pmget, pmdel. rewrite (mget_mdel_other _ neqb_spec); auto.
    + cbn [rmap fst snd] in H. injection H as <- <-. left. unfold pp_with. cbn [pp_data]. unfold pmget, pmset. destruct (Nat.eq_dec i k) as [->|N].
      * rewrite G in Gi. injection Gi as <-. rewrite (mget_mset_same _ neqb_spec). eexists. split; [reflexivity|]. split; [discriminate|].
        right. unfold held. cbn [pc_downloaded pc_data]. split; [lia|split; [lia|apply held_upd]].
      * rewrite (mget_mset_other _ neqb_spec); auto. exists p. split; auto. split; [discriminate|auto].
  - left. destruct (pp_owner s) as [ow|] eqn:EO.
    + rewrite (pp_take_spec s now ps buf cap EO) in H. cbv zeta in H.
      assert (M1 : exists p1, pmget k (mark_map is_unbegun ow now ps (pp_data s)) = Some p1 /\ pc_downloaded p1 = pc_downloaded p /\ held p1 = held p).
      { rewrite mark_map_get, G. eexists. split; [reflexivity|]. apply mark_pc_counts. apply unbegun_nd. }
      destruct M1 as (p1 & G1 & A1 & B1).
      destruct (_ =? _); cbn [rmap fst snd] in H; injection H as <- <-.
      * exists p1. split; auto. split; [discriminate|auto].
      * unfold pp_with. cbn [pp_data]. rewrite mark_map_get, G1. eexists. split; [reflexivity|]. split; [discriminate|]. left.
        rewrite <- A1, <- B1. apply mark_pc_counts. apply expired_nd.
    + unfold pp_take in H. rewrite EO in H.
      destruct (take_pass is_unbegun None now ps (pp_data s)) as [r1| |] eqn:E1; cbn [rbind rmap] in H; try discriminate.
      apply take_pass_none in E1. subst r1. cbn [fst snd] in H.
      destruct (_ =? _); cbn [rmap fst snd] in H; [injection H as <- <-; exists p; split; auto; split; [discriminate|auto]|].
      destruct (take_pass (is_expired now) None now ps (pp_data s)) as [r2| |] eqn:E2; cbn [rbind rmap] in H; try discriminate.
      apply take_pass_none in E2. subst r2. injection H as <- <-. exists p. split; auto. split; [discriminate|auto].
  - left. injection H as <- <-. rewrite cancel_get, G. eexists. split; [reflexivity|]. split; [discriminate|]. left.
    unfold held. cbn [pc_downloaded pc_data]. split; auto. apply filter_map_same.
    intro y. destruct (is_expected_from a y) eqn:E; auto. apply expected_nd in E. auto.
Qed.
(** A piece that appears is empty. *)
Lemma step_new : forall c s o s' out k p', wf_pp s -> pp_step c s o = Val (s', out) -> pmget k (pp_data s) = None ->
  pmget k (pp_data s') = Some p' -> pc_downloaded p' = 0 /\ held p' = 0.
Proof.
  intros c s o s' out k p' W H G G'. destruct o as [i|i b d|now ps buf cap|a]; cbn [pp_step] in H.
  - destruct (in_dec Nat.eq_dec i (map fst (pp_data s))) as [I|I].
    + rewrite add_piece_known in H by auto. injection H as <- <-. congruence.
    + destruct (Nat.lt_ge_cases (n_in_flight s) 10) as [L|L].
      * rewrite add_piece_new in H by auto. injection H as <- <-. unfold pp_with in G'. cbn [pp_data] in G'. unfold pmget, pmset in *.
        destruct (Nat.eq_dec i k) as [->|N].
        -- rewrite (mget_mset_same _ neqb_spec) in G'. injection G' as <-. unfold held. cbn [pc_downloaded pc_data]. split; auto.
           clear. induction (pp_bpp s); cbn; auto.
        -- rewrite (mget_mset_other _ neqb_spec) in G' by auto. congruence.
      * rewrite add_piece_full in H by auto. injection H as <- <-. congruence.
  - exfalso. destruct (pp_check_bounds s b d) eqn:EC.
    2:{ rewrite add_block_refused in H by auto. injection H as <- <-. congruence. }
    destruct (pmget i (pp_data s)) as [q|] eqn:Gi.
    2:{ rewrite add_block_refused in H by (right; apply pmget_none; auto). injection H as <- <-. congruence. }
    assert (N : i <> k) by congruence.
    rewrite (@add_block_some c s i b d q W EC Gi) in H.
    destruct (usize_dec c (pc_pending q)) as [pend| |]; cbn [rbind rmap] in H; try discriminate. cbv zeta in H.
    destruct (_ =? _).
    + destruct (blocks_data _) as [ds| |] eqn:ED; cbn [rbind rmap fst snd] in H; try discriminate. injection H as <- <-.
      unfold pp_with in G'. cbn [pp_data] in G'. unfold pmget, pmdel in *. rewrite (mget_mdel_other _ neqb_spec) in G'; auto. congruence.
    + cbn [rmap fst snd] in H. injection H as <- <-. unfold pp_with in G'. cbn [pp_data] in G'. unfold pmget, pmset in *.
      rewrite (mget_mset_other _ neqb_spec) in G'; auto. congruence.
  - exfalso. destruct (pp_owner s) as [ow|] eqn:EO.
    + rewrite (pp_take_spec s now ps buf cap EO) in H. cbv zeta in H.
      destruct (_ =? _); cbn [rmap fst snd] in H; injection H as <- <-; unfold pp_with in G'; cbn [pp_data] in G'; rewrite ?mark_map_get, G in G'; discriminate.
    + unfold pp_take in H. rewrite EO in H.
      destruct (take_pass is_unbegun None now ps (pp_data s)) as [r1| |] eqn:E1; cbn [rbind rmap] in H; try discriminate.
      apply take_pass_none in E1. subst r1. cbn [fst snd] in H.
      destruct (_ =? _); cbn [rmap fst snd] in H; [injection H as <- <-; unfold pp_with in G'; cbn [pp_data fst] in G'; congruence|].
      destruct (take_pass (is_expired now) None now ps (pp_data s)) as [r2| |] eqn:E2; cbn [rbind rmap] in H; try discriminate.
      apply take_pass_none in E2. subst r2. injection H as <- <-. unfold pp_with in G'. cbn [pp_data fst] in G'. congruence.
  - exfalso. injection H as <- <-. rewrite cancel_get, G in G'. discriminate.
Qed.
Lemma step_bpp : forall c s o s' out, pp_step c s o = Val (s', out) -> pp_bpp s' = pp_bpp s /\ pp_piece_length s' = pp_piece_length s.
Proof.
  intros c s o s' out H. destruct o as [i|i b d|now ps buf cap|a]; cbn [pp_step] in H.
  - unfold pp_add_piece in H. destruct (pmget i (pp_data s)); [injection H as <- <-; auto|].
    destruct (_ <=? _); [injection H as <- <-; auto|]. destruct (pc_new _) as [q| |]; cbn [rbind] in H; try discriminate; injection H as <- <-; auto.
  - unfold pp_add_block in H. destruct (negb _); [injection H as <- <-; auto|]. destruct (pmget i (pp_data s)) as [q|]; [|injection H as <- <-; auto].
    destruct (_ <=? b); [discriminate|]. destruct (usize_dec _ _); cbn [rbind rmap] in H; try discriminate. cbv zeta in H.
    destruct (_ =? _); [|injection H as <- <-; auto]. destruct (blocks_data _); cbn [rbind rmap] in H; try discriminate; injection H as <- <-; auto.
  - unfold pp_take in H. destruct (take_pass is_unbegun _ _ _ _) as [r1| |]; cbn [rbind rmap] in H; try discriminate. cbv zeta in H.
    destruct (_ =? _); [injection H as <- <-; auto|]. destruct (take_pass (is_expired now) _ _ _ _) as [r2| |]; cbn [rbind rmap] in H; try discriminate. injection H as <- <-; auto.
  - injection H as <- <-. auto.
Qed.
(** Never more blocks held than counted; fewer counted than a piece has. *)
Definition bounded (s : pp) : Prop := forall k p, pmget k (pp_data s) = Some p -> held p <= pc_downloaded p < pp_bpp s.
Lemma bounded_step : forall c s o s' out, wf_pp s -> bounded s -> pp_step c s o = Val (s', out) -> bounded s'.
Proof.
  intros c s o s' out W B H k p' G'. destruct (step_bpp _ _ _ H) as [-> _]. destruct (pmget k (pp_data s)) as [p|] eqn:G.
  - destruct (step_piece c o _ W H G) as [(p2 & G2 & _ & D)|[D _]]; [|congruence].
    rewrite G' in G2. injection G2 as <-. specialize (B _ _ G). destruct D as [[-> ->]|[-> D]]; lia.
  - destruct (step_new c o _ W H G G') as [-> ->]. split; auto. destruct W as (W1 & W2 & _). rewrite W2. apply n_blocks_pos; auto.
Qed.
Lemma preach_bounded : forall c s, preach c s -> bounded s.
Proof.
  intros c s R. induction R as [pl s E|s a R IH|s o s' out R IH H|s d R IH P].
  - unfold pp_new in E. destruct (unsigned_ceil_div _ _); try discriminate. injection E as <-. intros k p G. discriminate.
  - exact IH.
  - eapply bounded_step; eauto. eapply preach_wf; eauto.
  - intros k p G. unfold pp_with in G |- *. cbn [pp_data pp_bpp] in *. apply (IH k p). unfold pmget in *.
    rewrite (mget_perm _ neqb_spec k (proj1 (proj2 (proj2 (preach_wf R)))) P). exact G.
Qed.
(** A piece with more blocks counted than held stays so. *)
Definition over (s : pp) (k : nat) : Prop := exists p, pmget k (pp_data s) = Some p /\ held p < pc_downloaded p.
Lemma over_step : forall c s o s' out k, wf_pp s -> over s k -> pp_step c s o = Val (s', out) ->
  over s' k /\ forall ds, out <> PBlock (ARLast k ds).
Proof.
  intros c s o s' out k W (p & G & O) H. destruct (step_piece c o _ W H G) as [(p2 & G2 & N & D)|(_ & D1 & D2)]; [|lia].
  split; auto. exists p2. split; auto. lia.
Qed.
Lemma over_run : forall c ops s k s' outs, wf_pp s -> over s k -> pp_run c s ops = Val (s', outs) ->
  over s' k /\ forall ds, ~ In (PBlock (ARLast k ds)) outs.
Proof.
  intro c. induction ops as [|o t IH]; intros s k s' outs W O H; cbn [pp_run] in H.
  - injection H as <- <-. split; auto.
  - destruct (pp_step c s o) as [[s1 o1]| |] eqn:E; cbn [rbind rmap fst snd] in H; try discriminate.
    destruct (pp_run c s1 t) as [[s2 os]| |] eqn:E2; cbn [rbind rmap fst snd] in H; try discriminate.
    injection H as <- <-. destruct (over_step c o W O E) as [O1 N1].
    destruct (IH s1 k s2 os) as [O2 N2]; auto. { eapply wf_step; eauto. }
    split; auto. intros ds [X|X]; [eapply N1; eauto|eapply N2; eauto].
Qed.
Lemma replies_in : forall k ops outs r, In r (replies k ops outs) -> In (PBlock r) outs.
Proof.
  induction ops as [|o t IH]; intros [|x u] r H; cbn in H; try contradiction.
  - destruct o; contradiction.
  - destruct o as [i|i b d|now ps buf cap|a]; try (right; apply IH; exact H).
    destruct x; try (right; apply IH; exact H). destruct (i =? k); [|right; apply IH; exact H].
    destruct H as [->|H]; [left; auto|right; apply IH; exact H].
Qed.

Lemma repeat_over : forall c s k b d d0 s' r, preach c s -> block_at s k b = Some (Downloaded d0) ->
  pp_add_block c s k b d = Val (s', r) -> (r = ARFailed /\ s' = s) \/ (r = ARAdded /\ block_at s' k b = Some (Downloaded d) /\ over s' k).
Proof.
  intros c s k b d d0 s' r R BA H. pose proof (preach_wf R) as W. pose proof (preach_bounded R) as B. destruct (pp_check_bounds s b d) eqn:EC.
  2:{ rewrite add_block_refused in H by auto. injection H as <- <-. auto. }
  unfold block_at in BA. destruct (pmget k (pp_data s)) as [p|] eqn:G; [|discriminate]. right. specialize (B _ _ G).
  rewrite (@add_block_some c s k b d p W EC G) in H. destruct (usize_dec c (pc_pending p)) as [pend| |]; cbn [rbind] in H; try discriminate.
  cbv zeta in H. destruct (Nat.eqb_spec (pp_bpp s) (pc_downloaded p + 1)) as [E|E].
  - destruct (blocks_data _) as [ds1| |] eqn:ED; cbn [rbind] in H; try discriminate. exfalso.
    apply held_all in ED. rewrite upd_length, (wf_get _ W G), (@held_again _ b d d0 BA) in ED. unfold held in B. lia.
  - injection H as <- <-. split; auto. unfold block_at, over, pp_with. cbn [pp_data]. unfold pmget, pmset. rewrite !(mget_mset_same _ neqb_spec).
    cbn [pc_data]. split.
    + apply nth_error_upd_same. rewrite (wf_get _ W G). eapply check_bounds_lt; eauto.
    + eexists. split; [reflexivity|]. unfold held in *. cbn [pc_downloaded pc_data]. rewrite (@held_again _ b d d0 BA). lia.
Qed.

(** ** C62 *)
(** A piece is reported complete only when every other block of it is there,
    and with the data received. *)
Theorem C62_completion_partial : forall c s k b d s' q ds, preach c s -> pp_add_block c s k b d = Val (s', ARLast q ds) ->
  q = k /\ length ds = n_blocks (pp_piece_length s) /\ nth_error ds b = Some d /\
  forall b', b' < n_blocks (pp_piece_length s) -> b' <> b ->
    exists d', block_at s k b' = Some (Downloaded d') /\ nth_error ds b' = Some d'.
Proof.
  intros c s k b d s' q ds R H. pose proof (preach_wf R) as W. destruct (pp_check_bounds s b d) eqn:EC.
  2:{ rewrite add_block_refused in H by auto. discriminate. }
  destruct (pmget k (pp_data s)) as [p|] eqn:G.
  2:{ rewrite add_block_refused in H by (right; apply pmget_none; auto). discriminate. }
  rewrite (@add_block_some c s k b d p W EC G) in H. destruct (usize_dec c (pc_pending p)) as [pend| |]; cbn [rbind] in H; try discriminate.
  cbv zeta in H. destruct (_ =? _); [|discriminate]. destruct (blocks_data _) as [ds1| |] eqn:ED; cbn [rbind] in H; try discriminate.
  injection H as <- <- <-. apply blocks_data_inv in ED. destruct ED as [L N]. rewrite upd_length in L.
  pose proof (check_bounds_lt _ _ _ EC) as Lb. pose proof (wf_get _ W G) as WG. destruct W as (W1 & W2 & W3). rewrite <- W2.
  split; [auto|]. split; [lia|]. split.
  { apply N. apply nth_error_upd_same. lia. }
  intros b' Hb' Nb. destruct (nth_error ds1 b') as [d'|] eqn:E; [|apply nth_error_None in E; lia].
  exists d'. split; auto. unfold block_at. rewrite G. apply N in E. rewrite nth_error_upd_other in E by auto. exact E.
Qed.
(** The half that holds: a block that is there already never completes its
    piece. It is refused for its size, counted once more, or aborts (below). *)
Theorem C62_not_early_partial : forall c s k b d d0 s' r, preach c s -> block_at s k b = Some (Downloaded d0) ->
  pp_add_block c s k b d = Val (s', r) -> (r = ARFailed /\ s' = s) \/ (r = ARAdded /\ in_flight s' k /\ block_at s' k b = Some (Downloaded d)).
Proof.
  intros c s k b d d0 s' r R BA H. destruct (@repeat_over c s k b d d0 s' r R BA H) as [X|(A & B & (p & G & _))]; auto.
  right. split; auto. split; auto. apply pmget_keys. eauto.
Qed.
(** Once a block has been counted twice the piece is never reported complete,
    however the history goes on, and stays in flight. *)
Theorem C62_never_completes_always : forall c s k b d d0 s1 ops s2 outs, preach c s ->
  block_at s k b = Some (Downloaded d0) -> pp_add_block c s k b d = Val (s1, ARAdded) -> pp_run c s1 ops = Val (s2, outs) ->
  in_flight s2 k /\ forall ds, ~ In (ARLast k ds) (replies k ops outs).
Proof.
  intros c s k b d d0 s1 ops s2 outs R BA H RU. pose proof (preach_wf R) as W.
  destruct (@repeat_over c s k b d d0 s1 _ R BA H) as [[X _]|(_ & _ & O)]; [discriminate|].
  destruct (@over_run c ops s1 k s2 outs) as [(p & G & _) N]; auto.
  { eapply wf_add_block; eauto. }
  split. { apply pmget_keys. eauto. }
  intros ds I. apply replies_in in I. eapply N; eauto.
Qed.
(** With one block missing, another copy of any block that is there aborts. *)
Theorem C62_aborts_always : forall c s k b m d d0, preach c s -> acceptable s k b d ->
  pp_piece_length s mod BLOCK_SIZE <> 0 \/ b + 1 <> n_blocks (pp_piece_length s) ->
  block_at s k b = Some (Downloaded d0) ->
  m < n_blocks (pp_piece_length s) -> (forall x, block_at s k m <> Some (Downloaded x)) ->
  (forall b', b' < n_blocks (pp_piece_length s) -> b' <> m -> exists x, block_at s k b' = Some (Downloaded x)) ->
  pp_add_block c s k b d = Panic.
Proof.
  intros c s k b m d d0 R (IF & AB & AL) ML BA Lm Nm Am. pose proof (preach_wf R) as W. pose proof (preach_bounded R) as B.
  assert (EC : pp_check_bounds s b d = true) by (apply (check_bounds_spec _ d W ML); auto).
  unfold block_at in *. destruct (pmget k (pp_data s)) as [p|] eqn:G; [|discriminate]. specialize (B _ _ G).
  pose proof (wf_get _ W G) as WG. destruct W as (W1 & W2 & W3).
  assert (HM : S (held p) = pp_bpp s).
  { unfold held. rewrite <- WG. rewrite <- W2, <- WG in Lm, Am. clear - Lm Nm Am. revert m Lm Nm Am. induction (pc_data p) as [|y t IH]; intros m Lm Nm Am; cbn in Lm; [lia|].
    destruct m as [|m].
    - assert (E : is_downloaded y = false). { destruct y as [| |x]; auto. exfalso. exact (Nm x eq_refl). }
      cbn. rewrite E. f_equal. assert (F : forall b', b' < length t -> exists x, nth_error t b' = Some (Downloaded x)).
      { intros b' Hb. destruct (Am (S b')) as [x Hx]; cbn; try lia. eauto. }
      clear - F. induction t as [|z u IHu]; auto. cbn. destruct (F 0) as [x Hx]; cbn; try lia. cbn in Hx. injection Hx as ->. cbn. f_equal. apply IHu.
      intros b' Hb. destruct (F (S b')) as [x' Hx']; cbn; try lia. eauto.
    - destruct (Am 0) as [x Hx]; cbn; try lia. cbn in Hx. injection Hx as ->. cbn. f_equal. apply IH with m; try lia.
      + intros x' H. exact (Nm x' H).
      + intros b' Hb Nb. destruct (Am (S b')) as [x' Hx']; cbn; try lia. eauto. }
  rewrite (@add_block_some c s k b d p (conj W1 (conj W2 W3)) EC G).
  unfold usize_dec. assert (E : pp_bpp s =? pc_downloaded p + 1 = true) by (apply Nat.eqb_eq; lia).
  assert (P : blocks_data (upd (pc_data p) b (Downloaded d)) = Panic).
  { destruct (nth_error (pc_data p) m) as [y|] eqn:Em; [|apply nth_error_None in Em; lia].
    apply blocks_data_not with m y.
    - rewrite nth_error_upd_other; auto. intros ->. rewrite Em in BA. injection BA as ->. exact (Nm d0 eq_refl).
    - destruct y as [| |x]; auto. exfalso. exact (Nm x eq_refl). }
  cbv zeta. rewrite E, P. destruct (pc_pending p =? 0)%N; [destruct c|]; reflexivity.
Qed.

(** A piece of three blocks, the last of them received; the same block again
    is counted, so two arrive for one; with the first as well, the next
    copy aborts. *)
Lemma check2 : forall st, pp_bpp st = 3 -> pp_piece_length st = 2 * BLOCK_SIZE + 1 -> pp_check_bounds st 2 [x09] = true.
Proof.
  assert (MO : (2 * BLOCK_SIZE + 1) mod BLOCK_SIZE = 1) by (vm_compute; reflexivity).
  intros st E1 E2. unfold pp_check_bounds. rewrite E1, E2, MO. reflexivity.
Qed.
Example C62_example : exists s s1,
  preach false s /\ block_at s 0 2 = Some (Downloaded [x09]) /\ acceptable s 0 2 [x09] /\
  pp_add_block false s 0 2 [x09] = Val (s1, ARAdded) /\
  (exists s2, pp_run false s1 [OAdd 5; OCancel ex_peer] = Val (s2, [PAdd true; PNone])) /\
  forall d0, length d0 = BLOCK_SIZE ->
    exists s3, pp_add_block false s 0 0 d0 = Val (s3, ARAdded) /\ preach false s3 /\ acceptable s3 0 2 [x09] /\
      (forall x, block_at s3 0 1 <> Some (Downloaded x)) /\
      (forall b', b' < n_blocks (pp_piece_length s3) -> b' <> 1 -> exists x, block_at s3 0 b' = Some (Downloaded x)) /\
      pp_add_block false s3 0 2 [x09] = Panic.
Proof.
  assert (NB : n_blocks (2 * BLOCK_SIZE + 1) = 3) by (vm_compute; reflexivity).
  assert (BL : block_len (2 * BLOCK_SIZE + 1) 2 = 1) by (vm_compute; reflexivity).
  set (pl := 2 * BLOCK_SIZE + 1) in *.
  set (s0 := mk_pp pl 3 (Some ex_peer) [(0, mk_pc 0 0 [Unbegun; Unbegun; Unbegun])]).
  assert (P0 : preach false s0).
  { apply pr_step with (s := mk_pp pl (n_blocks pl) (Some ex_peer) []) (o := OAdd 0) (out := PAdd true).
    - apply preach_empty. unfold pl. lia.
    - cbn [pp_step]. rewrite add_piece_new; [|apply (@preach_wf false); apply preach_empty; unfold pl; lia|cbn; auto|cbn; lia].
      cbn [pp_bpp pp_data]. rewrite NB. reflexivity. }
  set (s := mk_pp pl 3 (Some ex_peer) [(0, mk_pc (2 ^ 64 - 1) 1 [Unbegun; Unbegun; Downloaded [x09]])]).
  assert (P : preach false s).
  { apply pr_step with (s := s0) (o := OBlock 0 2 [x09]) (out := PBlock ARAdded); [exact P0|].
    cbn [pp_step]. unfold pp_add_block. rewrite check2 by reflexivity. reflexivity. }
  set (s1 := mk_pp pl 3 (Some ex_peer) [(0, mk_pc (2 ^ 64 - 2) 2 [Unbegun; Unbegun; Downloaded [x09]])]).
  assert (A1 : pp_add_block false s 0 2 [x09] = Val (s1, ARAdded)).
  { unfold pp_add_block. rewrite check2 by reflexivity. reflexivity. }
  assert (W1 : wf_pp s1) by (eapply wf_add_block; [eapply preach_wf; exact P|exact A1]).
  exists s, s1. split; auto. split; [reflexivity|]. split.
  { unfold acceptable. split; [cbn; auto|]. cbn [pp_piece_length s]. rewrite NB, BL. cbn. lia. }
  split; [exact A1|]. split.
  { eexists. cbn [pp_run pp_step]. rewrite add_piece_new; [|exact W1|cbn; intros [X|[]]; discriminate|cbn; lia].
    cbn [rbind fst snd pp_run pp_step rmap]. reflexivity. }
  intros d0 L0. set (s3 := mk_pp pl 3 (Some ex_peer) [(0, mk_pc (2 ^ 64 - 2) 2 [Downloaded d0; Unbegun; Downloaded [x09]])]).
  assert (A3 : pp_add_block false s 0 0 d0 = Val (s3, ARAdded)).
  { unfold pp_add_block. replace (pp_check_bounds s 0 d0) with true; [reflexivity|]. unfold pp_check_bounds. cbn [s pp_bpp Nat.leb Nat.add Nat.eqb]. symmetry. apply Nat.eqb_eq. exact L0. }
  exists s3. split; auto. split.
  { apply pr_step with (s := s) (o := OBlock 0 0 d0) (out := PBlock ARAdded); auto. cbn [pp_step]. rewrite A3. reflexivity. }
  split. { unfold acceptable. split; [cbn; auto|]. cbn [pp_piece_length s3]. rewrite NB, BL. cbn. lia. }
  split. { intros x X. discriminate. }
  split.
  { cbn [pp_piece_length s3]. rewrite NB. intros b' Hb Nb. destruct b' as [|[|[|b']]]; try lia; eexists; reflexivity. }
  unfold pp_add_block. rewrite check2 by reflexivity. reflexivity.
Qed.

(** ** C21 *)
(** No block is delivered that is there already. *)
Fixpoint careful (s : pp) (ops : list pop) : Prop :=
  match ops with
  | [] => True
  | o :: t => (forall k b d d', o = OBlock k b d -> block_at s k b <> Some (Downloaded d')) /\
              forall s' out, pp_step false s o = Val (s', out) -> careful s' t
  end.
Lemma careful_run : forall ops s, preach false s -> counted s -> pp_owner s <> None -> careful s ops ->
  exists s' outs, pp_run false s ops = Val (s', outs) /\ length outs = length ops.
Proof.
  induction ops as [|o t IH]; intros s R C O CA; [exists s, []; auto|]. destruct CA as [C1 C2].
  destruct (@C21_no_abort_partial s o R C O C1) as (s1 & out & E & C' & O').
  destruct (IH s1) as (s2 & outs & E2 & L); eauto. { eapply pr_step; eauto. }
  exists s2, (out :: outs). cbn [pp_run]. rewrite E. cbn [rbind fst snd]. rewrite E2. cbn. auto.
Qed.
(** Histories from a fresh set with an owner in which no block is delivered
    twice never abort, and every operation is answered. *)
Theorem C21_no_abort_run_partial : forall pl s a ops, pp_new pl = Val s -> careful (pp_set_owner s a) ops ->
  exists s' outs, pp_run false (pp_set_owner s a) ops = Val (s', outs) /\ length outs = length ops.
Proof.
  intros pl s a ops E C. apply careful_run; auto.
  - apply pr_owner. eapply pr_new; eauto.
  - unfold pp_new in E. destruct (unsigned_ceil_div _ _); try discriminate. injection E as <-. constructor.
  - discriminate.
Qed.
(** Two blocks of different pieces, requests and a cancellation. *)
Example C21_no_abort_run_example : forall a, exists s, pp_new 5 = Val s /\
  careful (pp_set_owner s a) [OAdd 1; OTake 0 [1] [] 16; OAdd 2; OBlock 1 0 [x01; x02; x03; x04; x05]; OCancel a; OAdd 1].
Proof.
  intro a. eexists. split; [vm_compute; reflexivity|].
  cbn [careful]. repeat (split; [intros ? ? ? ? X; try discriminate X|intros ? ? X; vm_compute in X; injection X as <- <-]); try exact I.
  injection X as <- <- <-. vm_compute. discriminate.
Qed.
Print Assumptions C62_completion_partial.
Print Assumptions C62_not_early_partial.
Print Assumptions C62_never_completes_always.
Print Assumptions C62_aborts_always.
Print Assumptions C21_no_abort_run_partial.
