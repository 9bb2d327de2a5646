(** C63 continued: exactly when a wanted block ends the download task. *)
From Coq Require Import List NArith ZArith Lia Bool Arith.
From Coq Require Import Init.Byte.
From Verif Require Import Base Assoc IdModel WireModel PendingModel PendingSpec PendingProofs PendingProps DuplicateProps.
Import ListNotations.
Set Implicit Arguments.

(** All blocks of piece [k] but [b] are there. *)
Definition all_but (s : pp) (k b : nat) : Prop :=
  forall b', b' < n_blocks (pp_piece_length s) -> b' <> b -> exists x, block_at s k b' = Some (Downloaded x).
Lemma held_but : forall l b, (forall b', b' < length l -> b' <> b -> exists x, nth_error l b' = Some (Downloaded x)) ->
  length l <= S (length (filter is_downloaded l)).
Proof.
  induction l as [|y t IH]; intros b H; cbn [length filter]; [lia|]. destruct b as [|b].
  - assert (A : length (filter is_downloaded t) = length t).
    { clear IH. assert (B : forall b, b < length t -> exists x, nth_error t b = Some (Downloaded x)).
      { intros b L. apply (H (S b)); [cbn; lia|lia]. }
      clear H. induction t as [|z t IH]; [reflexivity|]. destruct (B 0) as [x X]; [cbn; lia|]. cbn in X. injection X as ->. cbn. f_equal. apply IH. intros b L. apply (B (S b)). cbn. lia. }
    destruct (is_downloaded y); cbn; lia.
  - destruct (H 0) as [x X]; [cbn; lia|lia|]. cbn in X. injection X as ->. cbn. specialize (IH b). assert (length t <= S (length (filter is_downloaded t))); [|lia].
    apply IH. intros b' L N. apply (H (S b')); [cbn; lia|lia].
Qed.
(** A block that is wanted, has its proper length and is not the last of a piece
    whose length is a multiple of the block size (that one is refused, C20): the
    task goes on exactly if it is the last one missing. Then the piece is passed
    on if its hash is right and is started afresh if not. *)
Theorem C63_exact : forall sha1 s d m h rm rest, preach false s ->
  let k := N.to_nat (pm_index m) in let b := N.to_nat (pm_begin m) / BLOCK_SIZE in
  N.to_nat (pm_begin m) mod BLOCK_SIZE = 0 -> dmget k (dl_pieces d) = Some h -> remove_block b (dl_blocks d) = Some (rm, rest) ->
  acceptable s k b (pm_block m) -> pp_piece_length s mod BLOCK_SIZE <> 0 \/ b + 1 <> n_blocks (pp_piece_length s) ->
  (~ all_but s k b -> dl_block sha1 false s d m = Panic) /\
  (all_but s k b -> exists s' ds, length ds = n_blocks (pp_piece_length s) /\ nth_error ds b = Some (pm_block m) /\
     (forall b' x, b' <> b -> (nth_error ds b' = Some x <-> block_at s k b' = Some (Downloaded x))) /\
     dl_block sha1 false s d m = Val (s', mk_dl (dl_pieces d) rest (dl_cap d) (dl_counter d), if bytes_eqb (sha1 (concat ds)) h then [(k, ds)] else []) /\
     (sha1 (concat ds) = h -> ~ in_flight s' k) /\ (sha1 (concat ds) <> h -> forall b', b' < n_blocks (pp_piece_length s) -> block_at s' k b' = Some Unbegun) /\
     (forall k' b', k' <> k -> block_at s' k' b' = block_at s k' b')).
Proof.
  intros sha1 s d m h rm rest R k b HM G RB AC ML. pose proof (preach_wf R) as W. pose proof W as (W1 & W2 & W3 & W4 & _).
  destruct AC as (IF & LB & LL). assert (EC : pp_check_bounds s b (pm_block m) = true) by (apply check_bounds_spec; auto).
  pose proof IF as IF2. apply in_flight_get in IF as [p GP]. pose proof (wf_get _ W GP) as LP.
  pose proof (@preach_bounded _ _ R k p GP) as [B1 B2]. unfold held in B1.
  assert (BA : forall b', block_at s k b' = nth_error (pc_data p) b') by (intro b'; unfold block_at; rewrite GP; reflexivity).
  unfold dl_block. fold k. fold b. rewrite HM. cbn [Nat.eqb negb]. rewrite G, RB.
  rewrite (@add_block_some false s k b (pm_block m) p W EC GP). destruct (usize_dec_unchecked (pc_pending p)) as [pend ->]. cbn [rbind]. cbv zeta.
  split.
  - intro NA. destruct (Nat.eqb_spec (pp_bpp s) (pc_downloaded p + 1)) as [E|E]; [|reflexivity].
    destruct (blocks_data (upd (pc_data p) b (Downloaded (pm_block m)))) as [ds| |] eqn:BD; [|destruct (@blocks_data_no_fail _ BD)|reflexivity].
    exfalso. apply NA. intros b' L N. apply blocks_data_inv in BD as [L1 S]. rewrite upd_length in L1.
    destruct (nth_error ds b') as [x|] eqn:X; [|apply nth_error_None in X; lia]. apply S in X. rewrite nth_error_upd_other in X by auto. exists x. rewrite BA. exact X.
  - intro A. assert (HB : length (pc_data p) <= S (length (filter is_downloaded (pc_data p)))).
    { apply (@held_but _ b). intros b' L N. rewrite <- BA. apply A; lia. }
    replace (pp_bpp s =? pc_downloaded p + 1) with true by (symmetry; apply Nat.eqb_eq; lia).
    destruct (@blocks_data_spec (upd (pc_data p) b (Downloaded (pm_block m)))) as (ds & BD & L & S).
    { intros b' L. rewrite upd_length in L. destruct (Nat.eq_dec b' b) as [->|N]; [eexists; apply nth_error_upd_same; lia|]. rewrite nth_error_upd_other by auto. rewrite <- BA. apply A; lia. }
    rewrite BD. cbn [rbind snd fst]. rewrite upd_length in L. unfold piece_hash.
    set (s1 := pp_with s (pmdel k (pp_data s))).
    assert (NF : ~ in_flight s1 k).
    { apply pmget_none. unfold s1, pp_with, pmget, pmdel. cbn [pp_data]. apply (mget_mdel_same _ neqb_spec). exact W3. }
    assert (OTH : forall k' b', k' <> k -> block_at s1 k' b' = block_at s k' b').
    { intros k' b' N. unfold block_at, s1, pp_with, pmget, pmdel. cbn [pp_data]. rewrite (mget_mdel_other _ neqb_spec) by auto. reflexivity. }
    assert (D1 : forall b' x, b' <> b -> (nth_error ds b' = Some x <-> block_at s k b' = Some (Downloaded x))).
    { intros b' x N. rewrite <- S, nth_error_upd_other by auto. rewrite BA. tauto. }
    assert (D2 : nth_error ds b = Some (pm_block m)) by (apply S; apply nth_error_upd_same; lia).
    destruct (bytes_eqb (sha1 (concat ds)) h) eqn:HE.
    + exists s1, ds. rewrite HE. apply bytes_eqb_eq in HE. split; [lia|]. split; auto. split; auto. split; [reflexivity|]. split; auto. split; auto. intro X. contradiction.
    + assert (NE : sha1 (concat ds) <> h) by (intro X; apply bytes_eqb_eq in X; congruence).
      assert (LT : n_in_flight s1 < 10).
      { unfold n_in_flight, s1, pp_with. cbn [pp_data]. assert (length (pmdel k (pp_data s)) < length (pp_data s)); [|lia].
        unfold pmdel. clear - IF2. unfold in_flight in IF2. induction (pp_data s) as [|[a q] l IH]; cbn in *; [tauto|].
        destruct (Nat.eqb_spec k a) as [->|N]; [lia|]. cbn. destruct IF2 as [X|X]; [congruence|]. apply IH in X. lia. }
      assert (W1' : wf_pp s1).
      { pose proof (@wf_add_block false s k b (pm_block m) s1 (ARLast k ds) W) as X. apply X.
        rewrite (@add_block_some false s k b (pm_block m) p W EC GP). destruct (usize_dec_unchecked (pc_pending p)) as [pend' ->]. cbn [rbind]. cbv zeta.
        replace (pp_bpp s =? pc_downloaded p + 1) with true by (symmetry; apply Nat.eqb_eq; lia). rewrite BD. reflexivity. }
      rewrite (@add_piece_new s1 k W1' NF LT). eexists _, ds. rewrite HE. split; [lia|]. split; auto. split; auto. split; [reflexivity|]. split; [intro X; contradiction|]. split.
      * intros _ b' LT'. unfold block_at, pp_with, pmget, pmset. cbn [pp_data]. rewrite (mget_mset_same _ neqb_spec). cbn [pc_data].
        change (pp_bpp s1) with (pp_bpp s). rewrite W2. apply nth_error_repeat. exact LT'.
      * intros k' b' N. rewrite <- OTH by auto. unfold block_at, pp_with, pmget, pmset. cbn [pp_data]. rewrite (mget_mset_other _ neqb_spec) by auto. reflexivity.
Qed.
(** A piece of five bytes: right or wrong, its one block ends it. *)
Example C63_exact_example : preach false (ex_s 5 [3]) /\ acceptable (ex_s 5 [3]) 3 0 ex_blk /\ all_but (ex_s 5 [3]) 3 0 /\ pp_piece_length (ex_s 5 [3]) mod BLOCK_SIZE <> 0 /\
  dmget 3 [(3, ex_id x01)] = Some (ex_id x01) /\ remove_block 0 [mk_ba 3 0 Requested] = Some (mk_ba 3 0 Requested, []).
Proof.
  assert (E : pp_data (ex_s 5 [3]) = [(3, mk_pc 0 0 [Unbegun])] /\ pp_piece_length (ex_s 5 [3]) = 5) by (vm_compute; auto). pose proof BS_pos as HB.
  assert (B : 5 < BLOCK_SIZE) by (pose proof C20_block_size; lia).
  assert (NB : n_blocks 5 = 1).
  { unfold n_blocks. replace (5 + (BLOCK_SIZE - 1)) with (4 + 1 * BLOCK_SIZE) by lia. rewrite Nat.div_add by lia. rewrite Nat.div_small by lia. reflexivity. }
  split; [|split; [|split; [|split; [|split; reflexivity]]]].
  - eapply preach_run with (ops := [OAdd 3]); [apply (@preach_empty false 5 ex_peer); lia|]. vm_compute. reflexivity.
  - unfold acceptable, in_flight. destruct E as [-> ->]. split; [left; reflexivity|]. rewrite NB. split; [lia|]. unfold block_len. cbn [Nat.mul]. change (length ex_blk) with 5. lia.
  - unfold all_but. rewrite (proj2 E), NB. intros b' L N. lia.
  - rewrite (proj2 E), Nat.mod_small by lia. lia.
Qed.

Print Assumptions C63_exact.
