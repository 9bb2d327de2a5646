(** C20 continued, and C117: how long the data of a finished piece are. *)
From Coq Require Import List NArith ZArith Lia Bool Arith Permutation.
From Coq Require Import Init.Byte.
From Verif Require Import Base Assoc BitmapModel IdModel WireModel PendingModel PendingSpec PendingProofs PendingProps DuplicateProps.
Import ListNotations.
Set Implicit Arguments.

(** ** C20 *)
(** The last block of a piece whose length is a multiple of the block size: an
    empty block is taken for it, and nothing else is. *)
Theorem C20_last_block_always : forall c s k b d, preach c s -> pp_piece_length s mod BLOCK_SIZE = 0 ->
  b + 1 = n_blocks (pp_piece_length s) ->
  (d <> [] \/ ~ in_flight s k -> pp_add_block c s k b d = Val (s, ARFailed)) /\
  (in_flight s k -> forall s' r, pp_add_block c s k b [] = Val (s', r) ->
     (r = ARAdded /\ block_at s' k b = Some (Downloaded [])) \/ exists ds, r = ARLast k ds /\ nth_error ds b = Some []).
Proof.
  intros c s k b d R M E. pose proof (preach_wf R) as W. split.
  - intros [N|N]; apply add_block_refused; auto. left. destruct (pp_check_bounds s b d) eqn:EC; auto.
    apply check_bounds_mult in EC; auto. contradiction.
  - intros I s' r H. assert (EC : pp_check_bounds s b [] = true) by (apply check_bounds_mult; auto).
    apply in_flight_get in I as [p G]. pose proof (check_bounds_lt _ _ _ EC) as L. pose proof (wf_get _ W G) as LG.
    rewrite (@add_block_some c s k b [] p W EC G) in H. destruct (usize_dec c (pc_pending p)) as [pend| |]; cbn [rbind] in H; try discriminate.
    cbv zeta in H. destruct (_ =? _).
    + destruct (blocks_data _) as [ds| |] eqn:ED; cbn [rbind] in H; try discriminate. injection H as <- <-. right. exists ds. split; auto.
      apply blocks_data_inv in ED. apply ED. apply nth_error_upd_same. lia.
    + injection H as <- <-. left. split; auto. unfold block_at, pp_with. cbn [pp_data]. unfold pmget, pmset. rewrite (mget_mset_same _ neqb_spec).
      cbn [pc_data]. apply nth_error_upd_same. lia.
Qed.

(** ** every stored block has passed the check of its length *)
Definition fitting (s : pp) : Prop := forall k b d, block_at s k b = Some (Downloaded d) -> pp_check_bounds s b d = true.
Lemma check_same : forall s s' b d, pp_bpp s' = pp_bpp s -> pp_piece_length s' = pp_piece_length s -> pp_check_bounds s' b d = pp_check_bounds s b d.
Proof. intros s s' b d A B. unfold pp_check_bounds. rewrite A, B. reflexivity. Qed.
Lemma upd_was : forall (l : list block) b x b' y, nth_error (upd l b x) b' = Some y -> (b' = b /\ y = x) \/ nth_error l b' = Some y.
Proof.
  intros l b x b' y H. destruct (Nat.eq_dec b' b) as [->|N]; [|rewrite nth_error_upd_other in H by auto; auto].
  left. split; auto. destruct (Nat.lt_ge_cases b (length l)) as [L|L]; [rewrite nth_error_upd_same in H by auto; congruence|].
  assert (nth_error (upd l b x) b = None) by (apply nth_error_None; rewrite upd_length; auto). congruence.
Qed.
Lemma mark_was : forall f o now ps k p b d, nth_error (pc_data (mark_pc f o now ps k p)) b = Some (Downloaded d) -> nth_error (pc_data p) b = Some (Downloaded d).
Proof.
  intros f o now ps k p b d H. unfold mark_pc, mark in H. destruct (mem k ps); [|exact H]. cbn [pc_data] in H.
  rewrite nth_error_map in H. destruct (nth_error (pc_data p) b) as [y|]; [|discriminate]. cbn in H. destruct (f y); [discriminate|exact H].
Qed.
Lemma stored_was : forall c s o s' out k b d, wf_pp s -> pp_step c s o = Val (s', out) -> block_at s' k b = Some (Downloaded d) ->
  block_at s k b = Some (Downloaded d) \/ (o = OBlock k b d /\ pp_check_bounds s b d = true).
Proof.
  intros c s o s' out k b d W H B. destruct o as [i|i b0 d0|now ps buf cap|a]; cbn [pp_step] in H.
  - left. destruct (in_dec Nat.eq_dec i (map fst (pp_data s))) as [I|I].
    + rewrite add_piece_known in H by auto. injection H as <- <-. auto.
    + destruct (Nat.lt_ge_cases (n_in_flight s) 10) as [L|L].
      * rewrite add_piece_new in H by auto. injection H as <- <-. unfold block_at, pp_with in *. cbn [pp_data] in B. unfold pmget, pmset in *.
        destruct (Nat.eq_dec i k) as [->|N].
        -- rewrite (mget_mset_same _ neqb_spec) in B. cbn [pc_data] in B. apply nth_error_In, repeat_spec in B. discriminate.
        -- rewrite (mget_mset_other _ neqb_spec) in B by auto. exact B.
      * rewrite add_piece_full in H by auto. injection H as <- <-. auto.
  - destruct (pp_check_bounds s b0 d0) eqn:EC.
    2:{ rewrite add_block_refused in H by auto. injection H as <- <-. auto. }
    destruct (pmget i (pp_data s)) as [q|] eqn:Gi.
    2:{ rewrite add_block_refused in H by (right; apply pmget_none; auto). injection H as <- <-. auto. }
    rewrite (@add_block_some c s i b0 d0 q W EC Gi) in H.
    destruct (usize_dec c (pc_pending q)) as [pend| |]; cbn [rbind rmap] in H; try discriminate. cbv zeta in H.
    destruct (_ =? _).
    + destruct (blocks_data _) as [ds| |]; cbn [rbind rmap fst snd] in H; try discriminate. injection H as <- <-. left.
      unfold block_at, pp_with in *. cbn [pp_data] in B. unfold pmget, pmdel in *. destruct (Nat.eq_dec i k) as [->|N].
      * rewrite (mget_mdel_same _ neqb_spec) in B by apply W. discriminate.
      * rewrite (mget_mdel_other _ neqb_spec) in B by auto. exact B.
    + cbn [rmap fst snd] in H. injection H as <- <-. unfold block_at, pp_with in *. cbn [pp_data] in B. unfold pmget, pmset in *.
      destruct (Nat.eq_dec i k) as [->|N].
      * rewrite (mget_mset_same _ neqb_spec) in B. cbn [pc_data] in B. apply upd_was in B as [[-> X]|B]; [|left; rewrite Gi; exact B].
        right. injection X as ->. auto.
      * rewrite (mget_mset_other _ neqb_spec) in B by auto. auto.
  - left. destruct (pp_owner s) as [ow|] eqn:EO.
    + rewrite (pp_take_spec s now ps buf cap EO) in H. cbv zeta in H. unfold block_at in *.
      destruct (_ =? _); cbn [rmap fst snd] in H; injection H as <- <-; unfold pp_with in B; cbn [pp_data] in B; rewrite ?mark_map_get in B;
        destruct (pmget k (pp_data s)) as [p|]; cbn [option_map] in B; try discriminate; repeat apply mark_was in B; exact B.
    + unfold pp_take in H. rewrite EO in H.
      destruct (take_pass is_unbegun None now ps (pp_data s)) as [r1| |] eqn:E1; cbn [rbind rmap] in H; try discriminate.
      apply take_pass_none in E1. subst r1. cbn [fst snd] in H.
      destruct (_ =? _); cbn [rmap fst snd] in H; [injection H as <- <-; exact B|].
      destruct (take_pass (is_expired now) None now ps (pp_data s)) as [r2| |] eqn:E2; cbn [rbind rmap] in H; try discriminate.
      apply take_pass_none in E2. subst r2. injection H as <- <-. exact B.
  - left. injection H as <- <-. unfold block_at in *. rewrite cancel_get in B. destruct (pmget k (pp_data s)) as [p|]; cbn [option_map] in B; [|discriminate].
    cbn [pc_data] in B. unfold cancel_blocks in B. rewrite nth_error_map in B. destruct (nth_error (pc_data p) b) as [y|]; [|discriminate].
    cbn in B. destruct (is_expected_from a y); [discriminate|exact B].
Qed.
Lemma preach_fitting : forall c s, preach c s -> fitting s.
Proof.
  intros c s R. induction R as [pl s E|s a R IH|s o s' out R IH H|s d R IH P].
  - unfold pp_new in E. destruct (unsigned_ceil_div _ _); try discriminate. injection E as <-. intros k b d B. discriminate.
  - exact IH.
  - intros k b d B. destruct (step_bpp _ _ _ H) as [E1 E2]. rewrite (@check_same s s' b d E1 E2).
    destruct (@stored_was c s o s' out k b d (preach_wf R) H B) as [X|[_ X]]; eauto.
  - intros k b x B. apply (IH k b x). unfold block_at, pp_with in *. cbn [pp_data] in B. unfold pmget in *.
    rewrite (mget_perm _ neqb_spec k (proj1 (proj2 (proj2 (preach_wf R)))) P). exact B.
Qed.

(** ** C117 *)
(** The length of piece [k] of a torrent of [total] bytes. *)
Definition piece_len (total pl k : nat) : nat := Nat.min pl (total - k * pl).
Definition C117_whole_always (c : bool) (s : pp) (total : nat) : Prop := forall k b d s' q ds,
  k * pp_piece_length s < total -> pp_add_block c s k b d = Val (s', ARLast q ds) -> length (concat ds) = piece_len total (pp_piece_length s) k.
Lemma concat_all : forall (ds : list bytes) n, (forall d, In d ds -> length d = n) -> length (concat ds) = length ds * n.
Proof.
  intros ds n H. induction ds as [|d t IH]; [reflexivity|]. cbn [concat length]. rewrite app_length, IH by (intros; apply H; right; auto).
  rewrite (H d) by (left; auto). reflexivity.
Qed.
Lemma concat_fit : forall pl (ds : list bytes), 0 < pl -> length ds = n_blocks pl ->
  (forall b d, nth_error ds b = Some d -> b + 1 < n_blocks pl -> length d = BLOCK_SIZE) ->
  (forall b d, nth_error ds b = Some d -> b + 1 = n_blocks pl -> length d = pl mod BLOCK_SIZE) ->
  length (concat ds) = (n_blocks pl - 1) * BLOCK_SIZE + pl mod BLOCK_SIZE.
Proof.
  intros pl ds H L F G. pose proof (n_blocks_pos H) as P. destruct ds as [|l t _] using rev_ind; [cbn in L; lia|].
  rewrite app_length in L. cbn [length] in L. rewrite concat_app, app_length. cbn [concat]. rewrite app_nil_r.
  rewrite (@concat_all t BLOCK_SIZE).
  - replace (length t) with (n_blocks pl - 1) by lia. f_equal. apply (G (length t)); [|lia].
    rewrite nth_error_app2, Nat.sub_diag by auto. reflexivity.
  - intros d I. apply In_nth_error in I as [b E]. pose proof (nth_error_Some t b) as NS. rewrite E in NS.
    assert (b < length t) by (apply NS; discriminate). apply (F b); [|lia]. rewrite nth_error_app1 by auto. exact E.
Qed.
Lemma blocks_sum : forall pl, 0 < pl ->
  (n_blocks pl - 1) * BLOCK_SIZE + pl mod BLOCK_SIZE = if pl mod BLOCK_SIZE =? 0 then pl - BLOCK_SIZE else pl.
Proof.
  intros pl H. pose proof (n_blocks_pos H) as P. pose proof (n_blocks_bounds H) as [B1 B2]. pose proof BS_pos.
  assert (E : n_blocks pl - 1 + 1 = n_blocks pl) by lia.
  assert (E2 : n_blocks pl * BLOCK_SIZE = (n_blocks pl - 1) * BLOCK_SIZE + BLOCK_SIZE) by (destruct (n_blocks pl) as [|m]; [lia|]; cbn [Nat.sub]; rewrite Nat.sub_0_r; cbn; lia).
  destruct (Nat.eqb_spec (pl mod BLOCK_SIZE) 0) as [M|M].
  - pose proof (@block_len_last_mult pl (n_blocks pl - 1) H E M) as X. unfold block_len in X. rewrite M. set (P1 := (n_blocks pl - 1) * BLOCK_SIZE) in *. lia.
  - pose proof (@block_len_last pl (n_blocks pl - 1) H E M) as X. unfold block_len in X. lia.
Qed.
(** What a piece that was reported complete holds: as many bytes as the piece
    length says if that is not a multiple of the block size, and one block less
    if it is. *)
Theorem C117_length_always : forall c s k b d s' q ds, preach c s -> pp_add_block c s k b d = Val (s', ARLast q ds) ->
  length (concat ds) = if pp_piece_length s mod BLOCK_SIZE =? 0 then pp_piece_length s - BLOCK_SIZE else pp_piece_length s.
Proof.
  intros c s k b d s' q ds R H. pose proof (preach_wf R) as W. pose proof (proj1 W) as P.
  destruct (@C62_completion_partial c s k b d s' q ds R H) as (_ & L & ND & O).
  assert (FIT : forall b' d', nth_error ds b' = Some d' -> pp_check_bounds s b' d' = true).
  { intros b' d' N. destruct (Nat.eq_dec b' b) as [->|NE].
    - rewrite N in ND. injection ND as ->. destruct (pp_check_bounds s b d) eqn:EC; auto.
      rewrite add_block_refused in H by auto. discriminate.
    - assert (LT : b' < n_blocks (pp_piece_length s)) by (rewrite <- L; apply nth_error_Some; rewrite N; discriminate).
      destruct (O b' LT NE) as (d2 & B & N2). rewrite N in N2. injection N2 as ->. apply (preach_fitting R k). exact B. }
  rewrite <- blocks_sum by auto. apply concat_fit; auto.
  - intros b' d' N LT. specialize (FIT _ _ N). apply check_bounds_spec in FIT; auto; [|lia].
    rewrite (proj2 FIT). apply block_len_full; auto.
  - intros b' d' N E. specialize (FIT _ _ N). destruct (Nat.eq_dec (pp_piece_length s mod BLOCK_SIZE) 0) as [M|M].
    + apply check_bounds_mult in FIT; auto. subst d'. cbn. auto.
    + apply check_bounds_spec in FIT; auto. rewrite (proj2 FIT). apply block_len_last; auto.
Qed.
(** Part: every piece but the last of the torrent, the piece length not being
    a multiple of the block size. *)
Theorem C117_whole_partial : forall c s total k b d s' q ds, preach c s -> pp_piece_length s mod BLOCK_SIZE <> 0 ->
  (k + 1) * pp_piece_length s <= total -> pp_add_block c s k b d = Val (s', ARLast q ds) ->
  length (concat ds) = piece_len total (pp_piece_length s) k.
Proof.
  intros c s total k b d s' q ds R M T H. rewrite (@C117_length_always c s k b d s' q ds R H).
  apply Nat.eqb_neq in M. rewrite M. unfold piece_len. nia.
Qed.
(** What the other pieces hold is never right: those of a torrent whose piece
    length is a multiple of the block size, *)
Theorem C117_multiple_always : forall c s total k b d s' q ds, preach c s -> pp_piece_length s mod BLOCK_SIZE = 0 ->
  (k + 1) * pp_piece_length s <= total -> pp_add_block c s k b d = Val (s', ARLast q ds) ->
  length (concat ds) + BLOCK_SIZE = piece_len total (pp_piece_length s) k.
Proof.
  intros c s total k b d s' q ds R M T H. rewrite (@C117_length_always c s k b d s' q ds R H).
  pose proof (proj1 (preach_wf R)) as P. pose proof (n_blocks_pos P) as NP. pose proof BS_pos.
  pose proof (@blocks_sum _ P) as E. rewrite M in *. cbn [Nat.eqb] in *.
  pose proof (@block_len_last_mult (pp_piece_length s) (n_blocks (pp_piece_length s) - 1) P ltac:(lia) M) as X. unfold block_len in X.
  unfold piece_len. nia.
Qed.
(** and the last piece of a torrent, when it is shorter than the others, unless
    it is shorter by one block exactly and the piece length is a multiple of it. *)
Theorem C117_last_piece_always : forall c s total k b d s' q ds, preach c s ->
  k * pp_piece_length s < total < (k + 1) * pp_piece_length s -> pp_add_block c s k b d = Val (s', ARLast q ds) ->
  (length (concat ds) = piece_len total (pp_piece_length s) k <->
   pp_piece_length s mod BLOCK_SIZE = 0 /\ total + BLOCK_SIZE = (k + 1) * pp_piece_length s).
Proof.
  intros c s total k b d s' q ds R T H. rewrite (@C117_length_always c s k b d s' q ds R H).
  pose proof (proj1 (preach_wf R)) as P. pose proof (n_blocks_pos P) as NP. pose proof BS_pos. unfold piece_len.
  destruct (Nat.eqb_spec (pp_piece_length s mod BLOCK_SIZE) 0) as [M|M].
  - pose proof (@block_len_last_mult (pp_piece_length s) (n_blocks (pp_piece_length s) - 1) P ltac:(lia) M) as X. unfold block_len in X.
    assert ((k + 1) * pp_piece_length s = k * pp_piece_length s + pp_piece_length s) by lia. split; [intro; split; auto|intros [_ ?]]; lia.
  - split; [intro|intros [? _]; contradiction]. assert ((k + 1) * pp_piece_length s = k * pp_piece_length s + pp_piece_length s) by lia. lia.
Qed.

(** ** over the life of a downloader *)
Lemma dl_block_len : forall sha1 c s d m r idx ds, preach c s -> dl_block sha1 c s d m = Val r -> In (idx, ds) (snd r) ->
  length (concat ds) = if pp_piece_length s mod BLOCK_SIZE =? 0 then pp_piece_length s - BLOCK_SIZE else pp_piece_length s.
Proof.
  intros sha1 c s d m r idx ds R H HI. unfold dl_block in H. destruct (negb _); [injection H as <-; destruct HI|].
  destruct (dmget _ _) as [h|]; [|injection H as <-; destruct HI].
  destruct (remove_block _ _) as [[rm rest]|]; [|injection H as <-; destruct HI].
  destruct (pp_add_block _ _ _ _ _) as [[s1 ar]| |] eqn:EA; cbn [rbind snd fst] in H; try discriminate.
  destruct ar as [| |i2 ds2]; try discriminate.
  - injection H as <-. destruct HI.
  - destruct (bytes_eqb (piece_hash sha1 ds2) h); [|destruct (pp_add_piece _ _); try discriminate; injection H as <-; destruct HI].
    injection H as <-. destruct HI as [E|[]]. injection E as <- <-. eapply C117_length_always; eauto.
Qed.
(** Whatever a downloader passes on has that length, whatever it meets: the
    shared table at each step is any one that can be reached. *)
Theorem C117_forwarded_always : forall sha1 c pl h d fin,
  (forall now s e, In (now, s, e) h -> preach c s /\ pp_piece_length s = pl) -> dl_life sha1 c d h = Val fin ->
  forall idx ds, In (idx, ds) fin -> length (concat ds) = if pl mod BLOCK_SIZE =? 0 then pl - BLOCK_SIZE else pl.
Proof.
  intros sha1 c pl h. induction h as [|[[now s] e] t IH]; intros d fin A H idx ds HI; cbn [dl_life] in H.
  - injection H as <-. destruct HI.
  - unfold dl_step in H. destruct (dl_handle sha1 c s d e) as [[[s1 d1] f1]| |] eqn:EH; cbn [rbind] in H; try discriminate.
    destruct (if dl_counter d1 mod _ =? 0 then _ else _) as [[[s2 blocks] cap]| |]; cbn [rbind] in H; try discriminate.
    destruct (dl_life sha1 c _ t) as [fin2| |] eqn:EL; cbn [rmap] in H; try discriminate. injection H as <-.
    apply in_app_iff in HI as [HI|HI].
    + destruct e as [m|h0 j|j]; cbn [dl_handle] in EH; [|injection EH as <- <- <-; destruct HI..].
      destruct (A now s (EvBlock m)) as [R <-]; [left; auto|]. eapply dl_block_len; eauto.
    + eapply (IH _ _ (fun n s0 e0 I => A n s0 e0 (or_intror I)) EL). exact HI.
Qed.
(** So a piece of the announced hash is passed on only if SHA-1 collides: the
    torrent's piece [x] has the piece length and what is passed on does not. *)
Theorem C117_collision_always : forall sha1 c pl h fin,
  (forall now s e, In (now, s, e) h -> preach c s /\ pp_piece_length s = pl) -> 0 < pl -> pl mod BLOCK_SIZE = 0 ->
  (forall now s i a, In (now, s, EvStart a i) h -> exists x, length x = pl /\ a = sha1 x) ->
  dl_life sha1 c dl_init h = Val fin -> fin <> [] -> exists x y, x <> y /\ sha1 x = sha1 y.
Proof.
  intros sha1 c pl h fin A P M AN H NE. destruct fin as [|[idx ds] fin]; [congruence|].
  pose proof (@C117_forwarded_always sha1 c pl h dl_init _ A H idx ds (or_introl eq_refl)) as L. rewrite M in L. cbn in L.
  destruct (@C23_only_checked_forwarded sha1 c h _ H idx ds (or_introl eq_refl)) as (pre & m & post & E & _ & AH).
  assert (exists j, In (EvStart (sha1 (concat ds)) j) pre) as [j J].
  { revert AH. unfold announced. assert (G : forall acc, fold_left (fun acc e => match e with EvStart h j => if j =? idx then Some h else acc | EvStop j => if j =? idx then None else acc | EvBlock _ => acc end) pre acc = Some (sha1 (concat ds)) -> acc = Some (sha1 (concat ds)) \/ exists j, In (EvStart (sha1 (concat ds)) j) pre).
    { clear. induction pre as [|e t IH]; intros acc H; [auto|]. cbn [fold_left] in H. apply IH in H as [H|[j J]]; [|right; exists j; right; auto].
      destruct e as [m|h j|j]; auto.
      - destruct (j =? idx); auto. right. exists j. left. congruence.
      - destruct (j =? idx); [discriminate|auto]. }
    intro AH. apply G in AH as [X|X]; [discriminate|exact X]. }
  assert (I : In (EvStart (sha1 (concat ds)) j) (map snd h)) by (rewrite E; apply in_or_app; auto).
  apply in_map_iff in I as ([[now s] e] & X & I). cbn in X. subst e. destruct (AN _ _ _ _ I) as (x & LX & EX).
  exists (concat ds), x. split; auto. intro Q. rewrite Q in L. pose proof BS_pos. lia.
Qed.

(** ** cases *)
(** A piece of five bytes in a torrent of 24: reported whole. *)
Example C117_example : exists s s' ds, preach false s /\ pp_piece_length s = 5 /\ (3 + 1) * 5 <= 24 /\
  pp_add_block false s 3 0 ex_blk = Val (s', ARLast 3 ds) /\ concat ds = ex_blk /\ piece_len 24 5 3 = 5.
Proof.
  exists (ex_s 5 [3]). eexists. eexists. split; [|split; [reflexivity|split; [cbn; lia|split; [vm_compute; reflexivity|split; reflexivity]]]].
  eapply preach_run with (ops := [OAdd 3]); [apply (@preach_empty false 5 ex_peer); lia|]. vm_compute. reflexivity.
Qed.
(** The same piece as the last of a torrent of 17 bytes: two bytes are its own,
    five are asked for and reported. *)
Theorem C117_whole_refuted : exists s total, preach false s /\ ~ C117_whole_always false s total.
Proof.
  destruct C117_example as (s & s' & ds & R & L & _ & H & E & _). exists s, 17. split; auto. intro A.
  specialize (A 3 0 ex_blk s' 3 ds). rewrite L in A. specialize (A ltac:(lia) H). rewrite E in A. discriminate.
Qed.
Lemma one_block : exists s, preach false s /\ pp_piece_length s = BLOCK_SIZE /\ BLOCK_SIZE mod BLOCK_SIZE = 0 /\ 0 + 1 = n_blocks BLOCK_SIZE /\ in_flight s 0 /\
  exists s', pp_add_block false s 0 0 [] = Val (s', ARLast 0 [[]]).
Proof.
  pose proof BS_pos as HB.
  set (s0 := mk_pp BLOCK_SIZE (n_blocks BLOCK_SIZE) (Some ex_peer) []).
  assert (P0 : preach false s0) by (apply preach_empty; auto).
  assert (NB : n_blocks BLOCK_SIZE = 1).
  { unfold n_blocks. replace (BLOCK_SIZE + (BLOCK_SIZE - 1)) with (BLOCK_SIZE - 1 + 1 * BLOCK_SIZE) by lia.
    rewrite Nat.div_add by lia. rewrite Nat.div_small by lia. reflexivity. }
  assert (ST : pp_step false s0 (OAdd 0) = Val (mk_pp BLOCK_SIZE 1 (Some ex_peer) [(0, mk_pc 0 0 [Unbegun])], PAdd true)).
  { cbn [pp_step]. rewrite add_piece_new; [|apply (preach_wf P0)|cbn; auto|cbn; lia].
    unfold s0. cbn [pp_bpp pp_data]. rewrite NB. reflexivity. }
  set (s1 := mk_pp BLOCK_SIZE 1 (Some ex_peer) [(0, mk_pc 0 0 [Unbegun])]) in *.
  exists s1. split; [eapply pr_step; [exact P0|exact ST]|]. split; [reflexivity|]. split; [apply Nat.mod_same; lia|].
  split; [lia|]. split; [cbn; auto|]. eexists. unfold pp_add_block, pp_check_bounds. cbn [pp_bpp s1 pp_piece_length].
  rewrite Nat.mod_same by lia. cbn. reflexivity.
Qed.
(** A piece of one whole block: reported complete when empty. *)
Example C117_multiple_example : exists s s' ds, preach false s /\ pp_piece_length s = BLOCK_SIZE /\
  pp_add_block false s 0 0 [] = Val (s', ARLast 0 ds) /\ concat ds = [].
Proof. destruct one_block as (s1 & P1 & L & _ & _ & _ & s' & H). exists s1, s', [[]]. auto. Qed.
Example C20_last_block_example : exists s, preach false s /\ pp_piece_length s mod BLOCK_SIZE = 0 /\ 0 + 1 = n_blocks (pp_piece_length s) /\ in_flight s 0.
Proof. destruct one_block as (s1 & P1 & L & M & N & F & _). exists s1. rewrite L. auto. Qed.
Example C117_forwarded_example :
  (forall now s e, In (now, s, e) (ex_life ex_blk) -> preach false s /\ pp_piece_length s = 5) /\
  dl_life ex_sha false dl_init (ex_life ex_blk) = Val [(3, [ex_blk])].
Proof.
  split; [|vm_compute; reflexivity]. intros now s e I.
  assert (P : preach false (ex_s 5 [3])).
  { eapply preach_run with (ops := [OAdd 3]); [apply (@preach_empty false 5 ex_peer); lia|]. vm_compute. reflexivity. }
  destruct I as [X|[X|[]]]; injection X as <- <- <-; split; auto.
Qed.

Print Assumptions C20_last_block_always.
Print Assumptions C117_length_always.
Print Assumptions C117_whole_partial.
Print Assumptions C117_multiple_always.
Print Assumptions C117_last_piece_always.
Print Assumptions C117_forwarded_always.
Print Assumptions C117_collision_always.
Print Assumptions C117_whole_refuted.
