(** Properties C19-C24 and C62-C64: pieces in flight and the downloader. *)
From Coq Require Import List NArith ZArith Lia Bool Arith Permutation.
From Coq Require Import Init.Byte.
From Verif Require Import Base Assoc BitmapModel IdModel WireModel PendingModel PendingSpec PendingProofs.
Import ListNotations.
Set Implicit Arguments.

(** A small set-up used in the examples: pieces of five bytes, peer 1.2.3.4:5. *)
Definition ex_peer : addr := mk_addr x01 x02 x03 x04 5%N.
Definition ex_blk : bytes := [x01; x02; x03; x04; x05].
Definition ex_s (pl : nat) (ks : list nat) : pp :=
  match pp_run false (mk_pp pl (n_blocks pl) (Some ex_peer) []) (map OAdd ks) with Val (s, _) => s | _ => mk_pp 0 0 None [] end.

Lemma preach_run : forall c ops s s' outs, preach c s -> pp_run c s ops = Val (s', outs) -> preach c s'.
Proof.
  intros c ops. induction ops as [|o t IH]; intros s s' outs H R; cbn in R.
  - injection R as <- <-. auto.
  - destruct (pp_step c s o) as [[s1 out]| |] eqn:E; cbn in R; try discriminate.
    destruct (pp_run c s1 t) as [[s2 outs2]| |] eqn:R2; try discriminate. cbn in R. injection R as <- <-.
    apply (IH s1 s2 outs2); auto. eapply pr_step; eauto.
Qed.
Lemma preach_empty : forall c pl o, 0 < pl -> preach c (mk_pp pl (n_blocks pl) (Some o) []).
Proof.
  intros c pl o H. apply (@pr_owner c (mk_pp pl (n_blocks pl) None []) o).
  apply (pr_new c pl). unfold pp_new. rewrite ceil_n_blocks by auto. reflexivity.
Qed.

(** ** C19 *)
Theorem C19_bounded_in_flight : forall c s, preach c s ->
  n_in_flight s <= 10 /\ NoDup (map fst (pp_data s)) /\
  (forall k, in_flight s k -> pp_add_piece s k = Val s) /\
  (forall k, ~ in_flight s k -> n_in_flight s = 10 -> pp_add_piece s k = Fail) /\
  (forall k, ~ in_flight s k -> n_in_flight s < 10 -> exists s', pp_add_piece s k = Val s' /\
     n_in_flight s' = S (n_in_flight s) /\
     (forall b, block_at s' k b = if b <? n_blocks (pp_piece_length s) then Some Unbegun else None) /\
     (forall k' b, k' <> k -> block_at s' k' b = block_at s k' b)).
Proof.
  intros c s H. apply preach_wf in H as W. pose proof W as (H1 & H2 & H3 & H4 & H5).
  split; auto. split; auto. split; [intros; apply add_piece_known; auto|].
  split; [intros; apply add_piece_full; auto; lia|].
  intros k Hk L. rewrite add_piece_new by auto. eexists. split; [reflexivity|]. split; [|split].
  - unfold n_in_flight, pp_with. cbn [pp_data]. unfold pmset. rewrite length_mset.
    destruct (mhas Nat.eqb k (pp_data s)) eqn:E; auto. apply (mhas_in _ neqb_spec) in E. contradiction.
  - intro b. unfold block_at, pp_with, pmget, pmset. cbn [pp_data]. rewrite (mget_mset_same _ neqb_spec). cbn [pc_data].
    rewrite H2. destruct (Nat.ltb_spec b (n_blocks (pp_piece_length s))) as [Lb|Lb].
    + rewrite nth_error_repeat; auto.
    + apply nth_error_None. rewrite repeat_length. auto.
  - intros k' b Hn. unfold block_at, pp_with, pmget, pmset. cbn [pp_data]. rewrite (mget_mset_other _ neqb_spec) by auto. reflexivity.
Qed.
Example C19_example : preach false (ex_s 5 (seq 0 10)) /\ n_in_flight (ex_s 5 (seq 0 10)) = 10 /\
  in_flight (ex_s 5 (seq 0 10)) 3 /\ ~ in_flight (ex_s 5 (seq 0 10)) 11.
Proof.
  split.
  - destruct (pp_run false (mk_pp 5 (n_blocks 5) (Some ex_peer) []) (map OAdd (seq 0 10))) as [[s o]| |] eqn:E; [|vm_compute in E; discriminate..].
    replace (ex_s 5 (seq 0 10)) with s by (unfold ex_s; rewrite E; reflexivity).
    eapply preach_run; [|exact E]. apply preach_empty. lia.
  - vm_compute. split; [reflexivity|]. split; [auto|]. intro H. repeat (destruct H as [H|H]; [discriminate|]). exact H.
Qed.

(** ** C20 *)
(** The unit of all that follows: blocks of 16 KiB. *)
Theorem C20_block_size : N.of_nat BLOCK_SIZE = (16 * 1024)%N.
Proof. vm_compute. reflexivity. Qed.
(** Part: every block position except the last one of pieces whose length is a
    multiple of the block size (see [C20_full_last_block_refuted]). *)
Theorem C20_size_and_position_partial : forall c s k b d s' r, preach c s ->
  pp_piece_length s mod BLOCK_SIZE <> 0 \/ b + 1 <> n_blocks (pp_piece_length s) ->
  pp_add_block c s k b d = Val (s', r) ->
  (~ acceptable s k b d -> s' = s /\ r = ARFailed) /\
  (acceptable s k b d ->
     (r = ARAdded /\ block_at s' k b = Some (Downloaded d) /\ forall b', b' <> b -> block_at s' k b' = block_at s k b') \/
     (exists ds, r = ARLast k ds /\ ~ in_flight s' k /\ nth_error ds b = Some d /\ length ds = n_blocks (pp_piece_length s) /\
        forall b' d', b' <> b -> nth_error ds b' = Some d' <-> block_at s k b' = Some (Downloaded d'))) /\
  (forall k' b', k' <> k -> block_at s' k' b' = block_at s k' b').
Proof.
  intros c s k b d s' r H Hm E. apply preach_wf in H as W.
  pose proof (@check_bounds_spec s b d W Hm) as CB.
  destruct (pp_check_bounds s b d) eqn:EC.
  2:{ rewrite add_block_refused in E by auto. injection E as <- <-. split; auto. split; auto.
      intros (_ & A). apply CB in A. discriminate. }
  destruct (pmget k (pp_data s)) as [p|] eqn:G.
  2:{ assert (NI : ~ in_flight s k) by (apply pmget_none; auto).
      rewrite add_block_refused in E by auto. injection E as <- <-. split; auto. split; auto. intros [A _]. contradiction. }
  split.
  { intros A. exfalso. apply A. split; [apply in_flight_get; eauto|]. apply CB. auto. }
  pose proof (wf_get _ W G) as LW. pose proof (check_bounds_lt _ _ _ EC) as Hlt.
  rewrite (@add_block_some c s k b d p W EC G) in E.
  destruct (usize_dec c (pc_pending p)) as [pend| |]; cbn [rbind] in E; try discriminate. cbv zeta in E.
  destruct (pp_bpp s =? pc_downloaded p + 1).
  - destruct (blocks_data _) as [ds| |] eqn:ED; cbn [rbind] in E; try discriminate. injection E as <- <-.
    apply blocks_data_inv in ED as [DL DS]. rewrite upd_length in DL. split.
    + intros _. right. exists ds. split; auto. split.
      { rewrite in_flight_get. intros [q Hq]. cbn [pp_data pp_with] in Hq. unfold pmget, pmdel in Hq.
        rewrite (mget_mdel_same _ neqb_spec) in Hq; [discriminate|]. apply W. }
      split; [apply DS; rewrite nth_error_upd_same by lia; reflexivity|].
      destruct W as (_ & W2 & _). split; [congruence|].
      intros b' d' Hn. rewrite <- DS, nth_error_upd_other by auto. unfold block_at. rewrite G. tauto.
    + intros k' b' Hn. unfold block_at, pp_with, pmget, pmdel. cbn [pp_data]. rewrite (mget_mdel_other _ neqb_spec) by auto. reflexivity.
  - injection E as <- <-. split.
    + intros _. left. split; auto. unfold block_at, pp_with, pmset, pmget. cbn [pp_data].
      rewrite (mget_mset_same _ neqb_spec). cbn [pc_data]. split; [apply nth_error_upd_same; lia|].
      intros b' Hn. rewrite nth_error_upd_other by auto. unfold pmget in G. rewrite G. reflexivity.
    + intros k' b' Hn. unfold block_at, pp_with, pmget, pmset. cbn [pp_data]. rewrite (mget_mset_other _ neqb_spec) by auto. reflexivity.
Qed.
Example C20_example : acceptable (ex_s 5 [3]) 3 0 ex_blk /\ ~ acceptable (ex_s 5 [3]) 4 0 ex_blk /\
  ~ acceptable (ex_s 5 [3]) 3 1 ex_blk /\ ~ acceptable (ex_s 5 [3]) 3 0 [x01] /\ 5 mod BLOCK_SIZE <> 0 /\
  exists s', pp_add_block false (ex_s 5 [3]) 3 0 ex_blk = Val (s', ARLast 3 [ex_blk]).
Proof.
  assert (B : block_len 5 0 = 5) by (vm_compute; reflexivity).
  assert (NB : n_blocks 5 = 1) by (vm_compute; reflexivity).
  assert (PL : pp_piece_length (ex_s 5 [3]) = 5) by (vm_compute; reflexivity).
  assert (IF : map fst (pp_data (ex_s 5 [3])) = [3]) by (vm_compute; reflexivity).
  unfold acceptable, in_flight. rewrite PL, NB, IF. repeat split; cbn; auto.
  - intros [[H|[]] _]. discriminate.
  - intros (_ & H & _). lia.
  - rewrite B. intros (_ & _ & H). discriminate.
  - vm_compute. discriminate.
  - eexists. vm_compute. reflexivity.
Qed.
(** For every piece length that is a multiple of the block size the genuine
    last block is refused, and the only thing accepted in its place is an empty
    block. *)
Theorem C20_full_last_block_general : forall c s k b d, preach c s -> pp_piece_length s mod BLOCK_SIZE = 0 ->
  b + 1 = n_blocks (pp_piece_length s) -> acceptable s k b d -> pp_add_block c s k b d = Val (s, ARFailed).
Proof.
  intros c s k b d H Hm E (_ & _ & L). apply preach_wf in H as W. apply add_block_refused. left.
  destruct (pp_check_bounds s b d) eqn:EC; auto. apply check_bounds_mult in EC; auto. subst d.
  destruct W as (W1 & _). rewrite (@block_len_last_mult _ b W1 E Hm) in L. pose proof BS_pos. cbn in L. lia.
Qed.
Theorem C20_full_last_block_refuted : exists s k b d, preach false s /\ acceptable s k b d /\
  pp_add_block false s k b d = Val (s, ARFailed) /\
  ~ acceptable s k b [] /\ exists s', pp_add_block false s k b [] = Val (s', ARLast k [[]]).
Proof.
  pose proof BS_pos as HB.
  set (s0 := mk_pp BLOCK_SIZE (n_blocks BLOCK_SIZE) (Some ex_peer) []).
  assert (P0 : preach false s0) by (apply preach_empty; auto).
  assert (NB : n_blocks BLOCK_SIZE = 1).
  { unfold n_blocks. replace (BLOCK_SIZE + (BLOCK_SIZE - 1)) with (BLOCK_SIZE - 1 + 1 * BLOCK_SIZE) by lia.
    rewrite Nat.div_add by lia. rewrite Nat.div_small by lia. reflexivity. }
  assert (ST : pp_step false s0 (OAdd 0) = Val (mk_pp BLOCK_SIZE 1 (Some ex_peer) [(0, mk_pc 0 0 [Unbegun])], PAdd true)).
  { cbn [pp_step]. rewrite add_piece_new; [|apply (preach_wf P0)|cbn; auto|cbn; lia].
    unfold s0. cbn [pp_bpp pp_data]. rewrite NB. reflexivity. }
  set (s1 := mk_pp BLOCK_SIZE 1 (Some ex_peer) [(0, mk_pc 0 0 [Unbegun])]) in *.
  assert (P1 : preach false s1) by (eapply pr_step; [exact P0|exact ST]).
  assert (BL : block_len BLOCK_SIZE 0 = BLOCK_SIZE) by (unfold block_len; cbn [Nat.mul]; lia).
  assert (A : acceptable s1 0 0 (repeat x00 BLOCK_SIZE)).
  { unfold acceptable. split; [cbn; auto|]. cbn [pp_piece_length s1]. rewrite NB, BL, repeat_length. lia. }
  exists s1, 0, 0, (repeat x00 BLOCK_SIZE). split; auto. split; auto. split.
  - apply C20_full_last_block_general; [exact P1| |cbn [pp_piece_length s1]; lia|exact A]. cbn [pp_piece_length s1]. apply Nat.mod_same. lia.
  - split.
    + intros (_ & _ & L). cbn [pp_piece_length s1] in L. rewrite BL in L. cbn in L. lia.
    + eexists. unfold pp_add_block, pp_check_bounds. cbn [pp_bpp s1 pp_piece_length]. rewrite Nat.mod_same by lia. cbn. reflexivity.
Qed.
(** With overflow checks (debug builds) accepting any block aborts. *)
Theorem C20_debug_abort_always : forall s k b d, preach true s ->
  pp_piece_length s mod BLOCK_SIZE <> 0 \/ b + 1 <> n_blocks (pp_piece_length s) ->
  acceptable s k b d -> pp_add_block true s k b d = Panic.
Proof.
  intros s k b d H Hm (I & A). apply preach_wf in H as W. apply checked_accept_panics; auto.
  - apply preach_zero. auto.
  - apply check_bounds_spec; auto.
Qed.

Theorem C20_debug_abort_refuted : exists s k b d, preach true s /\ acceptable s k b d /\ pp_add_block true s k b d = Panic.
Proof.
  assert (P : preach true (ex_s 5 [3])).
  { eapply preach_run with (ops := [OAdd 3]); [apply (@preach_empty true 5 ex_peer); lia|]. vm_compute. reflexivity. }
  exists (ex_s 5 [3]), 3, 0, ex_blk. split; auto. split; [apply C20_example|].
  apply C20_debug_abort_always; [exact P|left; vm_compute; discriminate|apply C20_example].
Qed.

(** ** C21 *)
(** Part: arithmetic that wraps (release builds) and piece lengths that are not
    multiples of the block size. *)
Theorem C21_completion_partial : forall s k ops s' outs, preach false s -> pp_piece_length s mod BLOCK_SIZE <> 0 ->
  untouched s k -> pp_run false s ops = Val (s', outs) ->
  (forall b d, In (b, d) (arrivals k ops) -> b < n_blocks (pp_piece_length s) /\ length d = block_len (pp_piece_length s) b) ->
  NoDup (map fst (arrivals k ops)) ->
  (length (arrivals k ops) < n_blocks (pp_piece_length s) ->
     replies k ops outs = repeat ARAdded (length (arrivals k ops))) /\
  ((forall b, b < n_blocks (pp_piece_length s) -> In b (map fst (arrivals k ops))) ->
     exists ds, replies k ops outs = repeat ARAdded (n_blocks (pp_piece_length s) - 1) ++ [ARLast k ds] /\
       length ds = n_blocks (pp_piece_length s) /\
       forall b d, nth_error ds b = Some d <-> In (b, d) (arrivals k ops)).
Proof.
  intros s k ops s' outs H Hm (p & G & C & U) R Hv N. apply preach_wf in H as W.
  assert (HH : holds k s []).
  { exists p. split; auto. split; auto. intros b d. split; [|intros []]. intro X. apply U in X. destruct X. }
  pose proof W as (W1 & W2 & _). pose proof (n_blocks_pos W1) as NP.
  destruct (@completion k ops s s' outs [] W Hm HH) as [A B]; auto.
  { cbn. lia. }
  cbn [app] in A, B. rewrite W2 in *. split.
  - intro L. apply A; auto.
  - intro ALL. assert (L : length (arrivals k ops) = n_blocks (pp_piece_length s)).
    { rewrite <- (map_length fst). apply Nat.le_antisymm.
      - apply pigeon; auto. intros x Hx. apply in_map_iff in Hx as ([x' y] & <- & Hx). apply (Hv x' y Hx).
      - rewrite <- (seq_length (n_blocks (pp_piece_length s)) 0). apply NoDup_incl_length; [apply seq_NoDup|].
        intros x Hx. apply in_seq in Hx. apply ALL. lia. }
    destruct (B L) as (ds & R1 & R2 & R3). exists ds. rewrite <- L at 1. rewrite <- L at 1. split; auto.
    split; [lia|]. intros. rewrite R3. tauto.
Qed.
(** No abort as long as no block is delivered twice. *)
Theorem C21_no_abort_partial : forall s o, preach false s -> counted s -> pp_owner s <> None ->
  (forall k b d d', o = OBlock k b d -> block_at s k b <> Some (Downloaded d')) ->
  exists s' out, pp_step false s o = Val (s', out) /\ counted s' /\ pp_owner s' <> None.
Proof.
  intros s o H C HO HB. apply counted_step; auto. apply (preach_wf H). intros k b d E d'. eapply HB; eauto.
Qed.
Example C21_example :
  let pl := BLOCK_SIZE + 1 in
  n_blocks pl = 2 /\ block_len pl 0 = BLOCK_SIZE /\ block_len pl 1 = 1 /\ pl mod BLOCK_SIZE <> 0 /\
  forall d0, length d0 = BLOCK_SIZE ->
  exists s outs, pp_run false (mk_pp pl (n_blocks pl) (Some ex_peer) [])
    [OAdd 7; OAdd 8; OBlock 7 1 [x01]; OTake 3 [7; 8] [] 16; OBlock 8 1 [x02]; OCancel ex_peer; OBlock 7 0 d0] = Val (s, outs) /\
    replies 7 [OAdd 7; OAdd 8; OBlock 7 1 [x01]; OTake 3 [7; 8] [] 16; OBlock 8 1 [x02]; OCancel ex_peer; OBlock 7 0 d0] outs =
      [ARAdded; ARLast 7 [d0; [x01]]].
Proof.
  cbv zeta.
  assert (NB : n_blocks (BLOCK_SIZE + 1) = 2) by (vm_compute; reflexivity).
  assert (MO : (BLOCK_SIZE + 1) mod BLOCK_SIZE = 1) by (vm_compute; reflexivity).
  split; auto. split; [vm_compute; reflexivity|]. split; [vm_compute; reflexivity|]. split; [rewrite MO; discriminate|].
  intros d0 L. do 2 eexists. rewrite NB.
  assert (PN : pc_new (BLOCK_SIZE + 1) = Val (mk_pc 0 0 [Unbegun; Unbegun])).
  { unfold pc_new. rewrite ceil_n_blocks by lia. rewrite NB. reflexivity. }
  assert (SP : forall s1 out t s2 outs s o, pp_step false s o = Val (s1, out) -> pp_run false s1 t = Val (s2, outs) ->
            pp_run false s (o :: t) = Val (s2, out :: outs)).
  { intros s1 out t s2 outs s o E1 E2. cbn [pp_run]. rewrite E1. cbn [rbind fst snd]. rewrite E2. reflexivity. }
  assert (SA : forall m k, pmget k m = None -> length m < 10 ->
     pp_step false (mk_pp (BLOCK_SIZE + 1) 2 (Some ex_peer) m) (OAdd k) =
     Val (mk_pp (BLOCK_SIZE + 1) 2 (Some ex_peer) (pmset k (mk_pc 0 0 [Unbegun; Unbegun]) m), PAdd true)).
  { intros m k G L2. cbn [pp_step]. unfold pp_add_piece. cbn [pp_data pp_piece_length]. rewrite G.
    replace (MAX_PIECES_DOWNLOADING <=? length m) with false by (symmetry; apply Nat.leb_gt; exact L2). rewrite PN. reflexivity. }
  assert (C1 : forall m x, pp_check_bounds (mk_pp (BLOCK_SIZE + 1) 2 (Some ex_peer) m) 1 [x] = true).
  { intros. unfold pp_check_bounds. cbn [pp_bpp pp_piece_length]. rewrite MO. reflexivity. }
  assert (C0 : forall m, pp_check_bounds (mk_pp (BLOCK_SIZE + 1) 2 (Some ex_peer) m) 0 d0 = true).
  { intros. unfold pp_check_bounds. cbn [pp_bpp pp_piece_length]. cbn [Nat.leb Nat.eqb Nat.add]. rewrite L. apply Nat.eqb_refl. }
  split.
  - eapply SP; [apply SA; [reflexivity|cbn; lia]|]. eapply SP; [apply SA; [reflexivity|cbn; lia]|].
    eapply SP; [cbn [pp_step]; unfold pp_add_block; rewrite C1; reflexivity|].
    eapply SP; [reflexivity|]. cbn [fst snd].
    eapply SP; [cbn [pp_step]; unfold pp_add_block, pp_with; cbn [pp_piece_length pp_bpp pp_owner pp_data]; rewrite C1; reflexivity|].
    eapply SP; [reflexivity|].
    eapply SP; [cbn [pp_step]; unfold pp_add_block, pp_cancel_pending, pp_with; cbn [fst snd pp_piece_length pp_bpp pp_owner pp_data]; rewrite C0; reflexivity|].
    reflexivity.
  - reflexivity.
Qed.

(** Every block of an in-flight piece arrives exactly once with its genuine
    length; the piece never completes. *)
Theorem C21_multiple_refuted : exists s k ops s' outs, preach false s /\ untouched s k /\
  (forall b d, In (b, d) (arrivals k ops) -> b < n_blocks (pp_piece_length s) /\ length d = block_len (pp_piece_length s) b) /\
  NoDup (map fst (arrivals k ops)) /\
  (forall b, b < n_blocks (pp_piece_length s) -> In b (map fst (arrivals k ops))) /\
  pp_run false s ops = Val (s', outs) /\ replies k ops outs = [ARFailed].
Proof.
  pose proof BS_pos as HB.
  assert (NB : n_blocks BLOCK_SIZE = 1) by (vm_compute; reflexivity).
  set (s1 := mk_pp BLOCK_SIZE 1 (Some ex_peer) [(0, mk_pc 0 0 [Unbegun])]).
  assert (P1 : preach false s1).
  { apply pr_step with (s := mk_pp BLOCK_SIZE (n_blocks BLOCK_SIZE) (Some ex_peer) []) (o := OAdd 0) (out := PAdd true).
    - apply preach_empty. auto.
    - cbn [pp_step]. rewrite add_piece_new; [|apply (@preach_wf false); apply preach_empty; auto|cbn; auto|cbn; lia].
      cbn [pp_bpp pp_data]. rewrite NB. reflexivity. }
  assert (BL : block_len BLOCK_SIZE 0 = BLOCK_SIZE) by (unfold block_len; cbn [Nat.mul]; lia).
  assert (A : acceptable s1 0 0 (repeat x00 BLOCK_SIZE)).
  { unfold acceptable. split; [cbn; auto|]. cbn [pp_piece_length s1]. rewrite NB, BL, repeat_length. lia. }
  exists s1, 0, [OBlock 0 0 (repeat x00 BLOCK_SIZE)], s1, [PBlock ARFailed].
  split; auto. split.
  { exists (mk_pc 0 0 [Unbegun]). split; auto. split; auto. intros [|[|b]] d; discriminate. }
  cbn [arrivals flat_map app Nat.eqb map fst pp_piece_length s1]. split.
  { intros b d [X|[]]. injection X as <- <-. apply A. }
  split; [constructor; [intros []|constructor]|]. split.
  { intros b Hb. rewrite NB in Hb. left. lia. }
  cbn [pp_run pp_step]. rewrite (@C20_full_last_block_general false s1 0 0 _ P1); auto.
Qed.

(** ** C62: a block received twice neither completes a piece early nor aborts *)
(** The second copy of the one-byte final block is accepted again and, because
    the counter now equals the number of blocks, collecting the data aborts. *)
Theorem C62_duplicate_block_refuted : exists s k b d, preach false s /\ acceptable s k b d /\
  block_at s k b = Some (Downloaded d) /\ pp_add_block false s k b d = Panic.
Proof.
  assert (NB : n_blocks (BLOCK_SIZE + 1) = 2) by (vm_compute; reflexivity).
  assert (MO : (BLOCK_SIZE + 1) mod BLOCK_SIZE = 1) by (vm_compute; reflexivity).
  assert (BL : block_len (BLOCK_SIZE + 1) 1 = 1) by (vm_compute; reflexivity).
  assert (CB : forall st, pp_bpp st = 2 -> pp_piece_length st = BLOCK_SIZE + 1 -> pp_check_bounds st 1 [x09] = true).
  { intros st E1 E2. unfold pp_check_bounds. rewrite E1, E2, MO. reflexivity. }
  set (s1 := mk_pp (BLOCK_SIZE + 1) 2 (Some ex_peer) [(0, mk_pc 0 0 [Unbegun; Unbegun])]).
  assert (P1 : preach false s1).
  { apply pr_step with (s := mk_pp (BLOCK_SIZE + 1) (n_blocks (BLOCK_SIZE + 1)) (Some ex_peer) []) (o := OAdd 0) (out := PAdd true).
    - apply preach_empty. lia.
    - cbn [pp_step]. rewrite add_piece_new; [|apply (@preach_wf false); apply preach_empty; lia|cbn; auto|cbn; lia].
      cbn [pp_bpp pp_data]. rewrite NB. reflexivity. }
  set (s2 := mk_pp (BLOCK_SIZE + 1) 2 (Some ex_peer) [(0, mk_pc (2 ^ 64 - 1) 1 [Unbegun; Downloaded [x09]])]).
  assert (P2 : preach false s2).
  { apply pr_step with (s := s1) (o := OBlock 0 1 [x09]) (out := PBlock ARAdded); [exact P1|].
    cbn [pp_step]. unfold pp_add_block. rewrite CB by reflexivity. reflexivity. }
  exists s2, 0, 1, [x09]. split; auto. split; [|split].
  - unfold acceptable. split; [cbn; auto|]. cbn [pp_piece_length s2]. rewrite NB, BL. cbn. lia.
  - reflexivity.
  - unfold pp_add_block. rewrite CB by reflexivity. reflexivity.
Qed.
(** Part: refused as a duplicate is impossible, but a first copy never aborts:
    [C21_no_abort_partial]. *)

(** ** C22 *)
(** Part: an owner has been set, and the buffer keeps spare room (otherwise
    blocks whose request expired may be left out, see below). *)
Theorem C22_take_partial : forall c s o now ps buf cap, preach c s -> pp_owner s = Some o ->
  exists s' new cap', pp_take s now ps buf cap = Val (s', buf ++ new, cap') /\
 (** no address twice, all freshly queued *)
  NoDup new /\ (forall a, In a new -> ba_status a = Queued) /\
 (** exactly the blocks not yet requested, plus expired ones *)
  (forall k b, In k ps -> block_at s k b = Some Unbegun -> In (block_addr_new k b) new) /\
 (forall a, In a new -> In (ba_piece a) ps /\
    (block_at s (ba_piece a) (ba_block a) = Some Unbegun \/
      exists p t, block_at s (ba_piece a) (ba_block a) = Some (Pending p t) /\ t + 7 < now)) /\
 (length (buf ++ new) < cap -> forall k b p t, In k ps -> block_at s k b = Some (Pending p t) ->
     t + 7 < now -> In (block_addr_new k b) new) /\
 (** returned blocks are marked, all others stay as they were *)
  (forall a, In a new -> block_at s' (ba_piece a) (ba_block a) = Some (Pending o now)) /\
 (forall k b, ~ In (block_addr_new k b) new -> block_at s' k b = block_at s k b).
Proof.
  intros c s o now ps buf cap H EO. apply preach_wf in H as W. pose proof W as (_ & _ & N & _).
  rewrite (pp_take_spec s now ps buf cap EO). cbv zeta.
  set (m1 := mark_map is_unbegun o now ps (pp_data s)). set (t1 := taken is_unbegun ps (pp_data s)).
  set (t2 := taken (is_expired now) ps m1).
  assert (N1 : NoDup (map fst m1)) by (unfold m1; rewrite mark_map_keys; auto).
  (* first pass *)
  assert (A1 : forall k b, In (block_addr_new k b) t1 <-> In k ps /\ block_at s k b = Some Unbegun).
  { intros k b. unfold t1. rewrite in_taken by auto. cbn [ba_piece ba_block ba_status block_addr_new]. unfold block_at. split.
    - intros (_ & Hk & p & x & G & Hx & Hf). rewrite G. destruct x; try discriminate. auto.
    - intros (Hk & Hx). split; auto. split; auto. destruct (pmget k (pp_data s)) as [p|]; [|discriminate]. eauto. }
  assert (Q1 : forall a, In a t1 -> a = block_addr_new (ba_piece a) (ba_block a)).
  { intros a Ha. unfold t1 in Ha. apply in_taken in Ha as [Hs _]; auto. destruct a as [x y z]. cbn in Hs. subst z. reflexivity. }
  assert (B1 : forall k b, block_at (pp_with s m1) k b =
     match block_at s k b with Some Unbegun => if mem k ps then Some (Pending o now) else Some Unbegun | x => x end).
  { intros k b. unfold block_at, pp_with. cbn [pp_data]. unfold m1. rewrite mark_map_get.
    destruct (pmget k (pp_data s)) as [p|]; cbn [option_map]; auto. unfold mark_pc.
    destruct (mem k ps); cbn [pc_data].
    - unfold mark. rewrite nth_error_map. destruct (nth_error (pc_data p) b) as [[| |]|]; reflexivity.
    - destruct (nth_error (pc_data p) b) as [[| |]|]; reflexivity. }
  (* second pass *)
  assert (EX : forall x, is_expired now x = true <-> exists p t, x = Pending p t /\ t + REQUEST_TIMEOUT_SECS < now).
  { intros [|p t|d]; cbn [is_expired].
    - split; [discriminate|]. intros (? & ? & ? & _). discriminate.
    - rewrite Nat.ltb_lt. split.
      + intro L. exists p, t. split; auto. unfold REQUEST_TIMEOUT_SECS in *. lia.
      + intros (? & ? & X & L). injection X as <- <-. unfold REQUEST_TIMEOUT_SECS in *. lia.
    - split; [discriminate|]. intros (? & ? & ? & _). discriminate. }
  assert (A2 : forall k b, In (block_addr_new k b) t2 <-> In k ps /\ exists p t, block_at s k b = Some (Pending p t) /\ t + REQUEST_TIMEOUT_SECS < now).
  { intros k b. unfold t2. rewrite in_taken by auto. cbn [ba_piece ba_block ba_status block_addr_new].
    assert (GB : (exists p x, pmget k m1 = Some p /\ nth_error (pc_data p) b = Some x /\ is_expired now x = true) <->
                 exists x, block_at (pp_with s m1) k b = Some x /\ is_expired now x = true).
    { unfold block_at, pp_with. cbn [pp_data]. split.
      - intros (p & x & G & Hx & Hf). exists x. rewrite G. auto.
      - intros (x & Hx & Hf). destruct (pmget k m1) as [p|]; [|discriminate]. eauto. }
    rewrite GB, B1. split.
    - intros (_ & Hk & x & Hx & Hf). split; auto. apply EX in Hf as (p & t & -> & L).
      destruct (block_at s k b) as [[|p' t'|d']|]; try discriminate.
      + destruct (mem k ps); [|discriminate]. injection Hx as <- <-. exfalso. lia.
      + injection Hx as <- <-. eauto.
    - intros (Hk & p & t & Hx & L). split; auto. split; auto. exists (Pending p t). rewrite Hx. split; auto. apply EX. eauto. }
  assert (Q2 : forall a, In a t2 -> a = block_addr_new (ba_piece a) (ba_block a)).
  { intros a Ha. unfold t2 in Ha. apply in_taken in Ha as [Hs _]; auto. destruct a as [x y z]. cbn in Hs. subst z. reflexivity. }
  assert (B2 : forall k b, block_at (pp_with s (mark_map (is_expired now) o now ps m1)) k b =
     match block_at (pp_with s m1) k b with Some x => if mem k ps && is_expired now x then Some (Pending o now) else Some x | None => None end).
  { intros k b. unfold block_at, pp_with. cbn [pp_data]. rewrite mark_map_get.
    destruct (pmget k m1) as [p|]; cbn [option_map]; auto. unfold mark_pc. destruct (mem k ps); cbn [pc_data andb].
    - unfold mark. rewrite nth_error_map. destruct (nth_error (pc_data p) b) as [x|]; cbn; auto. destruct (is_expired now x); auto.
    - destruct (nth_error (pc_data p) b); auto. }
  assert (ND1 : NoDup t1) by (apply NoDup_taken; auto).
  assert (ND2 : NoDup t2) by (apply NoDup_taken; auto).
  set (cap1 := vec_extend_cap cap (length buf) (length t1)).
  destruct (Nat.eqb_spec cap1 (length (buf ++ t1))) as [E|E].
  - exists (pp_with s m1), t1, cap1. split; auto. split; auto.
    split; [intros a Ha; apply Q1 in Ha; rewrite Ha; reflexivity|].
    split; [intros; apply A1; auto|]. split.
    { intros a Ha. pose proof (Q1 a Ha) as Qa. rewrite Qa in Ha. apply A1 in Ha as [? ?]. auto. }
    split.
    { intro L. exfalso. unfold cap1 in E. rewrite app_length in *. rewrite vec_room in E by lia. lia. }
    split.
    { intros a Ha. pose proof (Q1 a Ha) as Qa. rewrite Qa in Ha. apply A1 in Ha as [Hk Hx]. rewrite B1, Hx.
      apply mem_In in Hk. rewrite Hk. reflexivity. }
    intros k b Hn. rewrite B1. destruct (block_at s k b) as [[| |]|] eqn:X; auto.
    destruct (mem k ps) eqn:Y; auto. exfalso. apply Hn. apply A1. split; auto. apply mem_In. auto.
  - exists (pp_with s (mark_map (is_expired now) o now ps m1)), (t1 ++ t2),
      (vec_extend_cap cap1 (length (buf ++ t1)) (length t2)). split; [rewrite <- app_assoc; reflexivity|].
    split.
    { clear - ND1 ND2 A1 A2 Q1. assert (D : forall a, In a t1 -> ~ In a t2).
      { intros a H1 H2. pose proof (Q1 a H1) as Q. rewrite Q in H1, H2. apply A1 in H1 as [_ H1]. apply A2 in H2 as (_ & p & t & H2 & _). congruence. }
      revert ND1 D. generalize t1. intro l. induction l as [|x l IH]; intros ND1 D; cbn; auto.
      inversion ND1; subst. constructor.
      - rewrite in_app_iff. intros [X|X]; [contradiction|]. apply (D x); cbn; auto.
      - apply IH; auto. intros. apply D. cbn. auto. }
    split.
    { intros a Ha. apply in_app_iff in Ha as [Ha|Ha]; [apply Q1 in Ha|apply Q2 in Ha]; rewrite Ha; reflexivity. }
    split; [intros; apply in_or_app; left; apply A1; auto|]. split.
    { intros a Ha. apply in_app_iff in Ha as [Ha|Ha].
      - pose proof (Q1 a Ha) as Qa. rewrite Qa in Ha. apply A1 in Ha as [? ?]. auto.
      - pose proof (Q2 a Ha) as Qa. rewrite Qa in Ha. apply A2 in Ha as (? & p & t & ? & ?). split; auto. right. eauto. }
    split; [intros _ k b p t Hk Hx L; apply in_or_app; right; apply A2; split; eauto|].
    split.
    { intros a Ha. rewrite B2, B1. apply in_app_iff in Ha as [Ha|Ha].
      - pose proof (Q1 a Ha) as Qa. rewrite Qa in Ha. apply A1 in Ha as [Hk Hx]. rewrite Hx. apply mem_In in Hk. rewrite Hk.
        destruct (true && is_expired now (Pending o now)); auto.
      - pose proof (Q2 a Ha) as Qa. rewrite Qa in Ha. apply A2 in Ha as (Hk & p & t & Hx & L). rewrite Hx. apply mem_In in Hk. rewrite Hk.
        assert (X : is_expired now (Pending p t) = true) by (apply EX; eauto). rewrite X. reflexivity. }
    intros k b Hn. rewrite in_app_iff in Hn. rewrite B2, B1.
    destruct (mem k ps) eqn:Y.
    + destruct (block_at s k b) as [[|p t|d]|] eqn:X; auto.
      * exfalso. apply Hn. left. apply A1. split; auto. apply mem_In. auto.
      * destruct (is_expired now (Pending p t)) eqn:Z; auto. exfalso. apply Hn. right. apply A2. split; [apply mem_In; auto|].
        apply EX in Z as (p' & t' & Z & L). injection Z as <- <-. eauto.
    + cbn [andb]. destruct (block_at s k b) as [[| |]|]; auto.
Qed.
Example C22_example : exists s', pp_take (ex_s 5 [3; 4; 6]) 100 [6; 3] [] 16 =
  Val (s', [block_addr_new 3 0; block_addr_new 6 0], 16) /\ block_at s' 3 0 = Some (Pending ex_peer 100) /\ block_at s' 4 0 = Some Unbegun.
Proof. eexists. vm_compute. repeat split; reflexivity. Qed.
(** The program never sets the owner: taking any missing block aborts. *)
Theorem C22_no_owner_always : forall s now ps buf cap k b, pp_owner s = None -> In k ps ->
  block_at s k b = Some Unbegun -> pp_take s now ps buf cap = Panic.
Proof.
  intros s now ps buf cap k b EO Hk HB. unfold block_at in HB. destruct (pmget k (pp_data s)) as [p|] eqn:G; [|discriminate].
  unfold pp_take. rewrite EO. erewrite take_pass_none_panic; eauto.
Qed.
Theorem C22_no_owner_refuted : exists s, pp_new 5 = Val s /\ exists s', pp_add_piece s 0 = Val s' /\
  pp_owner s' = None /\ pp_take s' 0 [0] [] 16 = Panic.
Proof. eexists. split; [vm_compute; reflexivity|]. eexists. split; [vm_compute; reflexivity|]. split; vm_compute; reflexivity. Qed.
(** When the buffer is exactly full after the new blocks, expired ones are
    forgotten. *)
Theorem C22_full_buffer_refuted : exists s now ps buf k b p t s' buf' cap',
  preach false s /\ pp_owner s <> None /\ pp_take s now ps buf 16 = Val (s', buf', cap') /\
  In k ps /\ block_at s k b = Some (Pending p t) /\ t + 7 < now /\ ~ In (block_addr_new k b) buf'.
Proof.
  set (s1 := mk_pp 5 1 (Some ex_peer) [(0, mk_pc 0 0 [Pending ex_peer 0]); (1, mk_pc 0 0 [Unbegun])]).
  assert (P : preach false s1).
  { eapply preach_run with (ops := [OAdd 0; OTake 0 [0] [] 16; OAdd 1]); [apply (@preach_empty false 5 ex_peer); lia|].
    vm_compute. reflexivity. }
  exists s1, 100, [0; 1], (repeat (mk_ba 9 0 Requested) 15), 0, 0, ex_peer, 0.
  do 3 eexists. split; [exact P|]. split; [discriminate|]. split; [vm_compute; reflexivity|].
  split; [cbn; auto|]. split; [reflexivity|]. split; [unfold REQUEST_TIMEOUT_SECS; lia|].
  intro X. repeat (destruct X as [X|X]; [discriminate|]). exact X.
Qed.

(** ** C23 *)
(** Hash most recently announced for piece [idx] and not withdrawn. *)
Definition announced (idx : nat) (evs : list dl_event) : option ID :=
  fold_left (fun acc e => match e with
    | EvStart h i => if i =? idx then Some h else acc
    | EvStop i => if i =? idx then None else acc
    | EvBlock _ => acc end) evs None.
(** A whole life of one downloader. Other connections may change the shared
    in-flight set between iterations, so it is given anew at each one. *)
Fixpoint dl_life (sha1 : bytes -> ID) (c : bool) (d : dl) (h : list (nat * pp * dl_event)) : res (list (nat * list bytes)) :=
  match h with
  | [] => Val []
  | (now, s, e) :: t => rbind (dl_step sha1 c now s d e) (fun r =>
      match r with (_, d', fin, _) => rmap (app fin) (dl_life sha1 c d' t) end)
  end.

Lemma dl_block_pieces : forall sha1 c s d m r, dl_block sha1 c s d m = Val r -> dl_pieces (snd (fst r)) = dl_pieces d.
Proof.
  intros sha1 c s d m r H. unfold dl_block in H. destruct (negb _); [injection H as <-; auto|].
  destruct (dmget _ _); [|injection H as <-; auto]. destruct (remove_block _ _) as [[rm rest]|]; [|injection H as <-; auto].
  destruct (pp_add_block _ _ _ _ _) as [[s1 ar]| |]; cbn [rbind snd fst] in H; try discriminate.
  destruct ar as [| |idx ds]; try discriminate.
  - injection H as <-. auto.
  - destruct (bytes_eqb _ _); [injection H as <-; auto|]. destruct (pp_add_piece _ _); try discriminate; injection H as <-; auto.
Qed.
Lemma add_block_last_idx : forall c s k b d s' idx ds, pp_add_block c s k b d = Val (s', ARLast idx ds) -> idx = k.
Proof.
  intros c s k b d s' idx ds H. unfold pp_add_block in H. destruct (negb _); [discriminate|]. destruct (pmget _ _); [|discriminate].
  destruct (_ <=? _); [discriminate|]. destruct (usize_dec _ _); cbn [rbind] in H; try discriminate. cbv zeta in H.
  destruct (pp_bpp s =? _); [|discriminate]. destruct (blocks_data _); cbn [rbind] in H; try discriminate. congruence.
Qed.
Lemma dl_block_fin : forall sha1 c s d m r idx ds, dl_block sha1 c s d m = Val r -> In (idx, ds) (snd r) ->
  idx = N.to_nat (pm_index m) /\ dmget idx (dl_pieces d) = Some (sha1 (concat ds)).
Proof.
  intros sha1 c s d m r idx ds H HI. unfold dl_block in H. destruct (negb _); [injection H as <-; destruct HI|].
  destruct (dmget _ _) as [h|] eqn:G; [|injection H as <-; destruct HI].
  destruct (remove_block _ _) as [[rm rest]|]; [|injection H as <-; destruct HI].
  destruct (pp_add_block _ _ _ _ _) as [[s1 ar]| |] eqn:EA; cbn [rbind snd fst] in H; try discriminate.
  destruct ar as [| |i2 ds2]; try discriminate.
  - injection H as <-. destruct HI.
  - destruct (bytes_eqb (piece_hash sha1 ds2) h) eqn:EH.
    + injection H as <-. destruct HI as [HI|[]]. injection HI as <- <-. apply add_block_last_idx in EA. split; auto.
      rewrite EA, G. apply bytes_eqb_eq in EH. unfold piece_hash in EH. congruence.
    + destruct (pp_add_piece _ _); try discriminate; injection H as <-; destruct HI.
Qed.
Lemma dl_handle_announced : forall sha1 c s d e r evs, NoDup (keys (dl_pieces d)) ->
  (forall i, dmget i (dl_pieces d) = announced i evs) -> dl_handle sha1 c s d e = Val r ->
  NoDup (keys (dl_pieces (snd (fst r)))) /\ forall i, dmget i (dl_pieces (snd (fst r))) = announced i (evs ++ [e]).
Proof.
  intros sha1 c s d e r evs N A H. assert (FA : forall i, announced i (evs ++ [e]) =
    match e with EvStart h j => if j =? i then Some h else announced i evs
               | EvStop j => if j =? i then None else announced i evs | EvBlock _ => announced i evs end).
  { intro i. unfold announced. rewrite fold_left_app. reflexivity. }
  destruct e as [m|h j|j]; cbn [dl_handle] in H.
  - rewrite (dl_block_pieces sha1 c s d m H). split; auto. intro i. rewrite FA. auto.
  - injection H as <-. cbn [snd fst dl_pieces]. split; [apply (NoDup_mset _ neqb_spec); auto|].
    intro i. rewrite FA. unfold dmget, dmset. destruct (Nat.eqb_spec j i) as [->|Hn].
    + apply (mget_mset_same _ neqb_spec).
    + rewrite (mget_mset_other _ neqb_spec) by auto. apply A.
  - injection H as <-. cbn [snd fst dl_pieces]. split; [apply NoDup_mdel; auto|].
    intro i. rewrite FA. unfold dmget, dmdel. destruct (Nat.eqb_spec j i) as [->|Hn].
    + apply (mget_mdel_same _ neqb_spec). auto.
    + rewrite (mget_mdel_other _ neqb_spec) by auto. apply A.
Qed.
Theorem C23_only_checked_forwarded : forall sha1 c h fin, dl_life sha1 c dl_init h = Val fin ->
  forall idx ds, In (idx, ds) fin ->
  exists pre m post, map snd h = pre ++ EvBlock m :: post /\ idx = N.to_nat (pm_index m) /\
    announced idx pre = Some (sha1 (concat ds)).
Proof.
  intros sha1 c h. assert (GEN : forall d evs fin, NoDup (keys (dl_pieces d)) -> (forall i, dmget i (dl_pieces d) = announced i evs) ->
    dl_life sha1 c d h = Val fin -> forall idx ds, In (idx, ds) fin -> exists pre m post,
      map snd h = pre ++ EvBlock m :: post /\ idx = N.to_nat (pm_index m) /\ announced idx (evs ++ pre) = Some (sha1 (concat ds))).
  { induction h as [|[[now s] e] t IH]; intros d evs fin N A H idx ds HI; cbn [dl_life] in H.
    - injection H as <-. destruct HI.
    - unfold dl_step in H. destruct (dl_handle sha1 c s d e) as [[[s1 d1] f1]| |] eqn:EH; cbn [rbind] in H; try discriminate.
      pose proof (@dl_handle_announced _ _ _ _ _ _ _ N A EH) as [N1 A1]. cbn [snd fst] in N1, A1.
      destruct (if _ =? 0 then _ else _) as [[[s2 blocks] cap]| |]; cbn [rbind] in H; try discriminate.
      destruct (dl_life sha1 c _ t) as [fin2| |] eqn:EL; cbn [rmap] in H; try discriminate. injection H as <-.
      apply in_app_iff in HI as [HI|HI].
      + destruct e as [m|h0 j|j]; cbn [dl_handle] in EH; [|injection EH as <- <- <-; destruct HI..].
        exists [], m, (map snd t). split; auto. destruct (@dl_block_fin _ _ _ _ _ _ _ _ EH HI) as [B1 B2]. split; auto.
        rewrite app_nil_r, <- A. auto.
      + edestruct IH with (evs := evs ++ [e]) as (pre & m & post & E1 & E2 & E3); [| |exact EL|exact HI|]; auto.
        exists (e :: pre), m, post. cbn [map snd]. rewrite E1. split; auto. split; auto. rewrite <- app_assoc in E3. exact E3. }
  intros fin H idx ds HI. destruct (GEN dl_init [] fin) with (idx := idx) (ds := ds) as (pre & m & post & E); auto.
  - constructor.
  - exists pre, m, post. exact E.
Qed.
(** A completed piece with the wrong hash goes back in flight, empty, and
    nothing is forwarded. *)
Theorem C23_bad_piece_retried : forall sha1 c s d m h rm rest s1 ds, preach c s ->
  N.to_nat (pm_begin m) mod BLOCK_SIZE = 0 -> dmget (N.to_nat (pm_index m)) (dl_pieces d) = Some h ->
  remove_block (N.to_nat (pm_begin m) / BLOCK_SIZE) (dl_blocks d) = Some (rm, rest) ->
  pp_add_block c s (N.to_nat (pm_index m)) (N.to_nat (pm_begin m) / BLOCK_SIZE) (pm_block m) = Val (s1, ARLast (N.to_nat (pm_index m)) ds) ->
  sha1 (concat ds) <> h ->
  exists s2 d2, dl_block sha1 c s d m = Val (s2, d2, []) /\ dl_pieces d2 = dl_pieces d /\
    (forall b, b < n_blocks (pp_piece_length s) -> block_at s2 (N.to_nat (pm_index m)) b = Some Unbegun).
Proof.
  intros sha1 c s d m h rm rest s1 ds H Hm G R E Hh. apply preach_wf in H as W.
  unfold dl_block. rewrite Hm. cbn [Nat.eqb negb]. rewrite G, R, E. cbn [rbind snd fst].
  destruct (bytes_eqb (piece_hash sha1 ds) h) eqn:EH; [apply bytes_eqb_eq in EH; contradiction|].
  pose proof (@wf_add_block _ _ _ _ _ _ _ W E) as W1.
  assert (STE : pp_step c s (OBlock (N.to_nat (pm_index m)) (N.to_nat (pm_begin m) / BLOCK_SIZE) (pm_block m)) = Val (s1, PBlock (ARLast (N.to_nat (pm_index m)) ds))).
  { cbn [pp_step]. rewrite E. reflexivity. }
  destruct (@step_const _ _ _ _ _ STE) as [K1 K2].
  (* the piece was removed, so there is room for it *)
  set (k := N.to_nat (pm_index m)) in *. set (b0 := N.to_nat (pm_begin m) / BLOCK_SIZE) in *.
  destruct (pp_check_bounds s b0 (pm_block m)) eqn:EC; [|rewrite add_block_refused in E by auto; discriminate].
  destruct (pmget k (pp_data s)) as [p|] eqn:GP; [|rewrite add_block_refused in E by (right; apply pmget_none; auto); discriminate].
  assert (S1 : s1 = pp_with s (pmdel k (pp_data s))).
  { rewrite (@add_block_some c s k b0 (pm_block m) p W EC GP) in E.
    destruct (usize_dec c (pc_pending p)); cbn [rbind] in E; try discriminate. cbv zeta in E.
    destruct (pp_bpp s =? _); [|discriminate]. destruct (blocks_data _); cbn [rbind] in E; try discriminate. congruence. }
  assert (NI : ~ in_flight s1 k).
  { rewrite in_flight_get. intros [q Hq]. rewrite S1 in Hq. cbn [pp_data pp_with] in Hq. unfold pmget, pmdel in Hq.
    rewrite (mget_mdel_same _ neqb_spec) in Hq; [discriminate|]. apply W. }
  assert (LN : n_in_flight s1 < 10).
  { rewrite S1. unfold n_in_flight. cbn [pp_data pp_with]. unfold pmdel. rewrite length_mdel.
    assert (HK : mhas Nat.eqb k (pp_data s) = true) by (apply (mhas_in _ neqb_spec); apply (mget_some_key _ neqb_spec) in GP; exact GP).
    rewrite HK. destruct W as (_ & _ & _ & W4 & _). destruct (pp_data s) as [|x xs]; [discriminate|]. cbn in *. lia. }
  rewrite add_piece_new by auto. do 2 eexists. split; [reflexivity|]. split; auto.
  intros b Hb. unfold block_at, pp_with, pmset, pmget. cbn [pp_data]. rewrite (mget_mset_same _ neqb_spec). cbn [pc_data].
  apply nth_error_repeat. rewrite K2. destruct W as (_ & -> & _). auto.
Qed.
(** A one-block piece: started, requested, received. *)
Definition ex_id (x : byte) : ID := repeat x 20.
Definition ex_sha (d : bytes) : ID := if bytes_eqb d ex_blk then ex_id x01 else ex_id x02.
Definition ex_life (data : bytes) : list (nat * pp * dl_event) :=
  [(0, ex_s 5 [3], EvStart (ex_id x01) 3); (1, ex_s 5 [3], EvBlock (mk_piece 3 0 data))].
Example C23_example :
  dl_life ex_sha false dl_init (ex_life ex_blk) = Val [(3, [ex_blk])] /\
  dl_life ex_sha false dl_init (ex_life [x09; x09; x09; x09; x09]) = Val [].
Proof. split; vm_compute; reflexivity. Qed.

(** ** C63: receiving a wanted block never aborts the downloader *)
(** Part: one-block pieces. A wanted block with the right content is forwarded. *)
Theorem C63_single_block_pieces_partial : forall sha1 s d m h rm rest, preach false s -> counted s ->
  pp_piece_length s < BLOCK_SIZE ->
  N.to_nat (pm_begin m) = 0 -> dmget (N.to_nat (pm_index m)) (dl_pieces d) = Some h ->
  remove_block 0 (dl_blocks d) = Some (rm, rest) -> in_flight s (N.to_nat (pm_index m)) ->
  length (pm_block m) = pp_piece_length s -> sha1 (pm_block m) = h ->
  exists s', dl_block sha1 false s d m =
    Val (s', mk_dl (dl_pieces d) rest (dl_cap d) (dl_counter d), [(N.to_nat (pm_index m), [pm_block m])]).
Proof.
  intros sha1 s d m h rm rest H C L B G R I LB Hh. apply preach_wf in H as W. pose proof W as (W1 & W2 & _).
  pose proof BS_pos as HB.
  assert (NB : n_blocks (pp_piece_length s) = 1).
  { unfold n_blocks. replace (pp_piece_length s + (BLOCK_SIZE - 1)) with (pp_piece_length s - 1 + 1 * BLOCK_SIZE) by lia.
    rewrite Nat.div_add by lia. rewrite Nat.div_small by lia. reflexivity. }
  assert (HM : pp_piece_length s mod BLOCK_SIZE <> 0) by (rewrite Nat.mod_small by lia; lia).
  assert (EC : pp_check_bounds s 0 (pm_block m) = true).
  { apply check_bounds_spec; auto. rewrite NB. split; [lia|]. unfold block_len. cbn [Nat.mul]. lia. }
  apply in_flight_get in I as [p GP]. pose proof (wf_get _ W GP) as LP.
  assert (CP : pc_downloaded p < pp_bpp s).
  { pose proof (mget_in _ neqb_spec _ _ GP) as X. unfold counted in C. rewrite Forall_forall in C. apply (C _ X). }
  unfold dl_block. rewrite B, Nat.mod_0_l, Nat.div_0_l by lia. cbn [Nat.eqb negb]. rewrite G, R.
  rewrite (@add_block_some false s _ 0 (pm_block m) p W EC GP). destruct (usize_dec_unchecked (pc_pending p)) as [pend ->].
  cbn [rbind]. cbv zeta. rewrite W2, NB in *. replace (pc_downloaded p) with 0 by lia. cbn [Nat.add Nat.eqb].
  destruct (pc_data p) as [|x [|y z]]; cbn in LP; try lia. cbn [upd blocks_data rmap rbind snd fst].
  unfold piece_hash. cbn [concat]. rewrite app_nil_r, Hh, bytes_eqb_refl. eauto.
Qed.
Example C63_example : preach false (ex_s 5 [3]) /\ counted (ex_s 5 [3]) /\ in_flight (ex_s 5 [3]) 3 /\
  exists s', dl_block ex_sha false (ex_s 5 [3]) (mk_dl [(3, ex_id x01)] [mk_ba 3 0 Requested] 16 1) (mk_piece 3 0 ex_blk) =
    Val (s', mk_dl [(3, ex_id x01)] [] 16 1, [(3, [ex_blk])]).
Proof.
  split; [|split; [|split]].
  - eapply preach_run with (ops := [OAdd 3]); [apply (@preach_empty false 5 ex_peer); lia|]. vm_compute. reflexivity.
  - assert (E : pp_data (ex_s 5 [3]) = [(3, mk_pc 0 0 [Unbegun])] /\ pp_bpp (ex_s 5 [3]) = 1) by (vm_compute; auto).
    unfold counted. destruct E as [-> ->]. repeat constructor.
  - vm_compute. auto.
  - eexists. vm_compute. reflexivity.
Qed.
(** Any wanted, well-formed block that does not complete its piece aborts. *)
Theorem C63_first_block_aborts_always : forall sha1 s d m h rm rest s', 
  N.to_nat (pm_begin m) mod BLOCK_SIZE = 0 -> dmget (N.to_nat (pm_index m)) (dl_pieces d) = Some h ->
  remove_block (N.to_nat (pm_begin m) / BLOCK_SIZE) (dl_blocks d) = Some (rm, rest) ->
  pp_add_block false s (N.to_nat (pm_index m)) (N.to_nat (pm_begin m) / BLOCK_SIZE) (pm_block m) = Val (s', ARAdded) ->
  dl_block sha1 false s d m = Panic.
Proof.
  intros sha1 s d m h rm rest s' Hm G R E. unfold dl_block. rewrite Hm. cbn [Nat.eqb negb]. rewrite G, R, E. reflexivity.
Qed.
Theorem C63_refuted : exists s d m, preach false s /\
  acceptable s (N.to_nat (pm_index m)) 1 (pm_block m) /\ N.to_nat (pm_begin m) = BLOCK_SIZE /\
  dmget (N.to_nat (pm_index m)) (dl_pieces d) <> None /\ In (mk_ba (N.to_nat (pm_index m)) 1 Requested) (dl_blocks d) /\
  forall sha1, dl_block sha1 false s d m = Panic.
Proof.
  pose proof BS_pos as HB.
  assert (NB : n_blocks (BLOCK_SIZE + 1) = 2) by (vm_compute; reflexivity).
  assert (MO : (BLOCK_SIZE + 1) mod BLOCK_SIZE = 1) by (vm_compute; reflexivity).
  assert (BL : block_len (BLOCK_SIZE + 1) 1 = 1) by (vm_compute; reflexivity).
  set (s1 := mk_pp (BLOCK_SIZE + 1) 2 (Some ex_peer) [(0, mk_pc 0 0 [Unbegun; Unbegun])]).
  assert (P1 : preach false s1).
  { apply pr_step with (s := mk_pp (BLOCK_SIZE + 1) (n_blocks (BLOCK_SIZE + 1)) (Some ex_peer) []) (o := OAdd 0) (out := PAdd true).
    - apply preach_empty. lia.
    - cbn [pp_step]. rewrite add_piece_new; [|apply (@preach_wf false); apply preach_empty; lia|cbn; auto|cbn; lia].
      cbn [pp_bpp pp_data]. rewrite NB. reflexivity. }
  assert (BN : N.to_nat (N.of_nat BLOCK_SIZE) = BLOCK_SIZE) by apply Nat2N.id.
  exists s1, (mk_dl [(0, ex_id x01)] [mk_ba 0 1 Requested] 16 1), (mk_piece 0 (N.of_nat BLOCK_SIZE) [x09]).
  split; auto. split.
  { unfold acceptable. split; [cbn; auto|]. cbn [pp_piece_length s1 pm_block]. rewrite NB, BL. cbn. lia. }
  split; auto. split; [cbn; discriminate|]. split; [cbn; auto|].
  intro sha1. apply C63_first_block_aborts_always with (h := ex_id x01) (rm := mk_ba 0 1 Requested) (rest := [])
    (s' := mk_pp (BLOCK_SIZE + 1) 2 (Some ex_peer) [(0, mk_pc (2 ^ 64 - 1) 1 [Unbegun; Downloaded [x09]])]); cbn [pm_begin pm_index pm_block]; rewrite ?BN.
  - apply Nat.mod_same. lia.
  - reflexivity.
  - rewrite Nat.div_same by lia. reflexivity.
  - rewrite Nat.div_same by lia. unfold pp_add_block. 
    assert (CB : pp_check_bounds s1 1 [x09] = true).
    { unfold pp_check_bounds. cbn [s1 pp_bpp pp_piece_length]. rewrite MO. reflexivity. }
    cbn [N.to_nat]. rewrite CB. reflexivity.
Qed.

(** ** C64: a refused block is requested again *)
(** Part: no other outstanding request has the same block number. *)
Theorem C64_refused_requested_again_partial : forall sha1 c s d m h pre post st s',
  N.to_nat (pm_begin m) mod BLOCK_SIZE = 0 -> dmget (N.to_nat (pm_index m)) (dl_pieces d) = Some h ->
  let k := N.to_nat (pm_index m) in let b := N.to_nat (pm_begin m) / BLOCK_SIZE in
  dl_blocks d = pre ++ mk_ba k b st :: post -> (forall a, In a pre -> ba_block a <> b) ->
  pp_add_block c s k b (pm_block m) = Val (s', ARFailed) ->
  dl_block sha1 c s d m = Val (s', mk_dl (dl_pieces d) (pre ++ post ++ [mk_ba k b Queued]) (dl_cap d) (dl_counter d), []) /\
  In (request_of (mk_ba k b Queued)) (fst (dl_send (pre ++ post ++ [mk_ba k b Queued]))).
Proof.
  intros sha1 c s d m h pre post st s' Hm G k b EB HP E. split.
  - unfold dl_block. rewrite Hm. cbn [Nat.eqb negb]. rewrite G. fold b k.
    assert (R : remove_block b (dl_blocks d) = Some (mk_ba k b st, pre ++ post)).
    { rewrite EB. clear EB. induction pre as [|a pre IH]; cbn [app remove_block ba_block].
      - rewrite Nat.eqb_refl. reflexivity.
      - destruct (Nat.eqb_spec (ba_block a) b) as [X|X]; [exfalso; apply (HP a); cbn; auto|].
        rewrite IH; [reflexivity|]. intros. apply HP. cbn. auto. }
    rewrite R, E. cbn [rbind snd fst ba_piece ba_block]. rewrite <- app_assoc. reflexivity.
  - unfold dl_send. cbn [fst]. apply in_map. apply filter_In. split; [|reflexivity].
    rewrite !in_app_iff. cbn. auto.
Qed.
Example C64_example : pp_add_block false (ex_s 5 [3]) 3 0 [x01] = Val (ex_s 5 [3], ARFailed).
Proof. vm_compute. reflexivity. Qed.
(** Two one-block pieces outstanding: the refused block of piece 4 puts piece
    3's request back in the queue; piece 4's block is not requested again. *)
Theorem C64_other_piece_refuted : exists s d m s' d', preach false s /\
  (forall k, In k [3; 4] -> In (mk_ba k 0 Requested) (dl_blocks d) /\ dmget k (dl_pieces d) <> None /\ in_flight s k) /\
  pm_index m = 4%N /\ pm_begin m = 0%N /\
  (forall sha1, dl_block sha1 false s d m = Val (s', d', [])) /\ s' = s /\
  fst (dl_send (dl_blocks d')) = [request_of (mk_ba 3 0 Queued)].
Proof.
  exists (ex_s 5 [3; 4]), (mk_dl [(3, ex_id x01); (4, ex_id x02)] [mk_ba 3 0 Requested; mk_ba 4 0 Requested] 16 1),
    (mk_piece 4 0 [x01]). do 2 eexists. split.
  { eapply preach_run with (ops := [OAdd 3; OAdd 4]); [apply (@preach_empty false 5 ex_peer); lia|]. vm_compute. reflexivity. }
  split.
  { intros k [<-|[<-|[]]]; (split; [cbn; auto|]); (split; [discriminate|]); vm_compute; auto. }
  split; auto. split; auto. split; [intro; vm_compute; reflexivity|]. split; vm_compute; reflexivity.
Qed.

(** Always: what goes back to the queue is the first outstanding request with
    the block number, of whatever piece; the refused block is requested again
    only if that is its own request or it was queued anyway. *)
Theorem C64_requeued_always : forall sha1 c s d m h pre post k' st s',
  N.to_nat (pm_begin m) mod BLOCK_SIZE = 0 -> dmget (N.to_nat (pm_index m)) (dl_pieces d) = Some h ->
  let k := N.to_nat (pm_index m) in let b := N.to_nat (pm_begin m) / BLOCK_SIZE in
  dl_blocks d = pre ++ mk_ba k' b st :: post -> (forall a, In a pre -> ba_block a <> b) ->
  pp_add_block c s k b (pm_block m) = Val (s', ARFailed) ->
  exists d', dl_block sha1 c s d m = Val (s', d', []) /\ dl_pieces d' = dl_pieces d /\
    dl_blocks d' = pre ++ post ++ [mk_ba k' b Queued] /\
    (In (mk_ba k b Queued) (dl_blocks d') <-> k' = k \/ In (mk_ba k b Queued) post).
Proof.
  intros sha1 c s d m h pre post k' st s' Hm G k b EB HP E. eexists. split; [|split; [|split]].
  - unfold dl_block. rewrite Hm. cbn [Nat.eqb negb]. rewrite G. fold b k.
    assert (R : remove_block b (dl_blocks d) = Some (mk_ba k' b st, pre ++ post)).
    { rewrite EB. clear EB. induction pre as [|a pre IH]; cbn [app remove_block ba_block].
      - rewrite Nat.eqb_refl. reflexivity.
      - destruct (Nat.eqb_spec (ba_block a) b) as [X|X]; [exfalso; apply (HP a); cbn; auto|].
        rewrite IH; [reflexivity|]. intros. apply HP. cbn. auto. }
    rewrite R, E. cbn [rbind snd fst ba_piece ba_block]. reflexivity.
  - reflexivity.
  - cbn [dl_blocks]. rewrite <- app_assoc. reflexivity.
  - cbn [dl_blocks]. rewrite <- app_assoc, !in_app_iff. cbn [In]. split.
    + intros [H|[H|[H|[]]]]; auto; [exfalso; apply (HP _ H); reflexivity|]. injection H as <-. auto.
    + intros [->|H]; auto.
Qed.
Example C64_requeued_example : let d := mk_dl [(3, ex_id x01); (4, ex_id x02)] [mk_ba 3 0 Requested; mk_ba 4 0 Requested] 16 1 in
  dl_blocks d = [] ++ mk_ba 3 0 Requested :: [mk_ba 4 0 Requested] /\ pp_add_block false (ex_s 5 [3; 4]) 4 0 [x01] = Val (ex_s 5 [3; 4], ARFailed).
Proof. split; vm_compute; reflexivity. Qed.

(** ** C24 *)
(** Part: piece, offset, and containment for all full-size blocks. *)
Theorem C24_request_range_partial : forall pl k b st, 0 < pl -> (N.of_nat pl < 2 ^ 32)%N -> (N.of_nat k < 2 ^ 32)%N ->
  b < n_blocks pl ->
  rq_index (request_of (mk_ba k b st)) = N.of_nat k /\
  rq_begin (request_of (mk_ba k b st)) = N.of_nat (b * BLOCK_SIZE) /\
  ((b + 1) * BLOCK_SIZE <= pl ->
    (rq_begin (request_of (mk_ba k b st)) + rq_length (request_of (mk_ba k b st)) <= N.of_nat pl)%N /\
    rq_length (request_of (mk_ba k b st)) = N.of_nat (block_len pl b)).
Proof.
  intros pl k b st H1 H2 H3 Hb. pose proof (n_blocks_bounds H1) as [L U]. pose proof BS_pos as HB.
  assert (BB : b * BLOCK_SIZE <= (n_blocks pl - 1) * BLOCK_SIZE) by (apply Nat.mul_le_mono_r; lia).
  assert (SB : (N.of_nat (b * BLOCK_SIZE) < 2 ^ 32)%N) by lia.
  unfold request_of. cbn [rq_index rq_begin rq_length ba_piece ba_block].
  rewrite (N.mod_small _ _ SB), (N.mod_small _ _ H3). split; auto. split; auto.
  intro LE. assert (LB : (N.of_nat BLOCK_SIZE < 2 ^ 32)%N) by (assert (BLOCK_SIZE <= pl) by nia; lia).
  rewrite (N.mod_small _ _ LB). split; [lia|]. f_equal. unfold block_len. lia.
Qed.
Example C24_example : 2 < n_blocks (3 * BLOCK_SIZE) /\ (2 + 1) * BLOCK_SIZE <= 3 * BLOCK_SIZE.
Proof. split; [vm_compute; lia|lia]. Qed.
(** The last block of a piece whose length is not a multiple of the block size
    is requested beyond the end of the piece. *)
Theorem C24_last_block_always : forall pl k st, 0 < pl -> (N.of_nat pl < 2 ^ 32)%N -> pl mod BLOCK_SIZE <> 0 ->
  let r := request_of (mk_ba k (n_blocks pl - 1) st) in (N.of_nat pl < rq_begin r + rq_length r)%N.
Proof.
  intros pl k st H1 H2 Hm. pose proof (n_blocks_bounds H1) as [L U]. pose proof (n_blocks_pos H1). pose proof BS_pos as HB.
  assert (NE : pl <> n_blocks pl * BLOCK_SIZE).
  { intro E. apply Hm. rewrite E. apply Nat.mod_mul. lia. }
  assert (EQ : (n_blocks pl - 1) * BLOCK_SIZE + BLOCK_SIZE = n_blocks pl * BLOCK_SIZE).
  { rewrite Nat.mul_sub_distr_r. nia. }
  assert (SB : (N.of_nat ((n_blocks pl - 1) * BLOCK_SIZE) < 2 ^ 32)%N) by lia.
  cbv zeta. unfold request_of. cbn [rq_index rq_begin rq_length ba_piece ba_block].
  rewrite (N.mod_small _ _ SB).
  assert (LB : (N.of_nat BLOCK_SIZE < 2 ^ 32)%N) by (vm_compute; reflexivity).
  rewrite (N.mod_small _ _ LB), <- Nat2N.inj_add, EQ. clear - NE U. lia.
Qed.
Theorem C24_last_block_refuted : exists pl k b, 0 < pl /\ b < n_blocks pl /\
  let r := request_of (mk_ba k b Queued) in (N.of_nat pl < rq_begin r + rq_length r)%N.
Proof.
  exists 5, 0, 0. split; [lia|]. split; [apply n_blocks_pos; lia|].
  assert (NB : n_blocks 5 = 1) by (vm_compute; reflexivity).
  change 0 with (1 - 1) at 2. rewrite <- NB. apply C24_last_block_always; [lia|vm_compute; reflexivity|vm_compute; discriminate].
Qed.

Print Assumptions C19_bounded_in_flight.
Print Assumptions C20_size_and_position_partial.
Print Assumptions C20_full_last_block_general.
Print Assumptions C20_full_last_block_refuted.
Print Assumptions C20_debug_abort_always.
Print Assumptions C21_completion_partial.
Print Assumptions C21_no_abort_partial.
Print Assumptions C21_multiple_refuted.
Print Assumptions C22_take_partial.
Print Assumptions C22_no_owner_always.
Print Assumptions C22_full_buffer_refuted.
Print Assumptions C23_only_checked_forwarded.
Print Assumptions C23_bad_piece_retried.
Print Assumptions C24_request_range_partial.
Print Assumptions C24_last_block_always.
Print Assumptions C24_last_block_refuted.
Print Assumptions C20_debug_abort_refuted.
Print Assumptions C22_no_owner_refuted.
Print Assumptions C63_first_block_aborts_always.
Print Assumptions C62_duplicate_block_refuted.
Print Assumptions C63_single_block_pieces_partial.
Print Assumptions C63_refuted.
Print Assumptions C64_refused_requested_again_partial.
Print Assumptions C64_other_piece_refuted.
Print Assumptions C64_requeued_always.
