(** C21 and C24 continued: a piece of which one block never comes, and exactly
    which requests stay within the piece. *)
From Coq Require Import List NArith ZArith Lia Bool Arith Permutation.
From Coq Require Import Init.Byte.
From Verif Require Import Base Assoc BitmapModel IdModel WireModel PendingModel PendingSpec PendingProofs PendingProps DuplicateProps.
Import ListNotations.
Set Implicit Arguments.

(** Piece [k] is in flight without its block [b]. *)
Definition lacks (s : pp) (k b : nat) : Prop := exists y, block_at s k b = Some y /\ is_downloaded y = false.
Lemma lacks_map : forall (g : block -> block) l b y, (forall y, is_downloaded y = false -> is_downloaded (g y) = false) ->
  nth_error l b = Some y -> is_downloaded y = false -> exists z, nth_error (map g l) b = Some z /\ is_downloaded z = false.
Proof. intros g l b y G E D. exists (g y). split; [apply map_nth_error; exact E|auto]. Qed.
Lemma lacks_mark : forall f o now ps k p b y, nth_error (pc_data p) b = Some y -> is_downloaded y = false ->
  exists z, nth_error (pc_data (mark_pc f o now ps k p)) b = Some z /\ is_downloaded z = false.
Proof.
  intros f o now ps k p b y E D. unfold mark_pc. destruct (mem k ps); [|eauto]. cbn [pc_data]. unfold mark. eapply lacks_map; [|exact E|exact D].
  intros z Z. destruct (f z); [reflexivity|exact Z].
Qed.
Lemma lacks_collect : forall l b y, nth_error l b = Some y -> is_downloaded y = false -> forall ds, blocks_data l <> Val ds.
Proof.
  intros l b y E D ds H. apply held_all in H. revert b E H. induction l as [|x l IH]; intros b E H; [destruct b; discriminate|]. cbn in H.
  assert (L : length (filter is_downloaded l) <= length l) by (clear; induction l as [|z l IH]; cbn; [lia|]; destruct (is_downloaded z); cbn; lia).
  destruct b as [|b]; cbn in E.
  - injection E as ->. rewrite D in H. lia.
  - destruct (is_downloaded x); cbn in H; [|lia]. eapply IH; [exact E|lia].
Qed.
Lemma lacks_step : forall c s o s' out k b, wf_pp s -> pp_step c s o = Val (s', out) -> lacks s k b ->
  (forall d, o = OBlock k b d -> pp_check_bounds s b d = false) ->
  lacks s' k b /\ forall ds, out <> PBlock (ARLast k ds).
Proof.
  intros c s o s' out k b W H (y & BA & D) NB. unfold block_at in BA. destruct (pmget k (pp_data s)) as [p|] eqn:G; [|discriminate].
  assert (SAME : lacks s k b) by (exists y; unfold block_at; rewrite G; auto).
  assert (AT : forall s1 p1 z, pmget k (pp_data s1) = Some p1 -> nth_error (pc_data p1) b = Some z -> is_downloaded z = false -> lacks s1 k b).
  { intros s1 p1 z G1 E1 D1. exists z. unfold block_at. rewrite G1. auto. }
  destruct o as [i|i b' d|now ps buf cap|a]; cbn [pp_step] in H.
  - destruct (in_dec Nat.eq_dec i (map fst (pp_data s))) as [I|I].
    + rewrite add_piece_known in H by auto. injection H as <- <-. split; [exact SAME|discriminate].
    + destruct (Nat.lt_ge_cases (n_in_flight s) 10) as [L|L].
      * rewrite add_piece_new in H by auto. injection H as <- <-. split; [|discriminate]. eapply AT; [|exact BA|exact D].
        unfold pp_with. cbn [pp_data]. unfold pmget, pmset. rewrite (mget_mset_other _ neqb_spec); auto. intros ->. apply I. apply pmget_keys. eauto.
      * rewrite add_piece_full in H by auto. injection H as <- <-. split; [exact SAME|discriminate].
  - destruct (pp_check_bounds s b' d) eqn:EC.
    2:{ rewrite add_block_refused in H by auto. injection H as <- <-. split; [exact SAME|discriminate]. }
    destruct (pmget i (pp_data s)) as [q|] eqn:Gi.
    2:{ rewrite add_block_refused in H by (right; apply pmget_none; auto). injection H as <- <-. split; [exact SAME|discriminate]. }
    rewrite (@add_block_some c s i b' d q W EC Gi) in H.
    destruct (usize_dec c (pc_pending q)) as [pend| |]; cbn [rbind rmap] in H; try discriminate. cbv zeta in H.
    assert (NE : i = k -> b' <> b). { intros -> ->. rewrite (NB d eq_refl) in EC. discriminate. }
    destruct (Nat.eqb_spec (pp_bpp s) (pc_downloaded q + 1)) as [E|E].
    + destruct (blocks_data _) as [ds| |] eqn:ED; cbn [rbind rmap fst snd] in H; try discriminate. injection H as <- <-.
      destruct (Nat.eq_dec i k) as [->|N].
      * exfalso. rewrite G in Gi. injection Gi as <-. eapply lacks_collect; [|exact D|exact ED]. rewrite nth_error_upd_other by (apply NE; reflexivity). exact BA.
      * split; [|intros ds' X; injection X as X _; auto]. eapply AT; [|exact BA|exact D]. unfold pp_with. cbn [pp_data]. unfold pmget, pmdel. rewrite (mget_mdel_other _ neqb_spec); auto.
    + cbn [rmap fst snd] in H. injection H as <- <-. split; [|discriminate]. destruct (Nat.eq_dec i k) as [->|N].
      * rewrite G in Gi. injection Gi as <-. eapply AT; [unfold pp_with; cbn [pp_data]; unfold pmget, pmset; apply (mget_mset_same _ neqb_spec)| |exact D].
        cbn [pc_data]. rewrite nth_error_upd_other by (apply NE; reflexivity). exact BA.
      * eapply AT; [|exact BA|exact D]. unfold pp_with. cbn [pp_data]. unfold pmget, pmset. rewrite (mget_mset_other _ neqb_spec); auto.
  - split; [|destruct (pp_take s now ps buf cap) as [[[? ?] ?]| |]; cbn in H; try discriminate H; injection H as _ <-; discriminate].
    destruct (pp_owner s) as [ow|] eqn:EO.
    + rewrite (pp_take_spec s now ps buf cap EO) in H. cbv zeta in H.
      destruct (lacks_mark is_unbegun ow now ps k p b BA D) as (z & Z & DZ).
      destruct (_ =? _); cbn [rmap fst snd] in H; injection H as <- <-.
      * eapply AT; [unfold pp_with; cbn [pp_data]; rewrite mark_map_get, G; reflexivity|exact Z|exact DZ].
      * destruct (lacks_mark (is_expired now) ow now ps k (mark_pc is_unbegun ow now ps k p) b Z DZ) as (w & X & DW).
        eapply AT; [unfold pp_with; cbn [pp_data]; rewrite !mark_map_get, G; reflexivity|exact X|exact DW].
    + unfold pp_take in H. rewrite EO in H.
      destruct (take_pass is_unbegun None now ps (pp_data s)) as [r1| |] eqn:E1; cbn [rbind rmap] in H; try discriminate.
      apply take_pass_none in E1. subst r1. cbn [fst snd] in H.
      destruct (_ =? _); cbn [rmap fst snd] in H; [injection H as <- <-; eapply AT; [unfold pp_with; cbn [pp_data]; exact G|exact BA|exact D]|].
      destruct (take_pass (is_expired now) None now ps (pp_data s)) as [r2| |] eqn:E2; cbn [rbind rmap] in H; try discriminate.
      apply take_pass_none in E2. subst r2. injection H as <- <-. eapply AT; [unfold pp_with; cbn [pp_data fst]; exact G|exact BA|exact D].
  - injection H as <- <-. split; [|discriminate]. unfold lacks, block_at. rewrite cancel_get, G. cbn [option_map pc_data]. unfold cancel_blocks. eapply lacks_map; [|exact BA|exact D].
    intros z Z. destruct (is_expected_from a z); [reflexivity|exact Z].
Qed.
Lemma lacks_run : forall c k b ops s s' outs, wf_pp s -> lacks s k b -> pp_run c s ops = Val (s', outs) ->
  (forall t d, pp_bpp t = pp_bpp s -> pp_piece_length t = pp_piece_length s -> In (OBlock k b d) ops -> pp_check_bounds t b d = false) ->
  lacks s' k b /\ forall ds, ~ In (PBlock (ARLast k ds)) outs.
Proof.
  intros c k b. induction ops as [|o t IH]; intros s s' outs W L H NB; cbn [pp_run] in H.
  - injection H as <- <-. split; auto.
  - destruct (pp_step c s o) as [[s1 o1]| |] eqn:E; cbn [rbind rmap fst snd] in H; try discriminate.
    destruct (pp_run c s1 t) as [[s2 os]| |] eqn:E2; cbn [rbind rmap fst snd] in H; try discriminate. injection H as <- <-.
    destruct (@lacks_step c s o s1 o1 k b W E L) as (L1 & N1). { intros d ->. apply NB; auto. left. reflexivity. }
    destruct (step_bpp _ _ _ E) as (B1 & B2). destruct (IH s1 s2 os) as (L2 & N2); auto.
    { eapply wf_step; eauto. }
    { intros u d U1 U2 I. apply NB; [congruence|congruence|right; exact I]. }
    split; [exact L2|]. intros ds [X|X]; [eapply N1; eauto|eapply N2; eauto].
Qed.
(** ** C21: pieces whose length is a multiple of the block size *)
(** However the blocks of such a piece arrive, with their proper lengths: it is
    never reported complete, and stays in flight. *)
Theorem C21_multiple_always : forall c s k ops s' outs, preach c s -> pp_piece_length s mod BLOCK_SIZE = 0 ->
  untouched s k -> pp_run c s ops = Val (s', outs) ->
  (forall b d, In (b, d) (arrivals k ops) -> length d = block_len (pp_piece_length s) b) ->
  in_flight s' k /\ forall ds, ~ In (ARLast k ds) (replies k ops outs).
Proof.
  intros c s k ops s' outs R M (p & G & _ & ND) H LEN. pose proof (preach_wf R) as W. pose proof (wf_get _ W G) as WG.
  pose proof W as (W1 & W2 & _). assert (POS : 0 < n_blocks (pp_piece_length s)) by (apply n_blocks_pos; exact W1).
  set (b := n_blocks (pp_piece_length s) - 1).
  assert (LB : block_len (pp_piece_length s) b = BLOCK_SIZE).
  { apply block_len_last_mult; auto. unfold b. lia. }
  destruct (nth_error (pc_data p) b) as [y|] eqn:Y; [|apply nth_error_None in Y; unfold b in Y; lia].
  assert (L : lacks s k b). { exists y. unfold block_at. rewrite G. split; [exact Y|]. destruct y as [| |d]; auto. exfalso. exact (ND b d Y). }
  destruct (@lacks_run c k b ops s s' outs W L H) as ((z & Z & _) & N).
  - intros t d T1 T2 I. destruct (pp_check_bounds t b d) eqn:E; [|reflexivity]. exfalso. unfold pp_check_bounds in E. rewrite T1, T2, W2, M in E.
    destruct (n_blocks (pp_piece_length s) <=? b); [discriminate|].
    replace (b + 1 =? n_blocks (pp_piece_length s)) with true in E by (symmetry; apply Nat.eqb_eq; unfold b; lia).
    apply Nat.eqb_eq in E. assert (In (b, d) (arrivals k ops)).
    { unfold arrivals. apply in_flat_map. eexists. split; [exact I|]. cbn. rewrite Nat.eqb_refl. left. reflexivity. }
    rewrite (LEN _ _ H0), LB in E. pose proof BS_pos. lia.
  - split. { unfold block_at in Z. destruct (pmget k (pp_data s')) eqn:G'; [|discriminate]. apply pmget_keys. eauto. }
    intros ds I. apply replies_in in I. exact (N ds I).
Qed.
Example C21_multiple_example : exists s k ops s' outs, preach false s /\ pp_piece_length s mod BLOCK_SIZE = 0 /\ untouched s k /\
  pp_run false s ops = Val (s', outs) /\ length (arrivals k ops) = n_blocks (pp_piece_length s) /\
  (forall b d, In (b, d) (arrivals k ops) -> length d = block_len (pp_piece_length s) b).
Proof.
  pose proof BS_pos as HB. assert (NB : n_blocks BLOCK_SIZE = 1) by (vm_compute; reflexivity).
  set (s1 := mk_pp BLOCK_SIZE 1 (Some ex_peer) [(0, mk_pc 0 0 [Unbegun])]).
  assert (P1 : preach false s1).
  { apply pr_step with (s := mk_pp BLOCK_SIZE (n_blocks BLOCK_SIZE) (Some ex_peer) []) (o := OAdd 0) (out := PAdd true).
    - apply preach_empty. auto.
    - cbn [pp_step]. rewrite add_piece_new; [|apply (@preach_wf false); apply preach_empty; auto|cbn; auto|cbn; lia].
      cbn [pp_bpp pp_data]. rewrite NB. reflexivity. }
  assert (BL : block_len BLOCK_SIZE 0 = BLOCK_SIZE) by (unfold block_len; cbn [Nat.mul]; lia).
  exists s1, 0, [OBlock 0 0 (repeat x00 BLOCK_SIZE)]. do 2 eexists. split; [exact P1|]. cbn [pp_piece_length s1].
  split; [apply Nat.mod_same; lia|]. split. { exists (mk_pc 0 0 [Unbegun]). split; auto. split; auto. intros [|[|b]] d; discriminate. }
  split. { cbn [pp_run pp_step]. rewrite (@C20_full_last_block_general false s1 0 0 _ P1); cbn [rmap rbind fst snd]; try reflexivity.
    - unfold acceptable. split; [cbn; auto|]. cbn [pp_piece_length s1]. rewrite NB, BL, repeat_length. lia. }
  cbn [arrivals flat_map app Nat.eqb length]. split; [rewrite NB; reflexivity|].
  intros b d [X|[]]. injection X as <- <-. rewrite BL. apply repeat_length.
Qed.
(** ** C24 *)
(** A request stays within its piece exactly if its block is a full one. *)
Theorem C24_exact : forall pl k b st, 0 < pl -> (N.of_nat pl < 2 ^ 32)%N -> b < n_blocks pl ->
  let r := request_of (mk_ba k b st) in
  ((rq_begin r + rq_length r <= N.of_nat pl)%N <-> (b + 1) * BLOCK_SIZE <= pl) /\
  ((rq_begin r + rq_length r <= N.of_nat pl)%N <-> rq_length r = N.of_nat (block_len pl b)).
Proof.
  intros pl k b st P L B. pose proof (n_blocks_bounds P) as [LO UP]. pose proof BS_pos as BS.
  assert (BB : b * BLOCK_SIZE <= (n_blocks pl - 1) * BLOCK_SIZE) by (apply Nat.mul_le_mono_r; lia).
  assert (SB : (N.of_nat (b * BLOCK_SIZE) < 2 ^ 32)%N) by lia.
  assert (LB : (N.of_nat BLOCK_SIZE < 2 ^ 32)%N) by (vm_compute; reflexivity).
  cbv zeta. unfold request_of. cbn [rq_index rq_begin rq_length ba_piece ba_block].
  rewrite (N.mod_small _ _ SB), (N.mod_small _ _ LB). unfold block_len. clear LB. split; lia.
Qed.
Example C24_exact_example : 2 < n_blocks (2 * BLOCK_SIZE + 1) /\ ~ (2 + 1) * BLOCK_SIZE <= 2 * BLOCK_SIZE + 1 /\ (1 + 1) * BLOCK_SIZE <= 2 * BLOCK_SIZE + 1.
Proof. assert (1 < BLOCK_SIZE) by (apply Nat.ltb_lt; vm_compute; reflexivity). split; [|lia]. unfold n_blocks. replace (2 * BLOCK_SIZE + 1 + (BLOCK_SIZE - 1)) with (3 * BLOCK_SIZE) by lia. rewrite Nat.div_mul; lia. Qed.
Print Assumptions C21_multiple_always.
Print Assumptions C24_exact.
