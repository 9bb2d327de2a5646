(** Property C22, exactly: when blocks whose request expired are taken again. *)
From Coq Require Import List NArith ZArith Lia Bool Arith Permutation.
From Verif Require Import Base Assoc BitmapModel IdModel WireModel PendingModel PendingSpec PendingProofs PendingProps.
Import ListNotations.
Set Implicit Arguments.

(** [fr] lists the blocks of the pieces [ps] that nobody asked for yet. *)
Definition not_asked_for (s : pp) (ps : list nat) (fr : list (nat * nat)) : Prop :=
  NoDup fr /\ forall k b, In (k, b) fr <-> In k ps /\ block_at s k b = Some Unbegun.
(** A request for block [b] of piece [k] is out and older than the time-out. *)
Definition overdue (s : pp) (now k b : nat) : Prop :=
  exists p t, block_at s k b = Some (Pending p t) /\ t + 7 < now.

Lemma extend_shape : forall n cap len, 2 <= cap -> len <= cap ->
  exists j, vec_extend_cap cap len n = cap * 2 ^ j /\ len + n <= cap * 2 ^ j /\ (j = 0 \/ cap * 2 ^ j < 2 * (len + n)).
Proof.
  induction n as [|n IH]; intros cap len C L; cbn [vec_extend_cap].
  - exists 0. cbn. lia.
  - unfold vec_grow. destruct (Nat.eqb_spec cap len) as [->|NE].
    + replace (Nat.max 4 (2 * len)) with (2 * len) by lia.
      destruct (IH (2 * len) (S len)) as (j & E & A & B); [lia|lia|]. exists (S j). rewrite E. cbn [Nat.pow].
      replace (len * (2 * 2 ^ j)) with (2 * len * 2 ^ j) by ring. split; auto. split; [lia|]. right.
      destruct B as [->|B]; [cbn [Nat.pow]; lia|lia].
    + destruct (IH cap (S len)) as (j & E & A & B); [lia|lia|]. exists j. rewrite E. split; auto. split; [lia|]. destruct B; [auto|right; lia].
Qed.
Lemma extend_full : forall n cap len, 2 <= cap -> len <= cap ->
  (vec_extend_cap cap len n = len + n <-> exists j, len + n = cap * 2 ^ j).
Proof.
  intros n cap len C L. destruct (@extend_shape n cap len C L) as (j & E & A & B). rewrite E. split; [eauto|]. intros (i & I). rewrite I in *.
  assert (IJ : i <= j). { destruct (Nat.le_gt_cases i j); auto. exfalso. assert (P : 2 ^ j < 2 ^ i) by (apply Nat.pow_lt_mono_r; lia). nia. }
  destruct B as [->|B]; [replace i with 0 by lia; reflexivity|].
  assert (JI : j <= i). { destruct (Nat.le_gt_cases j i); auto. exfalso. assert (P : 2 ^ S i <= 2 ^ j) by (apply Nat.pow_le_mono_r; lia). cbn [Nat.pow] in P. nia. }
  replace j with i by lia. reflexivity.
Qed.

(** An overdue block is taken again unless the requests held, with those for the
    blocks nobody asked for yet, fill the buffer exactly: for the program's
    buffer of 16 places when there are 16, 32, 64, ... of them. *)
Theorem C22_exact : forall c s o now ps buf cap fr s' new cap', preach c s -> pp_owner s = Some o ->
  2 <= cap -> length buf <= cap -> not_asked_for s ps fr -> pp_take s now ps buf cap = Val (s', buf ++ new, cap') ->
  (forall k b, In (block_addr_new k b) new <->
     In k ps /\ (block_at s k b = Some Unbegun \/ overdue s now k b /\ ~ exists j, length buf + length fr = cap * 2 ^ j)) /\
  length (buf ++ new) <= cap'.
Proof.
  intros c s o now ps buf cap fr s' new cap' H EO C L [NF FR] T. apply preach_wf in H as W. pose proof W as (_ & _ & N & _).
  rewrite (pp_take_spec s now ps buf cap EO) in T. cbv zeta in T.
  set (m1 := mark_map is_unbegun o now ps (pp_data s)) in *. set (t1 := taken is_unbegun ps (pp_data s)) in *.
  set (t2 := taken (is_expired now) ps m1) in *.
  assert (N1 : NoDup (map fst m1)) by (unfold m1; rewrite mark_map_keys; auto).
  assert (A1 : forall k b, In (block_addr_new k b) t1 <-> In k ps /\ block_at s k b = Some Unbegun).
  { intros k b. unfold t1. rewrite in_taken by auto. cbn [ba_piece ba_block ba_status block_addr_new]. unfold block_at. split.
    - intros (_ & Hk & p & x & G & Hx & Hf). rewrite G. destruct x; try discriminate. auto.
    - intros (Hk & Hx). split; auto. split; auto. destruct (pmget k (pp_data s)) as [p|]; [|discriminate]. eauto. }
  assert (A2 : forall k b, In (block_addr_new k b) t2 <-> In k ps /\ overdue s now k b).
  { intros k b. unfold t2, overdue. rewrite in_taken by auto. cbn [ba_piece ba_block ba_status block_addr_new]. unfold m1.
    rewrite mark_map_get. unfold block_at, REQUEST_TIMEOUT_SECS. destruct (pmget k (pp_data s)) as [p|] eqn:G; cbn [option_map].
    2:{ split; [intros (_ & _ & ? & ? & ? & _)|intros (_ & ? & ? & ? & _)]; discriminate. }
    unfold mark_pc. destruct (mem k ps) eqn:M.
    2:{ split; [intros (_ & Hk & _)|intros (Hk & _)]; apply mem_In in Hk; congruence. }
    split.
    - intros (_ & Hk & q & x & Q & Hx & Hf). injection Q as <-. cbn [pc_data] in Hx. unfold mark in Hx. rewrite nth_error_map in Hx.
      destruct (nth_error (pc_data p) b) as [[|pe t|d]|]; cbn [option_map is_unbegun] in Hx; try discriminate; injection Hx as <-; cbn [is_expired] in Hf; try discriminate.
      + apply Nat.ltb_lt in Hf. unfold REQUEST_TIMEOUT_SECS in Hf. lia.
      + apply Nat.ltb_lt in Hf. unfold REQUEST_TIMEOUT_SECS in Hf. split; auto. exists pe, t. split; auto. lia.
    - intros (Hk & pe & t & Hx & Lt). split; auto. split; auto. eexists. exists (Pending pe t). split; [reflexivity|]. cbn [pc_data]. unfold mark.
      rewrite nth_error_map, Hx. cbn [option_map is_unbegun is_expired]. split; auto. apply Nat.ltb_lt. unfold REQUEST_TIMEOUT_SECS. lia. }
  assert (LF : length t1 = length fr).
  { rewrite <- (map_length (fun x => block_addr_new (fst x) (snd x)) fr). apply Permutation_length, NoDup_Permutation.
    - apply NoDup_taken; auto.
    - apply FinFun.Injective_map_NoDup; auto. intros [a b] [a' b'] E. cbn in E. injection E as -> ->. reflexivity.
    - intros a. rewrite in_map_iff. split.
      + intro I. assert (Q : a = block_addr_new (ba_piece a) (ba_block a)).
        { unfold t1 in I. apply in_taken in I as [Hs _]; auto. destruct a as [x y z]. cbn in Hs. subst z. reflexivity. }
        rewrite Q in I. apply A1 in I. exists (ba_piece a, ba_block a). split; [symmetry; exact Q|]. apply FR. exact I.
      + intros ([k b] & <- & I). apply A1, FR. exact I. }
  pose proof (@extend_full (length t1) cap (length buf) C L) as X. rewrite LF in X. rewrite LF in T. rewrite app_length, LF in T.
  destruct (@extend_shape (length fr) cap (length buf) C L) as (j1 & E1 & G1 & _).
  destruct (Nat.eqb_spec (vec_extend_cap cap (length buf) (length fr)) (length buf + length fr)) as [E|E].
  - injection T as <- TB <-. apply app_inv_head in TB. subst new. apply X in E as E'. split; [|rewrite app_length; lia]. intros k b. rewrite A1. tauto.
  - injection T as <- TB <-. rewrite <- app_assoc in TB. apply app_inv_head in TB. subst new.
    assert (NX : ~ exists j, length buf + length fr = cap * 2 ^ j) by (intro Y; apply X in Y; contradiction).
    split. { intros k b. rewrite in_app_iff, A1, A2. tauto. }
    rewrite !app_length, LF. destruct (@extend_shape (length t2) (cap * 2 ^ j1) (length buf + length fr)) as (j2 & E2 & G2 & _); [pose proof (Nat.pow_nonzero 2 j1); nia|lia|].
    rewrite E1, E2. lia.
Qed.
Example C22_exact_example : exists s, preach false s /\ pp_owner s = Some ex_peer /\ overdue s 100 0 0 /\ not_asked_for s [0; 1] [(1, 0)] /\
  (exists s' cap', pp_take s 100 [0; 1] [] 16 = Val (s', [] ++ [block_addr_new 1 0; block_addr_new 0 0], cap')) /\
  (exists s' cap', pp_take s 100 [0; 1] (repeat (mk_ba 9 0 Requested) 15) 16 = Val (s', repeat (mk_ba 9 0 Requested) 15 ++ [block_addr_new 1 0], cap')).
Proof.
  set (s1 := mk_pp 5 1 (Some ex_peer) [(0, mk_pc 0 0 [Pending ex_peer 0]); (1, mk_pc 0 0 [Unbegun])]).
  exists s1. split.
  { eapply preach_run with (ops := [OAdd 0; OTake 0 [0] [] 16; OAdd 1]); [apply (@preach_empty false 5 ex_peer); lia|]. vm_compute. reflexivity. }
  split; [reflexivity|]. split; [exists ex_peer, 0; split; [reflexivity|unfold REQUEST_TIMEOUT_SECS; lia]|]. split.
  { split; [repeat constructor; auto|]. intros k b. split.
    - intros [X|[]]. injection X as <- <-. split; [cbn; auto|reflexivity].
    - intros [[<-|[<-|[]]] X]; destruct b as [|[|b]]; try discriminate X. left. reflexivity. }
  split; do 2 eexists; vm_compute; reflexivity.
Qed.
Print Assumptions C22_exact.
