(** C128: giving up on a peer frees exactly what it was asked for. *)
From Coq Require Import List NArith ZArith Lia Bool Arith Permutation.
From Coq Require Import Init.Byte.
From Verif Require Import Base Assoc BitmapModel IdModel WireModel PeersProofs PendingModel PendingSpec PendingProofs PendingProps.
Import ListNotations.
Set Implicit Arguments.

(** Block [b] of piece [k] was asked for from [p]. *)
Definition asked_of (s : pp) (p : addr) (k b : nat) : Prop := exists t, block_at s k b = Some (Pending p t).

(** Exactly the blocks asked for from the peer can be asked for again; every other
    block is as it was, and so are the pieces. *)
Theorem C128_exact : forall s p s' out c, pp_step c s (OCancel p) = Val (s', out) ->
  (forall k b, asked_of s p k b -> block_at s' k b = Some Unbegun) /\
  (forall k b, ~ asked_of s p k b -> block_at s' k b = block_at s k b) /\
  map fst (pp_data s') = map fst (pp_data s) /\ pp_owner s' = pp_owner s /\ pp_piece_length s' = pp_piece_length s.
Proof.
  intros s p s' out c H. injection H as <- <-.
  assert (G : forall k b, block_at (pp_cancel_pending s p) k b = option_map (fun x => if is_expected_from p x then Unbegun else x) (block_at s k b)).
  { intros k b. unfold block_at. rewrite cancel_get. destruct (pmget k (pp_data s)) as [x|]; [|reflexivity]. cbn [option_map pc_data]. unfold cancel_blocks. apply nth_error_map. }
  split; [|split; [|split; [|split; reflexivity]]].
  - intros k b (t & A). rewrite G, A. cbn [option_map is_expected_from]. rewrite (proj2 (addr_eqb_spec p p) eq_refl). reflexivity.
  - intros k b N. rewrite G. destruct (block_at s k b) as [x|] eqn:A; [|reflexivity]. cbn [option_map]. destruct x as [|q t|d]; cbn [is_expected_from]; try reflexivity.
    destruct (addr_eqb q p) eqn:E; [|reflexivity]. apply addr_eqb_spec in E. subst q. destruct N. exists t. exact A.
  - unfold pp_cancel_pending, pp_with. cbn [pp_data]. rewrite map_map. reflexivity.
Qed.
(** Whoever takes blocks to ask for next, gets them, and no block that had arrived
    is asked for again. *)
Theorem C128_next : forall c s p s1 out o now ps buf cap s2 new cap', preach c s -> pp_step c s (OCancel p) = Val (s1, out) -> pp_owner s = Some o ->
  pp_take s1 now ps buf cap = Val (s2, buf ++ new, cap') ->
  (forall k b, In k ps -> asked_of s p k b -> In (block_addr_new k b) new /\ asked_of s2 o k b) /\
  (forall k b d, block_at s k b = Some (Downloaded d) -> ~ In (block_addr_new k b) new /\ block_at s2 k b = Some (Downloaded d)).
Proof.
  intros c s p s1 out o now ps buf cap s2 new cap' P C O T. destruct (C128_exact C) as (A & B & _ & OO & _).
  assert (P1 : preach c s1) by (eapply pr_step; eauto). rewrite O in OO.
  destruct (@C22_take_partial c s1 o now ps buf cap P1 OO) as (s' & new' & cap1 & E & ND & _ & F1 & F2 & _ & F3 & F4). rewrite T in E. injection E as <- E <-. apply app_inv_head in E. subst new'.
  split.
  - intros k b K AS. assert (I : In (block_addr_new k b) new) by (apply F1; auto). split; auto. exists now. apply (F3 _ I).
  - intros k b d D. assert (N : ~ asked_of s p k b) by (intros (t & X); congruence). assert (NI : ~ In (block_addr_new k b) new).
    { intro I. destruct (F2 _ I) as (_ & [X|(q & t & X & _)]); cbn [ba_piece ba_block block_addr_new] in X; rewrite (B _ _ N), D in X; discriminate. }
    split; auto. rewrite (F4 _ _ NI), (B _ _ N). exact D.
Qed.
(** Two pieces of one block, asked for from two
    peers; one of them leaves, the other takes over. *)
Definition other_peer : addr := mk_addr x07 x07 x07 x07 7.
Example C128_example : exists s s1 s2 new cap, preach false s /\ asked_of s ex_peer 3 0 /\ asked_of s other_peer 4 0 /\ pp_owner s = Some other_peer /\
  pp_step false s (OCancel ex_peer) = Val (s1, PNone) /\ pp_take s1 9 [3; 4] [] 16 = Val (s2, [] ++ new, cap) /\ new = [block_addr_new 3 0].
Proof.
  set (s0 := mk_pp 5 1 (Some ex_peer) [(3, mk_pc 0 0 [Pending ex_peer 5]); (4, mk_pc 0 0 [Unbegun])]).
  assert (P0 : preach false s0).
  { eapply preach_run with (ops := [OAdd 3; OAdd 4; OTake 5 [3] [] 16]); [apply (@preach_empty false 5 ex_peer); lia|]. vm_compute. reflexivity. }
  apply (@pr_owner _ _ other_peer) in P0. set (s := mk_pp 5 1 (Some other_peer) [(3, mk_pc 0 0 [Pending ex_peer 5]); (4, mk_pc 0 0 [Pending other_peer 6])]).
  assert (P : preach false s). { eapply preach_run with (ops := [OTake 6 [4] [] 16]); [exact P0|]. vm_compute. reflexivity. }
  exists s. do 4 eexists. split; [exact P|]. split; [exists 5; reflexivity|]. split; [exists 6; reflexivity|]. split; [reflexivity|]. split; [reflexivity|]. split; [vm_compute; reflexivity|reflexivity].
Qed.
Print Assumptions C128_exact.
Print Assumptions C128_next.
