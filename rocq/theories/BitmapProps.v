(** C01-C04: the piece map ([data_structures/bitmap.rs]).
    [bits b] is the stored data as a big-endian bit string (BitSpec). *)
From Coq Require Import List NArith ZArith Lia Bool Arith.
From Verif Require Import Base BitSpec BitmapModel BitmapProofs.
Import ListNotations.

(** C01. Reading is indexing into the bit string; changing position [i]
    returns the old bit and updates that position only; positions outside the
    storage panic. *)
Theorem C01_bitmap_change_frame : forall b i v,
  (forall j, bm_get b j = match nth_error (bits b) j with Some x => Val x | None => Panic end) /\
  (i < length (bits b) -> exists b' old,
     bm_change b i v = Val (b', old) /\
     bm_get b i = Val old /\ bm_get b' i = Val v /\
     (forall j, j <> i -> bm_get b' j = bm_get b j) /\
     bits b' = upd (bits b) i v /\ bm_len b' = bm_len b) /\
  (length (bits b) <= i -> bm_change b i v = Panic).
Proof.
  intros b i v. split; [apply bm_get_spec|split].
  - intro H. destruct (bm_change_some b v H) as (b' & old & A & B & C & D).
    exists b', old. rewrite !bm_get_spec, B, C. rewrite nth_error_upd_same by auto.
    repeat split; auto. intros j Hj. rewrite !bm_get_spec, C, nth_error_upd_other by auto. reflexivity.
  - apply bm_change_none.
Qed.
Print Assumptions C01_bitmap_change_frame.
Example C01_example : exists b b',
  bm_new 11 = Val b /\ bm_change b 9 true = Val (b', false) /\ bm_get b' 9 = Val true /\ bm_get b' 8 = Val false.
Proof. do 2 eexists. repeat split; vm_compute; reflexivity. Qed.

(** C02. Draining the iterator of any map reachable from [new] terminates
    with exactly the declared positions. *)
Theorem C02_bitmap_iter_lists_declared : forall b, bm_reach b ->
  exists l, bm_bits b = Val l /\ length l = bm_len b /\
    (forall k, k < bm_len b -> exists x, nth_error l k = Some x /\ bm_get b k = Val x).
Proof.
  intros b H. pose proof (reach_storage H) as HS. exists (firstn (bm_len b) (bits b)).
  split; [apply bm_bits_spec; auto|]. split.
  - rewrite firstn_length. unfold bits. rewrite bits_of_length. lia.
  - intros k Hk. destruct (nth_error (bits b) k) as [x|] eqn:E.
    + exists x. rewrite bm_get_spec, E. split; auto.
      rewrite <- (firstn_skipn (bm_len b) (bits b)) in E. rewrite nth_error_app1 in E; auto.
      rewrite firstn_length. unfold bits. rewrite bits_of_length. lia.
    + apply nth_error_None in E. unfold bits in E. rewrite bits_of_length in E. lia.
Qed.
Print Assumptions C02_bitmap_iter_lists_declared.
Example C02_example : exists b b', bm_new 10 = Val b /\ bm_replace_data b [x81; xff] = Val b' /\
  bm_bits b' = Val [true; false; false; false; false; false; false; true; true; true].
Proof. do 2 eexists. repeat split; vm_compute; reflexivity. Qed.

(** C03. Full statement: for every reachable map the weight is the number of
    declared positions that are set. It is false: padding bits received in a
    bitfield are counted. It holds when no history step set padding bits, and
    in general the weight counts the stored bits. *)
Theorem C03_bitmap_weight_partial : forall b,
  N.to_nat (bm_weight b) = count_true (bits b) /\
  (bm_reach_clean b -> N.to_nat (bm_weight b) = count_true (firstn (bm_len b) (bits b))).
Proof. intro b. split. apply bm_weight_spec. apply clean_weight. Qed.
Print Assumptions C03_bitmap_weight_partial.
Theorem C03_bitmap_weight_refuted : exists b, bm_reach b /\
  N.to_nat (bm_weight b) <> count_true (firstn (bm_len b) (bits b)).
Proof.
  exists (mk_bitmap [x01] 3). split.
  - eapply reach_replace with (d := [x01]). eapply reach_new with (len := 3). reflexivity. reflexivity.
  - vm_compute. discriminate.
Qed.
Print Assumptions C03_bitmap_weight_refuted.
Example C03_example : exists b b' o, bm_new 11 = Val b /\ bm_change b 10 true = Val (b', o) /\
  bm_reach_clean b' /\ bm_weight b' = 1%N.
Proof.
  do 3 eexists. split; [reflexivity|split; [reflexivity|split]].
  - eapply clean_change with (i := 10). eapply clean_new with (len := 11). reflexivity. cbn; lia. reflexivity.
  - vm_compute. reflexivity.
Qed.

(** C04. Creation and all-or-nothing replacement. *)
Theorem C04_bitmap_new_and_replace : forall n b d,
  (0 < n -> bm_new n = Val (mk_bitmap (repeat x00 ((n + 7) / 8)) n)) /\
  (bm_new 0 = Panic) /\
  (length d = length (bm_data b) -> bm_replace_data b d = Val (mk_bitmap d (bm_len b))) /\
  (length d <> length (bm_data b) -> bm_replace_data b d = Fail).
Proof.
  intros n b d. split; [apply bm_new_spec|]. split; [reflexivity|].
  rewrite bm_replace_spec. destruct (Nat.eqb_spec (length d) (length (bm_data b))); split; congruence.
Qed.
Print Assumptions C04_bitmap_new_and_replace.
Example C04_example : bm_new 9 = Val (mk_bitmap [x00; x00] 9) /\
  bm_replace_data (mk_bitmap [x00; x00] 9) [xab; x80] = Val (mk_bitmap [xab; x80] 9) /\
  bm_replace_data (mk_bitmap [x00; x00] 9) [xab] = Fail.
Proof. repeat split. Qed.
