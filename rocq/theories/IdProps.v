(** C05-C11: 160-bit identifiers ([data_structures/id.rs]).
    [id_val] is the big-endian integer value, [id_bits] its 160 bits, most
    significant first. *)
From Coq Require Import List NArith ZArith Lia Bool Arith.
From Verif Require Import Base BitSpec IdModel IdProofs.
Import ListNotations.

(** C05. Bit access is bit [159 - i] of the integer; changing/flipping touches
    exactly that bit; outside 0..159 the access panics. *)
Theorem C05_id_bit_access : forall id i, wf_id id ->
  (i < 160 ->
     get_bit id i = Val (N.testbit (id_val id) (N.of_nat (159 - i))) /\
     (forall v, exists id', change_bit id i v = Val id' /\ wf_id id' /\ get_bit id' i = Val v /\
        forall j, j <> i -> get_bit id' j = get_bit id j) /\
     (exists id' v, flip_bit id i = Val id' /\ wf_id id' /\ get_bit id i = Val v /\ get_bit id' i = Val (negb v) /\
        forall j, j <> i -> get_bit id' j = get_bit id j)) /\
  (160 <= i -> get_bit id i = Panic /\ flip_bit id i = Panic /\ forall v, change_bit id i v = Panic).
Proof.
  intros id i H. assert (L : length id = 20) by exact H. split; intro Hi.
  - split; [|split].
    + rewrite get_bit_spec, id_bit_val by auto. reflexivity.
    + intro v. destruct (@change_bit_spec id i v) as (id' & A & B & C); [lia|].
      exists id'. split; auto. split; [unfold wf_id; congruence|].
      rewrite !get_bit_spec, B, nth_error_upd_same by (rewrite id_bits_length; auto; lia).
      split; auto. intros j Hj. rewrite !get_bit_spec, B, nth_error_upd_other by auto. reflexivity.
    + destruct (@flip_bit_spec id i) as (id' & v & A & B & C & D); [lia|].
      exists id', v. split; auto. split; [unfold wf_id; congruence|].
      rewrite !get_bit_spec, B, C, nth_error_upd_same by (rewrite id_bits_length; auto; lia).
      repeat split; auto. intros j Hj. rewrite !get_bit_spec, C, nth_error_upd_other by auto. reflexivity.
  - destruct (@flip_bit_out id i) as [A B]; [lia|]. repeat split; auto.
    rewrite get_bit_spec. rewrite (proj2 (nth_error_None _ _)); auto. rewrite id_bits_length; auto.
Qed.
Print Assumptions C05_id_bit_access.
Example C05_example : exists id', wf_id (repeat x00 20) /\ flip_bit (repeat x00 20) 13 = Val id' /\
  id_val id' = (2 ^ 146)%N.
Proof. eexists. repeat split; vm_compute; reflexivity. Qed.

(** C06. Comparing prefixes compares their numeric values. *)
Theorem C06_id_prefix_order : forall a b n, wf_id a -> wf_id b -> n <= 160 ->
  cmp_first_n_bits a b n =
  Val (N.compare (N.shiftr (id_val a) (N.of_nat (160 - n))) (N.shiftr (id_val b) (N.of_nat (160 - n)))).
Proof.
  intros a b n Ha Hb Hn. rewrite cmp_first_n_bits_cmp_val by auto. unfold cmp_val.
  rewrite !prefix_val_bits by auto. reflexivity.
Qed.
Print Assumptions C06_id_prefix_order.
Example C06_example :
  cmp_first_n_bits (x01 :: repeat x00 19) (repeat x00 20) 7 = Val Eq /\
  cmp_first_n_bits (x01 :: repeat x00 19) (repeat x00 20) 8 = Val Gt /\
  cmp_first_n_bits (x01 :: x10 :: repeat x00 18) (x01 :: x20 :: repeat x00 18) 11 = Val Lt.
Proof. repeat split; vm_compute; reflexivity. Qed.

(** C07. First difference = length of the common prefix. *)
Theorem C07_id_first_diff : forall a b, wf_id a -> wf_id b ->
  (first_diff_bit_idx a b = None <-> a = b) /\
  (forall k, first_diff_bit_idx a b = Some k <->
     k < 160 /\ N.testbit (id_val a) (N.of_nat (159 - k)) <> N.testbit (id_val b) (N.of_nat (159 - k)) /\
     forall j, j < k -> N.testbit (id_val a) (N.of_nat (159 - j)) = N.testbit (id_val b) (N.of_nat (159 - j))) /\
  first_diff_bit_idx a b = first_diff_bit_idx b a.
Proof.
  intros a b Ha Hb. pose proof (first_diff_spec Ha Hb) as S. split; [|split].
  - split; intro E.
    + rewrite E in S. exact S.
    + subst b. destruct (first_diff_bit_idx a a); auto. intuition.
  - intro k. split.
    + intro E. rewrite E in S. destruct S as (S1 & S2 & S3). split; auto.
      rewrite !id_bit_val in S2 by auto. split; [congruence|].
      intros j Hj. assert (nth_error (id_bits a) j = nth_error (id_bits b) j) as E2.
      { rewrite <- (nth_firstn (id_bits a) Hj), <- (nth_firstn (id_bits b) Hj), S3. reflexivity. }
      rewrite !id_bit_val in E2 by (auto; lia). congruence.
    + intros (K1 & K2 & K3). apply first_diff_unique; auto.
      * rewrite !id_bit_val by auto. congruence.
      * intros j Hj. rewrite !id_bit_val by (auto; lia). f_equal. auto.
  - apply first_diff_sym; auto.
Qed.
Print Assumptions C07_id_first_diff.
Example C07_example : first_diff_bit_idx (x12 :: repeat x00 19) (x10 :: repeat xff 19) = Some 6 /\
  wf_id (x12 :: repeat x00 19) /\ wf_id (x10 :: repeat xff 19).
Proof. repeat split; vm_compute; reflexivity. Qed.

(** C08. For every outcome of the generator the prefix up to and including bit
    [i] is kept; every identifier with that prefix is attainable; [i >= 160] is
    the identity. *)
Theorem C08_id_randomize : forall id i, wf_id id ->
  (forall draws bdraws, 19 - i / 8 <= length draws -> 7 - i mod 8 <= length bdraws ->
     exists id', randomize_after_bit id i draws bdraws = Val id' /\ wf_id id' /\
       (forall j, j <= i -> get_bit id' j = get_bit id j)) /\
  (forall target, i < 160 -> wf_id target -> (forall j, j <= i -> get_bit target j = get_bit id j) ->
     exists draws bdraws, length draws = 19 - i / 8 /\ length bdraws = 7 - i mod 8 /\
       randomize_after_bit id i draws bdraws = Val target) /\
  (160 <= i -> forall draws bdraws, randomize_after_bit id i draws bdraws = Val id).
Proof.
  intros id i H. assert (L : length id = 20) by exact H. split; [|split].
  - intros d b Hd Hb. destruct (@randomize_spec id i d b H) as (id' & A & B & C); try lia.
    exists id'. repeat split; auto. intros j Hj. rewrite !get_bit_spec, C by auto. reflexivity.
  - intros t Hi Ht Hp. destruct (@randomize_surj id t i H Ht Hi) as (d & b & A & B & C).
    + intros j Hj. specialize (Hp j Hj). rewrite !get_bit_spec in Hp.
      rewrite !id_bit_val in * by (auto; lia). congruence.
    + exists d, b. split; [lia|auto].
  - intros. apply randomize_big. auto.
Qed.
Print Assumptions C08_id_randomize.
Example C08_example : randomize_after_bit (repeat x00 20) 153 [] [true; false; true; false; false; true]
  = Val (repeat x00 19 ++ [x29]) /\ 19 - 153 / 8 <= 0 /\ 7 - 153 mod 8 <= 6.
Proof. split; [vm_compute; reflexivity|]. change (153 / 8) with 19. change (153 mod 8) with 1. lia. Qed.

(** C09. XOR distance. *)
Theorem C09_id_xor_metric : forall a b c, wf_id a -> wf_id b -> wf_id c ->
  let d x y := id_val (id_sub x y) in
  wf_id (id_sub a b) /\
  d a b = N.lxor (id_val a) (id_val b) /\
  d a b = d b a /\
  (d a b = 0%N <-> a = b) /\
  (d a c <= d a b + d b c)%N /\
  (d a b = d a c -> b = c).
Proof.
  intros a b c Ha Hb Hc d. unfold d, id_sub.
  destruct (id_xor_val Ha Hb) as [W1 E1]. destruct (id_xor_val Hb Ha) as [W2 E2].
  destruct (id_xor_val Ha Hc) as [W3 E3]. destruct (id_xor_val Hb Hc) as [W4 E4].
  rewrite E1, E2, E3, E4. repeat split; auto.
  - apply N.lxor_comm.
  - intro E. apply N.lxor_eq in E. apply id_val_inj; auto.
  - intros ->. apply N.lxor_nilpotent.
  - replace (N.lxor (id_val a) (id_val c)) with
      (N.lxor (N.lxor (id_val a) (id_val b)) (N.lxor (id_val b) (id_val c))).
    + apply lxor_le_add.
    + rewrite N.lxor_assoc, <- (N.lxor_assoc (id_val b) (id_val b)), N.lxor_nilpotent, N.lxor_0_l. reflexivity.
  - intro E. apply id_val_inj; auto.
    apply (f_equal (N.lxor (id_val a))) in E.
    rewrite <- !N.lxor_assoc, N.lxor_nilpotent, !N.lxor_0_l in E. exact E.
Qed.
Print Assumptions C09_id_xor_metric.
(** Every distance is met, and by one identifier only. *)
Theorem C09_unidirectional : forall a e, wf_id a -> wf_id e ->
  exists b, wf_id b /\ id_sub a b = e /\ forall b', wf_id b' -> id_sub a b' = e -> b' = b.
Proof.
  intros a e Ha He. exists (id_sub a e). unfold id_sub.
  destruct (id_xor_val Ha He) as [W1 E1]. destruct (id_xor_val Ha W1) as [W2 E2].
  assert (X : id_xor a (id_xor a e) = e).
  { apply id_val_inj; auto. rewrite E2, E1, <- N.lxor_assoc, N.lxor_nilpotent, N.lxor_0_l. reflexivity. }
  split; auto. split; auto. intros b' Hb' E. subst e. destruct (id_xor_val Ha Hb') as [W3 E3].
  apply id_val_inj; auto. rewrite E1, E3, <- N.lxor_assoc, N.lxor_nilpotent, N.lxor_0_l. reflexivity.
Qed.
Print Assumptions C09_unidirectional.
Example C09_example : id_sub (xf0 :: repeat x01 19) (x0f :: repeat x01 19) = xff :: repeat x00 19.
Proof. vm_compute. reflexivity. Qed.

(** C10. Full statement: [id_cmp a b = N.compare (id_val a) (id_val b)].
    False (see the refutation): the comparison stops at the first common one
    bit. What holds: it is the order of the bit lengths, hence a total
    preorder, correct whenever the values have different bit lengths, and
    never reversed. *)
Theorem C10_id_order_partial : forall a b, wf_id a -> wf_id b ->
  id_cmp a b = N.compare (N.size (id_val a)) (N.size (id_val b)) /\
  (N.size (id_val a) <> N.size (id_val b) -> id_cmp a b = N.compare (id_val a) (id_val b)) /\
  ((id_val a <= id_val b)%N -> id_cmp a b <> Gt) /\
  id_cmp b a = CompOpp (id_cmp a b).
Proof.
  intros a b Ha Hb. rewrite !id_cmp_spec by auto.
  assert (S : forall x y, (x <= y -> N.size x <= N.size y)%N).
  { intros x y Hxy. destruct (N.eq_dec x 0) as [->|Hx]; [simpl; lia|].
    rewrite !N.size_log2 by lia. pose proof (N.log2_le_mono _ _ Hxy). lia. }
  repeat split.
  - intro Hne. destruct (N.compare_spec (N.size (id_val a)) (N.size (id_val b))) as [E|E|E]; [congruence| |].
    + symmetry. apply N.compare_lt_iff. destruct (N.lt_ge_cases (id_val a) (id_val b)) as [L|L]; auto.
      specialize (S _ _ L). lia.
    + symmetry. apply N.compare_gt_iff. destruct (N.lt_ge_cases (id_val b) (id_val a)) as [L|L]; auto.
      specialize (S _ _ L). lia.
  - intros L E. apply N.compare_gt_iff in E. specialize (S _ _ L). lia.
  - apply N.compare_antisym.
Qed.
Print Assumptions C10_id_order_partial.
Theorem C10_id_order_refuted : exists a b, wf_id a /\ wf_id b /\ a <> b /\
  id_cmp a b = Eq /\ N.compare (id_val a) (id_val b) = Gt.
Proof.
  exists (xff :: repeat x00 19), (x80 :: repeat x00 19).
  repeat split; try (vm_compute; reflexivity). discriminate.
Qed.
Print Assumptions C10_id_order_refuted.
Example C10_example : id_cmp (x80 :: repeat x00 19) (x7f :: repeat xff 19) = Gt.
Proof. vm_compute. reflexivity. Qed.

(** C11. Weight = number of one bits; none of the checked u32 operations
    overflows. *)
Theorem C11_id_weight : forall id, wf_id id ->
  id_weight id = Val (N.of_nat (count_true (id_bits id))).
Proof. exact id_weight_spec. Qed.
Print Assumptions C11_id_weight.
Example C11_example : id_weight (xff :: x01 :: repeat x10 18) = Val 27%N.
Proof. vm_compute. reflexivity. Qed.
