(** Specification vocabulary: byte strings as big-endian bit strings. *)
From Coq Require Import List NArith ZArith Lia Bool Arith.
From Verif Require Import Base.
Import ListNotations.
Set Implicit Arguments.

(** Bits of a byte, most significant first. *)
Definition byte_bits (b : byte) : list bool :=
  map (fun k => N.testbit (b2n b) (N.of_nat (7 - k))) (seq 0 8).
(** Bits of a byte string, most significant bit of the first byte first. *)
Definition bits_of (l : bytes) : list bool := flat_map byte_bits l.
(** The number written in binary by a bit string. *)
Definition bits_val (l : list bool) : N :=
  fold_left (fun acc b => 2 * acc + N.b2n b)%N l 0%N.
(** Number of [true]s. *)
Definition count_true (l : list bool) : nat := count_occ bool_dec l true.

Lemma byte_bits_length : forall b, length (byte_bits b) = 8.
Proof. intro. unfold byte_bits. rewrite map_length, seq_length. reflexivity. Qed.
Lemma bits_of_length : forall l, length (bits_of l) = 8 * length l.
Proof.
  induction l; auto. unfold bits_of in *. cbn [flat_map]. rewrite app_length, IHl, byte_bits_length.
  simpl length. lia.
Qed.
Lemma bits_of_app : forall a b, bits_of (a ++ b) = bits_of a ++ bits_of b.
Proof. intros. apply flat_map_app. Qed.
Lemma bits_of_cons : forall a b, bits_of (a :: b) = byte_bits a ++ bits_of b.
Proof. reflexivity. Qed.

Lemma nth_error_byte_bits : forall b k, k < 8 ->
  nth_error (byte_bits b) k = Some (N.testbit (b2n b) (N.of_nat (7 - k))).
Proof.
  intros. unfold byte_bits. rewrite nth_error_map.
  do 8 (destruct k as [|k]; [reflexivity|]). lia.
Qed.

Lemma nth_error_bits_of : forall l i,
  nth_error (bits_of l) i =
  option_map (fun b => N.testbit (b2n b) (N.of_nat (7 - i mod 8))) (nth_error l (i / 8)).
Proof.
  induction l as [|x l IH]; intro i.
  - change (bits_of []) with (@nil bool). destruct (i / 8), i; reflexivity.
  - rewrite bits_of_cons. destruct (Nat.lt_ge_cases i 8) as [H|H].
    + rewrite nth_error_app1 by (rewrite byte_bits_length; lia).
      rewrite nth_error_byte_bits by lia.
      rewrite Nat.div_small, Nat.mod_small by lia. reflexivity.
    + rewrite nth_error_app2 by (rewrite byte_bits_length; lia).
      rewrite byte_bits_length, IH.
      replace (i / 8) with (S ((i - 8) / 8)).
      2:{ replace i with ((i - 8) + 1 * 8) at 2 by lia. rewrite Nat.div_add by lia. lia. }
      replace (i mod 8) with ((i - 8) mod 8).
      2:{ replace i with ((i - 8) + 1 * 8) at 2 by lia. rewrite Nat.mod_add by lia. reflexivity. }
      reflexivity.
Qed.

Lemma bits_val_app : forall a b, bits_val (a ++ b) = (bits_val a * 2 ^ N.of_nat (length b) + bits_val b)%N.
Proof.
  intros a b. unfold bits_val. rewrite fold_left_app.
  generalize (fold_left (fun acc b0 => 2 * acc + N.b2n b0)%N a 0%N). intro s.
  revert s. induction b as [|x b IH] using rev_ind; intros s.
  - cbn [fold_left length]. rewrite N.pow_0_r. lia.
  - rewrite !fold_left_app, app_length. cbn [fold_left]. rewrite IH. cbn [length].
    replace (N.of_nat (length b + 1)) with (N.succ (N.of_nat (length b))) by lia.
    rewrite N.pow_succ_r'. lia.
Qed.
Lemma bits_val_cons : forall x b, bits_val (x :: b) = (N.b2n x * 2 ^ N.of_nat (length b) + bits_val b)%N.
Proof.
  intros. change (x :: b) with ([x] ++ b). rewrite bits_val_app. unfold bits_val at 1. cbn [fold_left]. lia.
Qed.
Lemma bits_val_lt : forall l, (bits_val l < 2 ^ N.of_nat (length l))%N.
Proof.
  induction l as [|x l IH]. reflexivity.
  rewrite bits_val_cons. cbn [length].
  replace (N.of_nat (S (length l))) with (N.succ (N.of_nat (length l))) by lia.
  rewrite N.pow_succ_r'. destruct x; simpl N.b2n; lia.
Qed.
Lemma bits_val_byte_bits : forall b, bits_val (byte_bits b) = b2n b.
Proof.
  intro b. apply N.eqb_eq. revert b. apply sweep_bytes. vm_compute. reflexivity.
Qed.
Lemma bits_val_bits_of : forall l, bits_val (bits_of l) = of_be l.
Proof.
  induction l as [|x l IH]. reflexivity.
  rewrite bits_of_cons, bits_val_app, of_be_cons, IH, bits_val_byte_bits, bits_of_length.
  replace (N.of_nat (8 * length l)) with (8 * N.of_nat (length l))%N by lia.
  rewrite N.pow_mul_r. reflexivity.
Qed.
Lemma bits_val_testbit : forall l i, i < length l ->
  nth_error l i = Some (N.testbit (bits_val l) (N.of_nat (length l - 1 - i))).
Proof.
  induction l as [|x l IH]; intros i H; cbn [length] in H. lia.
  rewrite bits_val_cons. cbn [length].
  destruct i as [|i].
  - cbn [nth_error]. f_equal.
    replace (S (length l) - 1 - 0) with (length l) by lia.
    rewrite N.testbit_eqb, N.div_add_l by (apply N.pow_nonzero; lia).
    rewrite N.div_small by apply bits_val_lt.
    destruct x; reflexivity.
  - cbn [nth_error]. rewrite IH by lia. f_equal.
    replace (S (length l) - 1 - S i) with (length l - 1 - i) by lia.
    set (j := length l - 1 - i).
    replace (2 ^ N.of_nat (length l))%N with (2 ^ (N.of_nat i) * 2 * 2 ^ N.of_nat j)%N.
    2:{ rewrite <- N.mul_assoc, <- N.pow_succ_r', <- N.pow_add_r. f_equal. lia. }
    rewrite !N.testbit_eqb.
    rewrite N.mul_assoc. rewrite N.div_add_l by (apply N.pow_nonzero; lia).
    rewrite N.mul_assoc, N.add_comm.
    rewrite N.mod_add by lia. reflexivity.
Qed.
Lemma bits_val_inj : forall a b, length a = length b -> bits_val a = bits_val b -> a = b.
Proof.
  intros a b HL HV. apply list_ext. intro i.
  destruct (Nat.lt_ge_cases i (length a)) as [H|H].
  - rewrite !bits_val_testbit by lia. rewrite HV, HL. reflexivity.
  - rewrite (proj2 (nth_error_None a i)) by lia. rewrite (proj2 (nth_error_None b i)) by lia. reflexivity.
Qed.
Lemma of_be_inj : forall a b, length a = length b -> of_be a = of_be b -> a = b.
Proof. intros a b HL H. rewrite <- (be_bytes_of_be a), <- (be_bytes_of_be b), HL, H. reflexivity. Qed.
Lemma bits_of_inj : forall a b, bits_of a = bits_of b -> a = b.
Proof.
  intros a b H. assert (length a = length b).
  { apply (f_equal (@length _)) in H. rewrite !bits_of_length in H. lia. }
  apply of_be_inj; auto. rewrite <- !bits_val_bits_of, H. reflexivity.
Qed.
Lemma nth_error_bits_of_be : forall l i, i < 8 * length l ->
  nth_error (bits_of l) i = Some (N.testbit (of_be l) (N.of_nat (8 * length l - 1 - i))).
Proof.
  intros. rewrite bits_val_testbit by (rewrite bits_of_length; lia).
  rewrite bits_val_bits_of, bits_of_length. reflexivity.
Qed.
Lemma count_true_app : forall a b, count_true (a ++ b) = count_true a + count_true b.
Proof. intros. apply count_occ_app. Qed.
Lemma count_true_le : forall a, count_true a <= length a.
Proof. intros. unfold count_true. apply count_occ_bound. Qed.
