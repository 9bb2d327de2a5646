(** Proofs about BitmapModel *)
From Coq Require Import List NArith ZArith Lia Bool Arith.
From Verif Require Import Base BitSpec BitmapModel.
Import ListNotations.
Set Implicit Arguments.

Definition bits (b : bitmap) : list bool := bits_of (bm_data b).

(** Histories of a map: created, then bits changed and data replaced. *)
Inductive bm_reach : bitmap -> Prop :=
| reach_new : forall len b, bm_new len = Val b -> bm_reach b
| reach_change : forall b i v b' old, bm_reach b -> bm_change b i v = Val (b', old) -> bm_reach b'
| reach_replace : forall b d b', bm_reach b -> bm_replace_data b d = Val b' -> bm_reach b'.

(** Histories that only touch declared positions and never set padding. *)
Inductive bm_reach_clean : bitmap -> Prop :=
| clean_new : forall len b, bm_new len = Val b -> bm_reach_clean b
| clean_change : forall b i v b' old, bm_reach_clean b -> i < bm_len b ->
    bm_change b i v = Val (b', old) -> bm_reach_clean b'
| clean_replace : forall b d b', bm_reach_clean b ->
    (forall i, bm_len b <= i -> nth_error (bits_of d) i <> Some true) ->
    bm_replace_data b d = Val b' -> bm_reach_clean b'.

Lemma get_sweep : forall b off, off < 8 ->
  (0 <? N.land (bit_getter off) (b2n b))%N = N.testbit (b2n b) (N.of_nat (7 - off)).
Proof.
  intros b off H. apply eqb_prop. revert b off H.
  apply (@sweep_bytes_nat 8 (fun b off => Bool.eqb (0 <? N.land (bit_getter off) (b2n b))%N
    (N.testbit (b2n b) (N.of_nat (7 - off))))).
  vm_compute. reflexivity.
Qed.
Definition changed_byte (b : byte) (off : nat) (v : bool) : byte :=
  n2b (N.lor (N.land (u8_not (bit_getter off)) (b2n b)) (bit_setter v off)).
Lemma change_sweep : forall v b off k, off < 8 -> k < 8 ->
  N.testbit (b2n (changed_byte b off v)) (N.of_nat (7 - k)) =
  if off =? k then v else N.testbit (b2n b) (N.of_nat (7 - k)).
Proof.
  intros v b off k Ho Hk.
  assert (G : forallb (fun b => forallb (fun off => forallb (fun k =>
      forallb (fun v => Bool.eqb (N.testbit (b2n (changed_byte b off v)) (N.of_nat (7 - k)))
         (if off =? k then v else N.testbit (b2n b) (N.of_nat (7 - k)))) [true; false])
      (seq 0 8)) (seq 0 8)) all_bytes = true) by (vm_compute; reflexivity).
  apply eqb_prop.
  rewrite forallb_forall in G. specialize (G b (all_bytes_in b)).
  rewrite forallb_forall in G. specialize (G off ltac:(apply in_seq; lia)).
  rewrite forallb_forall in G. specialize (G k ltac:(apply in_seq; lia)).
  rewrite forallb_forall in G. apply G. destruct v; simpl; auto.
Qed.

Lemma div8_iff : forall i n, i / 8 < n <-> i < 8 * n.
Proof. intros. split; intros; lia. Qed.

Lemma bm_get_spec : forall b i,
  bm_get b i = match nth_error (bits b) i with Some v => Val v | None => Panic end.
Proof.
  intros. unfold bm_get, bits. rewrite nth_error_bits_of.
  destruct (nth_error (bm_data b) (i / 8)); simpl; auto.
  rewrite get_sweep; auto.
Qed.

Lemma bits_upd_byte : forall l i x v, nth_error l (i / 8) = Some x ->
  bits_of (upd l (i / 8) (changed_byte x (i mod 8) v)) = upd (bits_of l) i v.
Proof.
  intros l i x v H. apply list_ext. intro j.
  assert (i / 8 < length l) as Hlt by (apply nth_error_Some; congruence).
  rewrite nth_error_bits_of, nth_error_upd, nth_error_upd, nth_error_bits_of, bits_of_length.
  assert (Hi : (i <? 8 * length l) = true) by (apply Nat.ltb_lt; lia).
  apply Nat.ltb_lt in Hlt. rewrite Hi, Hlt, !andb_true_r.
  destruct (Nat.eqb_spec (i / 8) (j / 8)) as [E|E].
  - cbn [option_map]. rewrite change_sweep by (apply Nat.mod_upper_bound; lia).
    rewrite <- E, H. cbn [option_map].
    destruct (Nat.eqb_spec (i mod 8) (j mod 8)); destruct (Nat.eqb_spec i j); auto.
    + exfalso. apply n. rewrite (Nat.div_mod i 8), (Nat.div_mod j 8) by lia. lia.
    + subst. congruence.
  - destruct (Nat.eqb_spec i j); [subst; congruence|reflexivity].
Qed.

Lemma bm_change_some : forall b i v, i < length (bits b) ->
  exists b' old, bm_change b i v = Val (b', old) /\ nth_error (bits b) i = Some old /\
    bits b' = upd (bits b) i v /\ bm_len b' = bm_len b.
Proof.
  intros b i v H. unfold bits in *. rewrite bits_of_length in H.
  unfold bm_change. destruct (nth_error (bm_data b) (i / 8)) as [x|] eqn:E.
  2:{ apply nth_error_None in E. exfalso. lia. }
  eexists. eexists. split; [reflexivity|]. cbn [bm_data bm_len].
  split; [|split]; auto.
  - rewrite nth_error_bits_of, E. simpl. rewrite get_sweep; auto.
  - apply (@bits_upd_byte _ _ _ v E).
Qed.
Lemma bm_change_none : forall b i v, length (bits b) <= i -> bm_change b i v = Panic.
Proof.
  intros b i v H. unfold bits in *. rewrite bits_of_length in H. unfold bm_change.
  destruct (nth_error (bm_data b) (i / 8)) as [x|] eqn:E; auto.
  assert (i / 8 < length (bm_data b)) by (apply nth_error_Some; congruence). lia.
Qed.
Lemma bm_change_val : forall b i v b' old, bm_change b i v = Val (b', old) ->
  i < length (bits b) /\ nth_error (bits b) i = Some old /\
    bits b' = upd (bits b) i v /\ bm_len b' = bm_len b /\ length (bm_data b') = length (bm_data b).
Proof.
  intros b i v b' old H. destruct (Nat.lt_ge_cases i (length (bits b))) as [L|L].
  - destruct (bm_change_some b v L) as (b2 & o2 & E & A & B & C). rewrite E in H. injection H as <- <-.
    repeat split; auto. apply (f_equal (@length _)) in B. rewrite upd_length in B. unfold bits in B.
    rewrite !bits_of_length in B. lia.
  - rewrite bm_change_none in H by auto. discriminate.
Qed.

Lemma copy_over_eq : forall o n, length n = length o -> copy_over o n = n.
Proof. induction o; destruct n; simpl; intros; try discriminate; auto. f_equal. auto. Qed.

Lemma bm_replace_spec : forall b d,
  bm_replace_data b d = if length d =? length (bm_data b) then Val (mk_bitmap d (bm_len b)) else Fail.
Proof.
  intros. unfold bm_replace_data. destruct (Nat.eqb_spec (length d) (length (bm_data b))); simpl; auto.
  rewrite copy_over_eq; auto.
Qed.

Lemma bm_new_spec : forall n, 0 < n ->
  bm_new n = Val (mk_bitmap (repeat x00 ((n + 7) / 8)) n).
Proof.
  intros [|n] H; [lia|]. unfold bm_new, unsigned_ceil_div. cbn [rbind].
  replace (1 + n / 8) with ((S n + 7) / 8) by lia. reflexivity.
Qed.

Lemma reach_inv : forall b, bm_reach b -> 0 < bm_len b /\ length (bm_data b) = (bm_len b + 7) / 8.
Proof.
  induction 1.
  - destruct len; [discriminate|]. rewrite bm_new_spec in H by lia. injection H as <-.
    cbn [bm_data bm_len]. rewrite repeat_length. split; [lia|reflexivity].
  - apply bm_change_val in H0 as (_ & _ & _ & E1 & E2). rewrite E1, E2. auto.
  - rewrite bm_replace_spec in H0. destruct (Nat.eqb_spec (length d) (length (bm_data b))); [|discriminate].
    injection H0 as <-. cbn [bm_data bm_len]. rewrite e. auto.
Qed.
Lemma clean_reach : forall b, bm_reach_clean b -> bm_reach b.
Proof. induction 1; eauto using bm_reach. Qed.

(** iteration *)
Lemma shift_sweep : forall b k, k < 8 ->
  (0 <? N.land 128 (N.shiftl (b2n b) (N.of_nat k) mod 256))%N = N.testbit (b2n b) (N.of_nat (7 - k)).
Proof.
  intros b off H. apply eqb_prop. revert b off H.
  apply (@sweep_bytes_nat 8 (fun b k => Bool.eqb (0 <? N.land 128 (N.shiftl (b2n b) (N.of_nat k) mod 256))%N
    (N.testbit (b2n b) (N.of_nat (7 - k))))).
  vm_compute. reflexivity.
Qed.
Lemma shift_step : forall b k,
  (N.shiftl (N.shiftl (b2n b) (N.of_nat k) mod 256) 1 mod 256 = N.shiftl (b2n b) (N.of_nat (S k)) mod 256)%N.
Proof.
  intros. rewrite !N.shiftl_mul_pow2. rewrite N.mul_mod_idemp_l by lia.
  rewrite <- N.mul_assoc, <- N.pow_add_r. do 3 f_equal. lia.
Qed.

Lemma skipn_nth : forall A (l : list A) i x, nth_error l i = Some x -> skipn i l = x :: skipn (S i) l.
Proof.
  induction l; destruct i; simpl; intros; try discriminate.
  - injection H as ->. reflexivity.
  - rewrite (IHl _ _ H). destruct l; reflexivity.
Qed.

Lemma iter_collect_spec : forall b, bm_len b <= 8 * length (bm_data b) ->
  forall rem idx cur, idx + rem = bm_len b ->
  (idx mod 8 <> 0 -> exists x, nth_error (bm_data b) (idx / 8) = Some x /\
     cur = (N.shiftl (b2n x) (N.of_nat (idx mod 8)) mod 256)%N) ->
  iter_collect (S rem) (mk_iter b idx cur) = Val (firstn rem (skipn idx (bits b))).
Proof.
  intros b HL. induction rem as [|rem IH]; intros idx cur Hr Hc.
  - unfold iter_collect, iter_next. cbn [it_idx it_bm]. replace (idx =? bm_len b) with true.
    reflexivity. symmetry. apply Nat.eqb_eq. lia.
  - change (iter_collect (S (S rem)) (mk_iter b idx cur)) with
      (match iter_next (mk_iter b idx cur) with
       | Val None => Val [] | Val (Some (x, it')) => rmap (cons x) (iter_collect (S rem) it')
       | Fail => Fail | Panic => Panic end).
    unfold iter_next. cbn [it_idx it_bm it_byte].
    replace (idx =? bm_len b) with false by (symmetry; apply Nat.eqb_neq; lia).
    assert (Hx : exists x, nth_error (bm_data b) (idx / 8) = Some x).
    { destruct (nth_error (bm_data b) (idx / 8)) eqn:E; eauto. apply nth_error_None in E. lia. }
    destruct Hx as [x Hx].
    assert (Hb : nth_error (bits b) idx = Some (N.testbit (b2n x) (N.of_nat (7 - idx mod 8)))).
    { unfold bits. rewrite nth_error_bits_of, Hx. reflexivity. }
    assert (Hcur : (if idx mod 8 =? 0 then match nth_error (bm_data b) (idx / 8) with
                | Some x => Val (b2n x) | None => Panic end else Val cur)
             = Val (N.shiftl (b2n x) (N.of_nat (idx mod 8)) mod 256)%N).
    { destruct (Nat.eqb_spec (idx mod 8) 0) as [E|E].
      - rewrite Hx, E. f_equal. cbn [N.of_nat]. rewrite N.shiftl_0_r. symmetry. apply N.mod_small, b2n_lt.
      - destruct (Hc E) as (x' & Hx' & ->). congruence. }
    rewrite Hcur. cbn [rbind].
    rewrite shift_sweep by (apply Nat.mod_upper_bound; lia).
    rewrite shift_step. rewrite IH.
    + rewrite (skipn_nth _ _ Hb). reflexivity.
    + lia.
    + intro Hn. exists x. replace (S idx / 8) with (idx / 8) by lia.
      replace (S idx mod 8) with (S (idx mod 8)) by lia. auto.
Qed.
Lemma bm_bits_spec : forall b, bm_len b <= 8 * length (bm_data b) ->
  bm_bits b = Val (firstn (bm_len b) (bits b)).
Proof.
  intros b H. unfold bm_bits, bm_iter_start. rewrite iter_collect_spec; auto.
  intro. exfalso. apply H0. reflexivity.
Qed.

(** weight *)
Lemma ones_sweep : forall b, N.to_nat (count_ones (b2n b)) = count_true (byte_bits b).
Proof. intro b. apply Nat.eqb_eq. revert b. apply sweep_bytes. vm_compute. reflexivity. Qed.
Lemma fold_add_acc : forall l acc,
  fold_left (fun acc x => acc + count_ones (b2n x))%N l acc =
  (acc + fold_left (fun acc x => acc + count_ones (b2n x))%N l 0)%N.
Proof.
  induction l; intros; cbn [fold_left]. lia. rewrite IHl. rewrite (IHl (0 + _)%N). lia.
Qed.
Lemma bm_weight_spec : forall b, N.to_nat (bm_weight b) = count_true (bits b).
Proof.
  intros [d len]. unfold bm_weight, bits. cbn [bm_data]. clear len. induction d as [|x d IH]; auto.
  cbn [fold_left]. rewrite fold_add_acc, bits_of_cons, count_true_app, <- ones_sweep. lia.
Qed.

Lemma clean_padding : forall b, bm_reach_clean b -> forall i, bm_len b <= i -> nth_error (bits b) i <> Some true.
Proof.
  induction 1; intros j Hj.
  - destruct len; [discriminate|]. rewrite bm_new_spec in H by lia. injection H as <-.
    unfold bits. cbn [bm_data bm_len] in *. rewrite nth_error_bits_of.
    destruct (nth_error (repeat x00 _) (j / 8)) eqn:E; [|discriminate].
    apply nth_error_In, repeat_spec in E. subst. cbn [option_map].
    change (b2n x00) with 0%N. rewrite N.bits_0. congruence.
  - apply bm_change_val in H1 as (_ & _ & E & E2 & _). rewrite E, nth_error_upd_other by lia.
    apply IHbm_reach_clean. lia.
  - rewrite bm_replace_spec in H1. destruct (Nat.eqb_spec (length d) (length (bm_data b))); [|discriminate].
    injection H1 as <-. unfold bits. cbn [bm_data bm_len] in *. auto.
Qed.
Lemma count_true_none : forall l, (forall i, nth_error l i <> Some true) -> count_true l = 0.
Proof.
  intros l H. unfold count_true. apply count_occ_not_In. intro HI. apply In_nth_error in HI as [i Hi].
  apply (H i Hi).
Qed.
Lemma nth_error_skipn : forall A (l : list A) n i, nth_error (skipn n l) i = nth_error l (n + i).
Proof. induction l; destruct n; simpl; intros; auto. destruct i; reflexivity. Qed.
Lemma clean_weight : forall b, bm_reach_clean b ->
  N.to_nat (bm_weight b) = count_true (firstn (bm_len b) (bits b)).
Proof.
  intros b H. rewrite bm_weight_spec. rewrite <- (firstn_skipn (bm_len b) (bits b)) at 1.
  rewrite count_true_app. rewrite (count_true_none (skipn _ _)). lia.
  intro i. rewrite nth_error_skipn. apply clean_padding; auto. lia.
Qed.
Lemma reach_storage : forall b, bm_reach b -> bm_len b <= 8 * length (bm_data b).
Proof. intros b H. apply reach_inv in H as [H1 H2]. rewrite H2. lia. Qed.
