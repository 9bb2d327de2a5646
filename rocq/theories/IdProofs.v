(** Proofs about IdModel *)
From Coq Require Import List NArith ZArith Lia Bool Arith.
From Verif Require Import Base BitSpec IdModel.
From Verif Require BitmapModel BitmapProofs.
Import ListNotations.
Set Implicit Arguments.

(** Integer value and bits of an identifier. *)
Definition id_val (i : ID) : N := of_be i.
Definition id_bits (i : ID) : list bool := bits_of i.

Lemma id_bits_length : forall i, wf_id i -> length (id_bits i) = 160.
Proof. intros i H. unfold id_bits. rewrite bits_of_length, H. reflexivity. Qed.

Lemma get_bit_spec : forall id i,
  get_bit id i = match nth_error (id_bits id) i with Some v => Val v | None => Panic end.
Proof.
  intros. exact (BitmapProofs.bm_get_spec (BitmapModel.mk_bitmap id 0) i).
Qed.

Lemma change_bit_spec : forall id i v, i < 8 * length id ->
  exists id', change_bit id i v = Val id' /\ id_bits id' = upd (id_bits id) i v /\ length id' = length id.
Proof.
  intros id i v H.
  destruct (@BitmapProofs.bm_change_some (BitmapModel.mk_bitmap id 0) i v) as (b' & old & A & B & C & D).
  { unfold BitmapProofs.bits. cbn. rewrite bits_of_length. lia. }
  unfold BitmapModel.bm_change in A. cbn [BitmapModel.bm_data] in A.
  unfold change_bit. destruct (nth_error id (i / 8)) eqn:E; [|discriminate].
  injection A as A1 A2. eexists. split; [reflexivity|]. 
  apply (f_equal BitmapModel.bm_data) in A1. cbn [BitmapModel.bm_data] in A1.
  unfold BitmapModel.u8_not, BitmapModel.bit_getter, BitmapModel.bit_setter in A1. unfold bit_filter.
  rewrite A1. split.
  - exact C.
  - rewrite <- A1. apply upd_length.
Qed.

Lemma flip_sweep : forall b off k, off < 8 -> k < 8 ->
  N.testbit (b2n (n2b (N.lxor (b2n b) (bit_filter off)))) (N.of_nat (7 - k)) =
  xorb (off =? k) (N.testbit (b2n b) (N.of_nat (7 - k))).
Proof.
  intros b off k Ho Hk.
  assert (G : forallb (fun b => forallb (fun off => forallb (fun k =>
      Bool.eqb (N.testbit (b2n (n2b (N.lxor (b2n b) (bit_filter off)))) (N.of_nat (7 - k)))
         (xorb (off =? k) (N.testbit (b2n b) (N.of_nat (7 - k)))))
      (seq 0 8)) (seq 0 8)) all_bytes = true) by (vm_compute; reflexivity).
  apply eqb_prop.
  rewrite forallb_forall in G. specialize (G b (all_bytes_in b)).
  rewrite forallb_forall in G. specialize (G off ltac:(apply in_seq; lia)).
  rewrite forallb_forall in G. apply G, in_seq. lia.
Qed.

Lemma flip_bit_spec : forall id i, i < 8 * length id ->
  exists id' v, flip_bit id i = Val id' /\ nth_error (id_bits id) i = Some v /\
    id_bits id' = upd (id_bits id) i (negb v) /\ length id' = length id.
Proof.
  intros l i Hi. unfold flip_bit. destruct (nth_error l (i / 8)) as [x|] eqn:H.
  2:{ apply nth_error_None in H. lia. }
  eexists. eexists. split; [reflexivity|]. unfold id_bits.
  rewrite nth_error_bits_of, H. split; [reflexivity|]. split; [|apply upd_length].
  apply list_ext. intro j.
  assert (i / 8 < length l) as Hlt by (apply nth_error_Some; congruence).
  rewrite nth_error_bits_of, nth_error_upd, nth_error_upd, nth_error_bits_of, bits_of_length.
  assert (Hi' : (i <? 8 * length l) = true) by (apply Nat.ltb_lt; lia).
  apply Nat.ltb_lt in Hlt. rewrite Hi', Hlt, !andb_true_r.
  destruct (Nat.eqb_spec (i / 8) (j / 8)) as [E|E].
  - cbn [option_map]. rewrite flip_sweep by (apply Nat.mod_upper_bound; lia).
    rewrite <- E, H. cbn [option_map].
    destruct (Nat.eqb_spec (i mod 8) (j mod 8)) as [E2|E2]; destruct (Nat.eqb_spec i j); auto.
    + rewrite E2. reflexivity.
    + exfalso. apply n. rewrite (Nat.div_mod i 8), (Nat.div_mod j 8) by lia. lia.
    + subst. congruence.
    + rewrite xorb_false_l. reflexivity.
  - destruct (Nat.eqb_spec i j); [subst; congruence|reflexivity].
Qed.
Lemma flip_bit_out : forall id i, 8 * length id <= i -> flip_bit id i = Panic /\ forall v, change_bit id i v = Panic.
Proof.
  intros. unfold flip_bit, change_bit. destruct (nth_error id (i / 8)) eqn:E; auto.
  assert (i / 8 < length id) by (apply nth_error_Some; congruence). lia.
Qed.

Lemma bit_iter_spec : forall id, wf_id id -> bit_iter id = id_bits id.
Proof.
  intros id H. apply list_ext. intro i. unfold bit_iter. rewrite nth_error_map.
  change (ID_LEN * 8) with 160.
  destruct (Nat.lt_ge_cases i 160) as [L|L].
  - rewrite (nth_error_nth' _ 0) by (rewrite seq_length; lia). rewrite seq_nth by lia. cbn [option_map].
    rewrite get_bit_spec. simpl plus. destruct (nth_error (id_bits id) i) eqn:E; auto.
    apply nth_error_None in E. rewrite id_bits_length in E by auto. lia.
  - rewrite (proj2 (nth_error_None (seq 0 160) i)) by (rewrite seq_length; lia).
    rewrite (proj2 (nth_error_None (id_bits id) i)) by (rewrite id_bits_length; auto). reflexivity.
Qed.

(** bit of the integer value *)
Lemma id_bit_val : forall id i, wf_id id -> i < 160 ->
  nth_error (id_bits id) i = Some (N.testbit (id_val id) (N.of_nat (159 - i))).
Proof.
  intros id i H Hi. unfold id_bits. rewrite nth_error_bits_of_be by (rewrite H; unfold ID_LEN; lia).
  rewrite H. reflexivity.
Qed.
Lemma id_val_inj : forall a b, wf_id a -> wf_id b -> id_val a = id_val b -> a = b.
Proof. intros a b Ha Hb H. apply of_be_inj; auto. rewrite Ha, Hb. reflexivity. Qed.
Lemma id_val_lt : forall a, wf_id a -> (id_val a < 2 ^ 160)%N.
Proof.
  intros a H. unfold id_val. pose proof (of_be_lt a) as L. rewrite H in L.
  replace (256 ^ N.of_nat ID_LEN)%N with (2 ^ 160)%N in L by reflexivity. exact L.
Qed.

(** prefix comparison *)
Lemma add_compare_r : forall a b p, N.compare (a + p) (b + p) = N.compare a b.
Proof.
  intros. destruct (N.compare_spec a b); [apply N.compare_eq_iff|apply N.compare_lt_iff|apply N.compare_gt_iff]; lia.
Qed.
Lemma cmp_bytes_spec : forall k a b, k <= length a -> k <= length b ->
  match cmp_bytes k a b with
  | Some c => N.compare (of_be (firstn k a)) (of_be (firstn k b)) = c /\ c <> Eq
  | None => firstn k a = firstn k b
  end.
Proof.
  induction k; intros a b Ha Hb. reflexivity.
  destruct a as [|x a]; [simpl in Ha; lia|]. destruct b as [|y b]; [simpl in Hb; lia|].
  cbn [length] in *. cbn [cmp_bytes firstn].
  assert (HL : length (firstn k a) = length (firstn k b)) by (rewrite !firstn_length; lia).
  pose proof (of_be_lt (firstn k a)) as La. pose proof (of_be_lt (firstn k b)) as Lb. rewrite <- HL in Lb.
  specialize (IHk a b ltac:(lia) ltac:(lia)).
  rewrite !of_be_cons, <- HL. set (p := (256 ^ N.of_nat (length (firstn k a)))%N) in *.
  destruct (N.compare_spec (b2n x) (b2n y)) as [E|E|E].
  - apply b2n_inj in E. subst y. destruct (cmp_bytes k a b).
    + destruct IHk as [I1 I2]. split; auto. rewrite <- I1.
      rewrite !(N.add_comm (b2n x * p)). apply add_compare_r.
    + congruence.
  - split; [|discriminate]. apply N.compare_lt_iff. 
    assert (b2n x + 1 <= b2n y)%N by lia. nia.
  - split; [|discriminate]. apply N.compare_gt_iff.
    assert (b2n y + 1 <= b2n x)%N by lia. nia.
Qed.

Lemma firstn_snoc : forall A (l : list A) n x, nth_error l n = Some x -> firstn (S n) l = firstn n l ++ [x].
Proof.
  induction l as [|y l IH]; destruct n; intros x H; try discriminate.
  - injection H as ->. reflexivity.
  - cbn [nth_error] in H. change (firstn (S (S n)) (y :: l)) with (y :: firstn (S n) l).
    rewrite (IH _ _ H). reflexivity.
Qed.

Definition cmp_val (l r : list bool) : comparison := N.compare (bits_val l) (bits_val r).

(** extending by one bit after a strict comparison keeps it *)
Lemma cmp_val_ext : forall l r l' r', length l = length r -> length l' = length r' ->
  cmp_val l r <> Eq -> cmp_val (l ++ l') (r ++ r') = cmp_val l r.
Proof.
  intros l r l' r' HL HL' H. unfold cmp_val in *. rewrite !bits_val_app, HL'.
  pose proof (bits_val_lt l') as B1. pose proof (bits_val_lt r') as B2. rewrite HL' in B1.
  set (p := (2 ^ N.of_nat (length r'))%N) in *.
  destruct (N.compare_spec (bits_val l) (bits_val r)) as [E|E|E]; [congruence| |].
  - apply N.compare_lt_iff. assert (bits_val l + 1 <= bits_val r)%N by lia. nia.
  - apply N.compare_gt_iff. assert (bits_val r + 1 <= bits_val l)%N by lia. nia.
Qed.
Lemma cmp_val_eq_app : forall l l' r', length l' = length r' ->
  cmp_val (l ++ l') (l ++ r') = cmp_val l' r'.
Proof.
  intros. unfold cmp_val. rewrite !bits_val_app, H. rewrite !(N.add_comm (bits_val l * _)).
  apply add_compare_r.
Qed.

Lemma cmp_bits_spec : forall k start a b, length a = length b ->
  start + k <= 8 * length a ->
  firstn start (id_bits a) = firstn start (id_bits b) ->
  exists o, cmp_bits k start a b = Val o /\
  cmp_val (firstn (start + k) (id_bits a)) (firstn (start + k) (id_bits b)) =
    match o with Some c => c | None => Eq end.
Proof.
  induction k; intros start a b HL HB HE.
  - exists None. split; auto. rewrite Nat.add_0_r, HE. apply N.compare_refl.
  - cbn [cmp_bits]. rewrite !get_bit_spec.
    assert (La : length (id_bits a) = 8 * length a) by apply bits_of_length.
    assert (Lb : length (id_bits b) = 8 * length b) by apply bits_of_length.
    destruct (nth_error (id_bits a) start) as [x|] eqn:Ea; [|apply nth_error_None in Ea; lia].
    destruct (nth_error (id_bits b) start) as [y|] eqn:Eb; [|apply nth_error_None in Eb; lia].
    pose proof (firstn_snoc _ _ Ea) as Fa. pose proof (firstn_snoc _ _ Eb) as Fb.
    destruct (bool_cmp x y) eqn:EC.
    + assert (x = y) by (destruct x, y; simpl in EC; congruence). subst y.
      replace (start + S k) with (S start + k) by lia. apply IHk; auto; try lia. congruence.
    + exists (Some Lt). split; auto.
      replace (start + S k) with (S start + k) by lia.
      rewrite <- (firstn_skipn (S start) (firstn (S start + k) (id_bits a))).
      rewrite <- (firstn_skipn (S start) (firstn (S start + k) (id_bits b))).
      rewrite !firstn_firstn, !Nat.min_l by lia.
      assert (C : cmp_val (firstn (S start) (id_bits a)) (firstn (S start) (id_bits b)) = Lt).
      { rewrite Fa, Fb, HE. rewrite cmp_val_eq_app by reflexivity.
        destruct x, y; simpl in EC; try discriminate. reflexivity. }
      rewrite cmp_val_ext; rewrite ?C; auto; try congruence;
      repeat (rewrite ?skipn_length, ?firstn_length); lia.
    + exists (Some Gt). split; auto.
      replace (start + S k) with (S start + k) by lia.
      rewrite <- (firstn_skipn (S start) (firstn (S start + k) (id_bits a))).
      rewrite <- (firstn_skipn (S start) (firstn (S start + k) (id_bits b))).
      rewrite !firstn_firstn, !Nat.min_l by lia.
      assert (C : cmp_val (firstn (S start) (id_bits a)) (firstn (S start) (id_bits b)) = Gt).
      { rewrite Fa, Fb, HE. rewrite cmp_val_eq_app by reflexivity.
        destruct x, y; simpl in EC; try discriminate. reflexivity. }
      rewrite cmp_val_ext; rewrite ?C; auto; try congruence;
      repeat (rewrite ?skipn_length, ?firstn_length); lia.
Qed.

Lemma firstn_bits_of : forall k l, firstn (8 * k) (bits_of l) = bits_of (firstn k l).
Proof.
  induction k; intros l. reflexivity.
  destruct l as [|x l]; [rewrite firstn_nil; reflexivity|].
  rewrite bits_of_cons. cbn [firstn]. rewrite bits_of_cons.
  replace (8 * S k) with (length (byte_bits x) + 8 * k) by (rewrite byte_bits_length; lia).
  rewrite firstn_app_2, IHk. reflexivity.
Qed.

Lemma cmp_first_n_bits_cmp_val : forall a b n, wf_id a -> wf_id b -> n <= 160 ->
  cmp_first_n_bits a b n = Val (cmp_val (firstn n (id_bits a)) (firstn n (id_bits b))).
Proof.
  intros a b n Ha Hb Hn. unfold cmp_first_n_bits.
  assert (HL : length a = length b) by (rewrite Ha, Hb; reflexivity).
  assert (H20 : length a = 20) by exact Ha.
  assert (Hk : n / 8 <= length a) by lia.
  pose proof (@cmp_bytes_spec (n / 8) a b Hk ltac:(lia)) as HB.
  destruct (cmp_bytes (n / 8) a b) as [c|].
  - destruct HB as [H1 H2]. f_equal. symmetry.
    rewrite <- !bits_val_bits_of, <- !firstn_bits_of in H1.
    assert (HA : forall x, firstn n (id_bits x) = firstn (8 * (n / 8)) (bits_of x) ++ skipn (8 * (n / 8)) (firstn n (bits_of x))).
    { intro x. rewrite <- (firstn_skipn (8 * (n/8)) (firstn n (id_bits x))).
      rewrite firstn_firstn, Nat.min_l by lia. reflexivity. }
    rewrite (HA a), (HA b). rewrite cmp_val_ext; auto.
    + rewrite !firstn_length, !bits_of_length. lia.
    + rewrite !skipn_length, !firstn_length, !bits_of_length. lia.
    + unfold cmp_val. congruence.
  - assert (HF : firstn (n / 8 * 8) (id_bits a) = firstn (n / 8 * 8) (id_bits b)).
    { rewrite Nat.mul_comm. unfold id_bits. rewrite !firstn_bits_of. congruence. }
    destruct (@cmp_bits_spec (n mod 8) (n / 8 * 8) a b HL) as (o & E1 & E2); auto.
    { pose proof (Nat.div_mod n 8). lia. }
    rewrite E1. cbn [rbind]. f_equal. rewrite <- E2.
    replace (n / 8 * 8 + n mod 8) with n; auto. pose proof (Nat.div_mod n 8). lia.
Qed.

(** The first n bits as a number. *)
Definition prefix_val (id : ID) (n : nat) : N := N.shiftr (id_val id) (N.of_nat (160 - n)).
Lemma prefix_val_bits : forall id n, wf_id id -> n <= 160 -> bits_val (firstn n (id_bits id)) = prefix_val id n.
Proof.
  intros id n H Hn. unfold prefix_val, id_val. rewrite <- bits_val_bits_of.
  replace (bits_val (bits_of id)) with (bits_val (firstn n (bits_of id) ++ skipn n (bits_of id)))
    by (rewrite firstn_skipn; reflexivity).
  rewrite bits_val_app, skipn_length, bits_of_length, H.
  unfold ID_LEN. rewrite N.shiftr_div_pow2. change (8 * 20) with 160.
  rewrite N.div_add_l by (apply N.pow_nonzero; lia).
  rewrite N.div_small. unfold id_bits. lia.
  pose proof (bits_val_lt (skipn n (bits_of id))) as B. rewrite skipn_length, bits_of_length, H in B. exact B.
Qed.

(** first difference *)
Lemma first_diff_from_spec : forall l r idx, length l = length r ->
  match first_diff_from idx l r with
  | None => l = r
  | Some k => idx <= k /\ k - idx < length l /\ nth_error l (k - idx) <> nth_error r (k - idx) /\
              firstn (k - idx) l = firstn (k - idx) r
  end.
Proof.
  induction l as [|x l IH]; intros [|y r] idx H; try discriminate; [reflexivity|].
  cbn [first_diff_from]. destruct (Bool.eqb x y) eqn:E; cbn [negb].
  - apply eqb_prop in E. subst y. specialize (IH r (S idx) ltac:(simpl in H; lia)).
    destruct (first_diff_from (S idx) l r) as [k|].
    + destruct IH as (H1 & H2 & H3 & H4). replace (k - idx) with (S (k - S idx)) by lia.
      cbn [length nth_error firstn]. repeat split; try lia; auto. congruence.
    + congruence.
  - apply eqb_false_iff in E. replace (idx - idx) with 0 by lia. simpl. repeat split; try lia. congruence.
Qed.
Lemma first_diff_spec : forall a b, wf_id a -> wf_id b ->
  match first_diff_bit_idx a b with
  | None => a = b
  | Some k => k < 160 /\ nth_error (id_bits a) k <> nth_error (id_bits b) k /\
              firstn k (id_bits a) = firstn k (id_bits b)
  end.
Proof.
  intros a b Ha Hb. unfold first_diff_bit_idx. rewrite !bit_iter_spec by auto.
  pose proof (first_diff_from_spec (id_bits a) (id_bits b) 0) as H.
  rewrite !id_bits_length in H by auto. specialize (H eq_refl).
  destruct (first_diff_from 0 (id_bits a) (id_bits b)) as [k|].
  - rewrite Nat.sub_0_r in H. intuition.
  - apply bits_of_inj. exact H.
Qed.
Lemma nth_firstn : forall A (l : list A) n i, i < n -> nth_error (firstn n l) i = nth_error l i.
Proof. induction l; destruct n, i; simpl; intros; auto; try lia. apply IHl. lia. Qed.
Lemma first_diff_unique : forall a b k, wf_id a -> wf_id b -> k < 160 ->
  nth_error (id_bits a) k <> nth_error (id_bits b) k ->
  (forall j, j < k -> nth_error (id_bits a) j = nth_error (id_bits b) j) ->
  first_diff_bit_idx a b = Some k.
Proof.
  intros a b k Ha Hb Hk Hd Hp. pose proof (first_diff_spec Ha Hb) as S.
  destruct (first_diff_bit_idx a b) as [k'|].
  - destruct S as (S1 & S2 & S3). f_equal.
    destruct (Nat.lt_trichotomy k k') as [L|[L|L]]; auto; exfalso.
    + apply Hd. rewrite <- (nth_firstn (id_bits a) L), <- (nth_firstn (id_bits b) L), S3. reflexivity.
    + apply S2. apply Hp. auto.
  - subst. congruence.
Qed.
Lemma first_diff_sym : forall a b, wf_id a -> wf_id b -> first_diff_bit_idx a b = first_diff_bit_idx b a.
Proof.
  intros a b Ha Hb. pose proof (first_diff_spec Ha Hb) as S.
  destruct (first_diff_bit_idx a b) as [k|].
  - destruct S as (S1 & S2 & S3). symmetry. apply first_diff_unique; auto.
    intros j Hj. rewrite <- (nth_firstn (id_bits a) Hj), <- (nth_firstn (id_bits b) Hj), S3. reflexivity.
  - subst. pose proof (first_diff_spec Hb Hb) as S. destruct (first_diff_bit_idx b b); auto. intuition.
Qed.

(** randomisation *)
Lemma flip_by_draws_spec : forall ds id bit, bit + length ds <= 8 * length id ->
  exists id', flip_by_draws id bit ds = Val id' /\ length id' = length id /\
    (forall j, nth_error (id_bits id') j =
       if (bit <=? j) && (j <? bit + length ds)
       then option_map (xorb (nth (j - bit) ds false)) (nth_error (id_bits id) j)
       else nth_error (id_bits id) j).
Proof.
  induction ds as [|d ds IH]; intros id bit H.
  - exists id. repeat split; auto. intro j. cbn [length].
    destruct ((bit <=? j) && (j <? bit + 0)) eqn:E; auto. lia.
  - cbn [length] in H. cbn [flip_by_draws]. destruct d.
    + destruct (@flip_bit_spec id bit) as (id1 & v & E1 & E2 & E3 & E4); [lia|].
      rewrite E1. cbn [rbind].
      destruct (IH id1 (S bit)) as (id' & F1 & F2 & F3); [lia|].
      exists id'. split; [auto|]. split; [lia|]. intro j. rewrite F3, E3. cbn [length].
      assert (LL : length (id_bits id) = 8 * length id) by apply bits_of_length.
      rewrite nth_error_upd, !LL.
      destruct (Nat.eqb_spec bit j) as [->|Hne].
      * replace (S j <=? j) with false by (symmetry; apply Nat.leb_gt; lia).
        replace (j <? 8 * length id) with true by (symmetry; apply Nat.ltb_lt; lia).
        replace (j <=? j) with true by (symmetry; apply Nat.leb_le; lia).
        replace (j <? j + S (length ds)) with true by (symmetry; apply Nat.ltb_lt; lia).
        simpl. rewrite Nat.sub_diag, E2. simpl. reflexivity.
      * simpl andb at 2.
        destruct ((S bit <=? j) && (j <? S bit + length ds)) eqn:EE.
        -- replace ((bit <=? j) && (j <? bit + S (length ds))) with true by lia.
           replace (j - bit) with (S (j - S bit)) by lia. reflexivity.
        -- replace ((bit <=? j) && (j <? bit + S (length ds))) with false by lia. reflexivity.
    + destruct (IH id (S bit)) as (id' & F1 & F2 & F3); [lia|].
      exists id'. split; [auto|]. split; [lia|]. intro j. rewrite F3. cbn [length].
      destruct (Nat.eqb_spec bit j) as [->|Hne].
      * replace (S j <=? j) with false by (symmetry; apply Nat.leb_gt; lia).
        replace ((j <=? j) && (j <? j + S (length ds))) with true by lia.
        simpl. rewrite Nat.sub_diag. destruct (nth_error (id_bits id) j) as [[|]|]; reflexivity.
      * destruct ((S bit <=? j) && (j <? S bit + length ds)) eqn:EE.
        -- replace ((bit <=? j) && (j <? bit + S (length ds))) with true by lia.
           replace (j - bit) with (S (j - S bit)) by lia. reflexivity.
        -- replace ((bit <=? j) && (j <? bit + S (length ds))) with false by lia. reflexivity.
Qed.

Lemma nth_error_overwrite : forall id first draws j, first <= length id -> j < first ->
  nth_error (overwrite_tail id first draws) j = nth_error id j.
Proof.
  intros. unfold overwrite_tail. rewrite nth_error_app1 by (rewrite firstn_length; lia).
  apply nth_firstn. auto.
Qed.
Lemma overwrite_length : forall id first draws, first <= length id -> length id - first <= length draws ->
  length (overwrite_tail id first draws) = length id.
Proof. intros. unfold overwrite_tail. rewrite app_length, !firstn_length. lia. Qed.

Lemma randomize_spec : forall id i draws bdraws, wf_id id ->
  length id - (i / 8 + 1) <= length draws -> 7 - i mod 8 <= length bdraws ->
  exists id', randomize_after_bit id i draws bdraws = Val id' /\ wf_id id' /\
    (forall j, j <= i -> nth_error (id_bits id') j = nth_error (id_bits id) j).
Proof.
  intros id i draws bdraws H Hd Hb. unfold randomize_after_bit.
  destruct (Nat.leb_spec ID_BIT_COUNT i) as [L|L].
  - exists id. auto.
  - unfold ID_BIT_COUNT in L. assert (H20 : length id = 20) by exact H.
    assert (Hl : length (overwrite_tail id (i / 8 + 1) draws) = length id).
    { apply overwrite_length; auto. lia. }
    destruct (@flip_by_draws_spec (firstn ((i / 8 + 1) * 8 - (i + 1)) bdraws) (overwrite_tail id (i / 8 + 1) draws) (i + 1))
      as (id' & F1 & F2 & F3).
    { rewrite firstn_length. lia. }
    exists id'. split; auto. split; [unfold wf_id; congruence|].
    intros j Hj. rewrite F3. replace (i + 1 <=? j) with false by (symmetry; apply Nat.leb_gt; lia).
    simpl. unfold id_bits. rewrite !nth_error_bits_of, nth_error_overwrite; auto; lia.
Qed.
Lemma randomize_big : forall id i d b, 160 <= i -> randomize_after_bit id i d b = Val id.
Proof.
  intros. unfold randomize_after_bit. replace (ID_BIT_COUNT <=? i) with true; auto.
  symmetry. apply Nat.leb_le. exact H.
Qed.

Lemma nth_error_combine_xor : forall l1 l2 k, length l1 = length l2 ->
  nth_error (map (fun p => xorb (fst p) (snd p)) (combine l1 l2)) k =
  match nth_error l1 k, nth_error l2 k with Some a, Some b => Some (xorb a b) | _, _ => None end.
Proof.
  induction l1; destruct l2, k; simpl; intros; try discriminate; auto.
Qed.

(** every id with the same prefix is attainable *)
Lemma randomize_surj : forall id target i, wf_id id -> wf_id target -> i < 160 ->
  (forall j, j <= i -> nth_error (id_bits target) j = nth_error (id_bits id) j) ->
  exists draws bdraws,
    length draws = length id - (i / 8 + 1) /\ length bdraws = 7 - i mod 8 /\
    randomize_after_bit id i draws bdraws = Val target.
Proof.
  intros id t i H Ht Hi Hp.
  assert (H20 : length id = 20) by exact H. assert (Ht20 : length t = 20) by exact Ht.
  set (m := 7 - i mod 8).
  set (bd := map (fun p => xorb (fst p) (snd p))
               (combine (firstn m (skipn (i + 1) (id_bits id))) (firstn m (skipn (i + 1) (id_bits t))))).
  assert (Lx : forall x, length x = 20 -> length (firstn m (skipn (i + 1) (id_bits x))) = m).
  { intros x Hx. rewrite firstn_length, skipn_length. unfold id_bits. rewrite bits_of_length. lia. }
  assert (Lbd : length bd = m).
  { unfold bd. rewrite map_length, combine_length, !Lx by auto. lia. }
  exists (skipn (i / 8 + 1) t), bd.
  split; [rewrite skipn_length; lia|]. split; [exact Lbd|].
  unfold randomize_after_bit. replace (ID_BIT_COUNT <=? i) with false.
  2:{ symmetry. apply Nat.leb_gt. unfold ID_BIT_COUNT. lia. }
  assert (Em : (i / 8 + 1) * 8 - (i + 1) = m) by (unfold m; lia).
  rewrite Em, firstn_all2 by lia.
  assert (Hl : length (overwrite_tail id (i / 8 + 1) (skipn (i / 8 + 1) t)) = length id).
  { apply overwrite_length. lia. rewrite skipn_length. lia. }
  destruct (@flip_by_draws_spec bd (overwrite_tail id (i / 8 + 1) (skipn (i / 8 + 1) t)) (i + 1))
    as (id' & F1 & F2 & F3); [lia|].
  rewrite F1. f_equal. apply bits_of_inj. apply list_ext. intro j.
  change (bits_of id') with (id_bits id'). rewrite F3, Lbd.
  assert (Hov : nth_error (id_bits (overwrite_tail id (i / 8 + 1) (skipn (i / 8 + 1) t))) j =
           if j / 8 <? i / 8 + 1 then nth_error (id_bits id) j else nth_error (id_bits t) j).
  { unfold id_bits. rewrite !nth_error_bits_of. unfold overwrite_tail.
    destruct (Nat.ltb_spec (j / 8) (i / 8 + 1)) as [E|E].
    - rewrite nth_error_app1 by (rewrite firstn_length; lia). rewrite nth_firstn by lia. reflexivity.
    - rewrite nth_error_app2 by (rewrite firstn_length; lia).
      rewrite firstn_length, Nat.min_l by lia.
      rewrite firstn_all2 by (rewrite skipn_length; lia).
      rewrite BitmapProofs.nth_error_skipn. replace (i / 8 + 1 + (j / 8 - (i / 8 + 1))) with (j / 8) by lia.
      reflexivity. }
  rewrite Hov. change (bits_of t) with (id_bits t).
  destruct ((i + 1 <=? j) && (j <? i + 1 + m)) eqn:EJ.
  - replace (j / 8 <? i / 8 + 1) with true by (symmetry; apply Nat.ltb_lt; unfold m in *; lia).
    assert (Hn : nth_error bd (j - (i + 1)) = 
       match nth_error (id_bits id) j, nth_error (id_bits t) j with Some a, Some b => Some (xorb a b) | _, _ => None end).
    { unfold bd. rewrite nth_error_combine_xor by (rewrite !Lx; auto).
      rewrite !nth_firstn by lia. rewrite !BitmapProofs.nth_error_skipn.
      replace (i + 1 + (j - (i + 1))) with j by lia. reflexivity. }
    destruct (nth_error (id_bits id) j) as [a|] eqn:Ea.
    2:{ apply nth_error_None in Ea. unfold id_bits in Ea. rewrite bits_of_length in Ea. unfold m in *. lia. }
    destruct (nth_error (id_bits t) j) as [b|] eqn:Eb.
    2:{ apply nth_error_None in Eb. unfold id_bits in Eb. rewrite bits_of_length in Eb. unfold m in *. lia. }
    rewrite (nth_error_nth _ _ false Hn). cbn [option_map]. destruct a, b; reflexivity.
  - destruct (Nat.ltb_spec (j / 8) (i / 8 + 1)); auto. symmetry. apply Hp. unfold m in *. lia.
Qed.

(** xor *)
Lemma xor_bytes_length : forall a b, length a = length b -> length (xor_bytes a b) = length a.
Proof. induction a; destruct b; simpl; intros; auto. Qed.
Lemma lxor_byte_lt : forall x y, (N.lxor (b2n x) (b2n y) < 256)%N.
Proof.
  intros. apply N.ltb_lt. revert x y. apply sweep_bytes2. vm_compute. reflexivity.
Qed.
Lemma lxor_shift : forall a b c d p, (c < 2 ^ p)%N -> (d < 2 ^ p)%N ->
  (N.lxor (a * 2 ^ p + c) (b * 2 ^ p + d) = N.lxor a b * 2 ^ p + N.lxor c d)%N.
Proof.
  intros a b c d p Hc Hd. apply N.bits_inj. intro n.
  assert (G : forall a c, (c < 2 ^ p)%N -> N.testbit (a * 2 ^ p + c) n =
     if (n <? p)%N then N.testbit c n else N.testbit a (n - p)).
  { clear. intros a c Hc. destruct (N.ltb_spec n p).
    - rewrite !N.testbit_eqb.
      replace p with (n + 1 + (p - n - 1))%N by lia. rewrite !N.pow_add_r, N.pow_1_r.
      replace (a * (2 ^ n * 2 * 2 ^ (p - n - 1)) + c)%N with (a * 2 ^ (p - n - 1) * 2 * 2 ^ n + c)%N by lia.
      rewrite N.div_add_l by (apply N.pow_nonzero; lia).
      rewrite N.add_comm, N.mod_add by lia. reflexivity.
    - rewrite !N.testbit_eqb.
      replace n with (p + (n - p))%N at 1 by lia. rewrite N.pow_add_r, <- N.div_div by (apply N.pow_nonzero; lia).
      rewrite N.div_add_l by (apply N.pow_nonzero; lia). rewrite (N.div_small c) by auto.
      rewrite N.add_0_r. reflexivity. }
  assert (Hx : (N.lxor c d < 2 ^ p)%N).
  { destruct (N.eq_dec (N.lxor c d) 0) as [->|Hn]. apply N.neq_0_lt_0, N.pow_nonzero; lia.
    apply N.log2_lt_pow2. lia.
    pose proof (N.log2_lxor c d) as L.
    assert (Z : forall z, (z < 2 ^ p -> z <> 0 -> N.log2 z < p)%N) by (intros; apply N.log2_lt_pow2; lia).
    destruct (N.eq_dec c 0) as [->|Hc0].
    - rewrite N.lxor_0_l in *. apply Z; auto.
    - destruct (N.eq_dec d 0) as [->|Hd0].
      + rewrite N.lxor_0_r in *. apply Z; auto.
      + specialize (Z c Hc Hc0) as Z1. specialize (Z d Hd Hd0). lia. }
  rewrite N.lxor_spec, !G by auto. destruct (n <? p)%N; rewrite N.lxor_spec; reflexivity.
Qed.
Lemma of_be_xor : forall a b, length a = length b -> of_be (xor_bytes a b) = N.lxor (of_be a) (of_be b).
Proof.
  induction a as [|x a IH]; destruct b as [|y b]; intros H; try discriminate; [reflexivity|].
  injection H as H. cbn [xor_bytes]. rewrite !of_be_cons, xor_bytes_length, IH by auto.
  rewrite b2n_n2b, N.mod_small by apply lxor_byte_lt. rewrite <- H.
  pose proof (of_be_lt a) as La. pose proof (of_be_lt b) as Lb. rewrite <- H in Lb.
  change 256%N with (2 ^ 8)%N in *. rewrite <- N.pow_mul_r in *.
  rewrite lxor_shift by auto. reflexivity.
Qed.
Lemma id_xor_val : forall a b, wf_id a -> wf_id b -> wf_id (id_xor a b) /\ id_val (id_xor a b) = N.lxor (id_val a) (id_val b).
Proof.
  intros a b Ha Hb. split.
  - unfold wf_id, id_xor. rewrite xor_bytes_length; auto. rewrite Ha, Hb. reflexivity.
  - apply of_be_xor. rewrite Ha, Hb. reflexivity.
Qed.

Lemma add_disjoint : forall a b, N.land a b = 0%N -> (a + b = N.lor a b)%N.
Proof. intros. rewrite N.add_nocarry_lxor, N.lxor_lor; auto. Qed.
Lemma land_ldiff_land : forall a b, N.land (N.ldiff a b) (N.land a b) = 0%N.
Proof.
  intros. apply N.bits_inj. intro n. rewrite !N.land_spec, N.ldiff_spec, N.bits_0.
  destruct (N.testbit a n), (N.testbit b n); reflexivity.
Qed.
Lemma ldiff_le_self : forall a b, (N.ldiff a b <= a)%N.
Proof.
  intros a b. pose proof (N.lor_ldiff_and a b) as H.
  rewrite <- add_disjoint in H by apply land_ldiff_land. lia.
Qed.
Lemma lxor_le_add : forall a b, (N.lxor a b <= a + b)%N.
Proof.
  intros a b.
  assert (H : N.lxor a b = (N.ldiff a b + N.ldiff b a)%N).
  { rewrite add_disjoint.
    - apply N.bits_inj. intro n. rewrite N.lxor_spec, N.lor_spec, !N.ldiff_spec.
      destruct (N.testbit a n), (N.testbit b n); reflexivity.
    - apply N.bits_inj. intro n. rewrite N.land_spec, !N.ldiff_spec, N.bits_0.
      destruct (N.testbit a n), (N.testbit b n); reflexivity. }
  pose proof (ldiff_le_self a b). pose proof (ldiff_le_self b a). lia.
Qed.

(** ordering *)
Lemma size_true : forall l, N.size (bits_val (true :: l)) = N.of_nat (S (length l)).
Proof.
  intro l. rewrite bits_val_cons. cbn [N.b2n]. pose proof (bits_val_lt l) as B.
  set (p := (2 ^ N.of_nat (length l))%N) in *.
  assert (p <> 0)%N by (apply N.pow_nonzero; lia).
  rewrite N.size_log2 by lia. rewrite (@N.log2_unique _ (N.of_nat (length l))); try lia.
  rewrite N.pow_succ_r'. fold p. lia.
Qed.
Lemma size_le_len : forall l, (N.size (bits_val l) <= N.of_nat (length l))%N.
Proof.
  induction l as [|[|] l IH]. simpl; lia.
  - rewrite size_true. cbn [length]. lia.
  - rewrite bits_val_cons. cbn [N.b2n length]. rewrite N.mul_0_l, N.add_0_l. lia.
Qed.
Lemma ord_bits_spec : forall l r, length l = length r ->
  ord_bits l r = N.compare (N.size (bits_val l)) (N.size (bits_val r)).
Proof.
  induction l as [|x l IH]; intros [|y r] H; try discriminate; [reflexivity|].
  injection H as H. cbn [ord_bits].
  assert (F : forall q, bits_val (false :: q) = bits_val q).
  { intro q. rewrite bits_val_cons. cbn [N.b2n]. lia. }
  destruct x, y; rewrite ?size_true, ?F.
  - rewrite H. symmetry. apply N.compare_refl.
  - symmetry. apply N.compare_gt_iff. pose proof (size_le_len r). lia.
  - symmetry. apply N.compare_lt_iff. pose proof (size_le_len l). lia.
  - apply IH. auto.
Qed.
Lemma id_cmp_spec : forall a b, wf_id a -> wf_id b ->
  id_cmp a b = N.compare (N.size (id_val a)) (N.size (id_val b)).
Proof.
  intros a b Ha Hb. unfold id_cmp. rewrite !bit_iter_spec by auto.
  rewrite ord_bits_spec by (rewrite !id_bits_length by auto; reflexivity).
  unfold id_bits, id_val. rewrite !bits_val_bits_of. reflexivity.
Qed.

(** population count *)
Lemma testbit_split : forall p a c n, (c < 2 ^ p)%N -> N.testbit (a * 2 ^ p + c) n =
     if (n <? p)%N then N.testbit c n else N.testbit a (n - p).
Proof.
  intros p a c n Hc. destruct (N.ltb_spec n p).
  - rewrite !N.testbit_eqb.
    replace p with (n + 1 + (p - n - 1))%N by lia. rewrite !N.pow_add_r, N.pow_1_r.
    replace (a * (2 ^ n * 2 * 2 ^ (p - n - 1)) + c)%N with (a * 2 ^ (p - n - 1) * 2 * 2 ^ n + c)%N by lia.
    rewrite N.div_add_l by (apply N.pow_nonzero; lia).
    rewrite N.add_comm, N.mod_add by lia. reflexivity.
  - rewrite !N.testbit_eqb.
    replace n with (p + (n - p))%N at 1 by lia. rewrite N.pow_add_r, <- N.div_div by (apply N.pow_nonzero; lia).
    rewrite N.div_add_l by (apply N.pow_nonzero; lia). rewrite (N.div_small c) by auto.
    rewrite N.add_0_r. reflexivity.
Qed.
Lemma land_lt : forall a m k, (m < 2 ^ k)%N -> (N.land a m < 2 ^ k)%N.
Proof.
  intros a m k H. assert (N.land a m = N.land a m mod 2 ^ k)%N as ->.
  { rewrite <- N.land_ones. rewrite <- N.land_assoc. f_equal. rewrite N.land_ones. symmetry. apply N.mod_small. auto. }
  apply N.mod_lt. apply N.pow_nonzero. lia.
Qed.
Lemma land_lane : forall k a b m mh, (a < 256)%N -> (k <= 8)%N -> (m < 2 ^ (8 - k))%N ->
  (N.land (N.shiftr (b * 256 + a) k) (mh * 256 + m) = N.land (N.shiftr b k) mh * 256 + N.land (N.shiftr a k) m)%N.
Proof.
  intros k a b m mh Ha Hk Hm. change 256%N with (2 ^ 8)%N in *.
  assert (Hm8 : (m < 2 ^ 8)%N).
  { eapply N.lt_le_trans. exact Hm. apply N.pow_le_mono_r; lia. }
  apply N.bits_inj. intro n. rewrite N.land_spec, N.shiftr_spec by lia.
  rewrite !testbit_split by (auto using land_lt).
  destruct (N.ltb_spec n 8) as [L|L].
  - rewrite N.land_spec, N.shiftr_spec by lia. destruct (N.ltb_spec (n + k) 8) as [L2|L2]; auto.
    assert (N.testbit m n = false) as ->.
    { rewrite N.testbit_eqb. rewrite N.div_small. reflexivity.
      eapply N.lt_le_trans. exact Hm. apply N.pow_le_mono_r; lia. }
    rewrite !andb_false_r. reflexivity.
  - replace (n + k <? 8)%N with false by (symmetry; apply N.ltb_ge; lia).
    rewrite N.land_spec, N.shiftr_spec by lia. replace (n + k - 8)%N with (n - 8 + k)%N by lia. reflexivity.
Qed.
Definition lanes (b0 b1 b2 b3 : N) : N := (((b3 * 256 + b2) * 256 + b1) * 256 + b0)%N.
Lemma land_lanes : forall k m b0 b1 b2 b3, (b0 < 256 -> b1 < 256 -> b2 < 256 -> b3 < 256 -> k <= 8 -> m < 2 ^ (8 - k) ->
  N.land (N.shiftr (lanes b0 b1 b2 b3) k) (lanes m m m m) =
  lanes (N.land (N.shiftr b0 k) m) (N.land (N.shiftr b1 k) m) (N.land (N.shiftr b2 k) m) (N.land (N.shiftr b3 k) m))%N.
Proof. intros. unfold lanes. rewrite !land_lane by auto. reflexivity. Qed.

Definition f1 (b : N) : N := (b - N.land (N.shiftr b 1) 0x55)%N.
Definition f2 (y : N) : N := (N.land y 0x33 + N.land (N.shiftr y 2) 0x33)%N.
Definition f3 (y : N) : N := ((y + y / 16) mod 16)%N.

Lemma f1_sweep : forall b, (N.land (N.shiftr (b2n b) 1) 0x55 <=? b2n b)%N = true.
Proof. apply sweep_bytes. vm_compute. reflexivity. Qed.
Lemma f2_sweep : forall b, (f2 (f1 (b2n b)) <=? 0x44)%N = true.
Proof. apply sweep_bytes. vm_compute. reflexivity. Qed.
Lemma f2_nib_sweep : forall b, (f2 (f1 (b2n b)) mod 16 <=? 4)%N = true.
Proof. apply sweep_bytes. vm_compute. reflexivity. Qed.
Lemma f3_sweep : forall b, N.to_nat (f3 (f2 (f1 (b2n b)))) = count_true (byte_bits b).
Proof. intro b. apply Nat.eqb_eq. revert b. apply sweep_bytes. vm_compute. reflexivity. Qed.

Lemma lanes_lt : forall a b c d k, (a < 2^k -> b < 2^k -> c < 2^k -> d < 2^k -> k <= 8 -> lanes a b c d < 2^32)%N.
Proof.
  intros. assert (2 ^ k <= 2 ^ 8)%N by (apply N.pow_le_mono_r; lia). change (2 ^ 8)%N with 256%N in *.
  change (2^32)%N with 4294967296%N. unfold lanes. lia.
Qed.

Lemma hamming_weight_spec : forall b0 b1 b2 b3,
  hamming_weight (lanes (b2n b0) (b2n b1) (b2n b2) (b2n b3)) =
  Val (N.of_nat (count_true (byte_bits b0) + count_true (byte_bits b1) + count_true (byte_bits b2) + count_true (byte_bits b3))).
Proof.
  intros b0 b1 b2 b3. unfold hamming_weight.
  change 0x55555555%N with (lanes 0x55 0x55 0x55 0x55).
  change 0x33333333%N with (lanes 0x33 0x33 0x33 0x33).
  change 0x0f0f0f0f%N with (lanes 15 15 15 15).
  rewrite land_lanes by (try apply b2n_lt; reflexivity || (change (2 ^ (8 - 1))%N with 128%N; lia)).
  assert (S1 : forall b, (N.land (N.shiftr (b2n b) 1) 0x55 <= b2n b)%N) by (intro b; apply N.leb_le, f1_sweep).
  pose proof (S1 b0) as A0. pose proof (S1 b1) as A1. pose proof (S1 b2) as A2. pose proof (S1 b3) as A3.
  set (y0 := f1 (b2n b0)). set (y1 := f1 (b2n b1)). set (y2 := f1 (b2n b2)). set (y3 := f1 (b2n b3)).
  assert (Y : (lanes (b2n b0) (b2n b1) (b2n b2) (b2n b3) -
     lanes (N.land (N.shiftr (b2n b0) 1) 0x55) (N.land (N.shiftr (b2n b1) 1) 0x55)
           (N.land (N.shiftr (b2n b2) 1) 0x55) (N.land (N.shiftr (b2n b3) 1) 0x55)
      = lanes y0 y1 y2 y3)%N).
  { unfold lanes, y0, y1, y2, y3, f1. lia. }
  unfold u32_sub.
  replace (lanes (N.land (N.shiftr (b2n b0) 1) 0x55) (N.land (N.shiftr (b2n b1) 1) 0x55)
           (N.land (N.shiftr (b2n b2) 1) 0x55) (N.land (N.shiftr (b2n b3) 1) 0x55)
      <=? lanes (b2n b0) (b2n b1) (b2n b2) (b2n b3))%N with true.
  2:{ symmetry. apply N.leb_le. unfold lanes. lia. }
  cbn [rbind]. rewrite Y.
  assert (L1 : forall b, (f1 (b2n b) < 256)%N).
  { intro b. pose proof (b2n_lt b). unfold f1. lia. }
  pose proof (L1 b0) as B0. pose proof (L1 b1) as B1. pose proof (L1 b2) as B2. pose proof (L1 b3) as B3.
  fold y0 in B0. fold y1 in B1. fold y2 in B2. fold y3 in B3.
  rewrite (@land_lanes 2 0x33 y0 y1 y2 y3) by (first [assumption | lia | reflexivity]).
  pose proof (@land_lanes 0 0x33 y0 y1 y2 y3 B0 B1 B2 B3 ltac:(lia) ltac:(reflexivity)) as LL.
  rewrite !N.shiftr_0_r in LL. rewrite LL.
  set (z0 := f2 y0). set (z1 := f2 y1). set (z2 := f2 y2). set (z3 := f2 y3).
  assert (ZS : forall b, (f2 (f1 (b2n b)) <= 0x44)%N) by (intro b; apply N.leb_le, f2_sweep).
  pose proof (ZS b0) as C0. pose proof (ZS b1) as C1. pose proof (ZS b2) as C2. pose proof (ZS b3) as C3.
  fold y0 z0 in C0. fold y1 z1 in C1. fold y2 z2 in C2. fold y3 z3 in C3.
  assert (ZN : forall b, (f2 (f1 (b2n b)) mod 16 <= 4)%N) by (intro b; apply N.leb_le, f2_nib_sweep).
  pose proof (ZN b0) as N0. pose proof (ZN b1) as N1. pose proof (ZN b2) as N2. pose proof (ZN b3) as N3.
  fold y0 z0 in N0. fold y1 z1 in N1. fold y2 z2 in N2. fold y3 z3 in N3.
  unfold u32_add at 1.
  assert (Z : (lanes (N.land y0 0x33) (N.land y1 0x33) (N.land y2 0x33) (N.land y3 0x33) +
    lanes (N.land (N.shiftr y0 2) 0x33) (N.land (N.shiftr y1 2) 0x33) (N.land (N.shiftr y2 2) 0x33) (N.land (N.shiftr y3 2) 0x33)
    = lanes z0 z1 z2 z3)%N).
  { unfold lanes, z0, z1, z2, z3, f2. lia. }
  rewrite Z. replace (lanes z0 z1 z2 z3 <? 2 ^ 32)%N with true.
  2:{ symmetry. apply N.ltb_lt. apply lanes_lt with (k := 7%N); change (2^7)%N with 128%N; lia. }
  cbn [rbind].
  assert (W : (lanes z0 z1 z2 z3 + N.shiftr (lanes z0 z1 z2 z3) 4 =
     lanes (z0 + z0 / 16 + 16 * (z1 mod 16)) (z1 + z1 / 16 + 16 * (z2 mod 16))
           (z2 + z2 / 16 + 16 * (z3 mod 16)) (z3 + z3 / 16))%N).
  { rewrite N.shiftr_div_pow2. change (2 ^ 4)%N with 16%N.
    rewrite <- (@N.div_unique (lanes z0 z1 z2 z3) 16
       (lanes (z0 / 16 + 16 * (z1 mod 16)) (z1 / 16 + 16 * (z2 mod 16)) (z2 / 16 + 16 * (z3 mod 16)) (z3 / 16))
       (z0 mod 16))%N.
    - unfold lanes. clear. lia.
    - apply N.mod_lt. lia.
    - pose proof (N.div_mod z0 16 ltac:(lia)) as D0. pose proof (N.div_mod z1 16 ltac:(lia)) as D1.
      pose proof (N.div_mod z2 16 ltac:(lia)) as D2. pose proof (N.div_mod z3 16 ltac:(lia)) as D3.
      generalize dependent (z0 / 16)%N. generalize dependent (z0 mod 16)%N. 
      generalize dependent (z1 / 16)%N. generalize dependent (z1 mod 16)%N. 
      generalize dependent (z2 / 16)%N. generalize dependent (z2 mod 16)%N. 
      generalize dependent (z3 / 16)%N. generalize dependent (z3 mod 16)%N.
      unfold lanes. clear. intros. lia. }
  unfold u32_add. rewrite W.
  match goal with |- context[(?a <? 2 ^ 32)%N] => replace (a <? 2 ^ 32)%N with true end.
  2:{ symmetry. apply N.ltb_lt. apply lanes_lt with (k := 8%N); change (2^8)%N with 256%N; lia. }
  cbn [rbind].
  match goal with |- context[N.land (lanes ?a ?b ?c ?d) _] =>
    pose proof (@land_lanes 0 15 a b c d ltac:(lia) ltac:(lia) ltac:(lia) ltac:(lia) ltac:(lia) ltac:(reflexivity)) as L4
  end.
  rewrite !N.shiftr_0_r in L4. rewrite L4.
  assert (M : forall x, N.land x 15 = (x mod 16)%N) by (intro x; apply (N.land_ones x 4)).
  rewrite !M.
  assert (E : forall z k, ((z + z / 16 + 16 * k) mod 16 = f3 z)%N).
  { intros z k. unfold f3. rewrite (N.mul_comm 16 k). rewrite N.mod_add by lia. reflexivity. }
  rewrite !E. fold (f3 z3). 
  pose proof (f3_sweep b0) as P0. pose proof (f3_sweep b1) as P1. pose proof (f3_sweep b2) as P2. pose proof (f3_sweep b3) as P3.
  fold y0 z0 in P0. fold y1 z1 in P1. fold y2 z2 in P2. fold y3 z3 in P3.
  pose proof (count_true_le (byte_bits b0)) as Q0. pose proof (count_true_le (byte_bits b1)) as Q1.
  pose proof (count_true_le (byte_bits b2)) as Q2. pose proof (count_true_le (byte_bits b3)) as Q3.
  rewrite byte_bits_length in *. rewrite <- P0 in *. rewrite <- P1 in *. rewrite <- P2 in *. rewrite <- P3 in *.
  clear P0 P1 P2 P3.
  generalize dependent (f3 z0). generalize dependent (f3 z1). generalize dependent (f3 z2). generalize dependent (f3 z3).
  clear. intros w3 Q3 w2 Q2 w1 Q1 w0 Q0. 
  rewrite N.shiftr_div_pow2. change (2^32)%N with 4294967296%N. change (2^24)%N with 16777216%N. f_equal.
  unfold lanes.
  rewrite <- (@N.mod_unique _ 4294967296 (w3 * 65536 + w3 * 256 + w3 + w2 * 256 + w2 + w1) 
     (w0 + 256 * (w0 + w1) + 65536 * (w0 + w1 + w2) + 16777216 * (w0 + w1 + w2 + w3)))%N by lia.
  lia.
Qed.

Lemma id_weight_spec : forall id, wf_id id -> id_weight id = Val (N.of_nat (count_true (id_bits id))).
Proof.
  intros id H. unfold wf_id, ID_LEN in H.
  do 20 (destruct id as [|? id]; [discriminate|]). destruct id; [|discriminate]. clear H.
  unfold id_weight, id_word.
  assert (G : forall a b c d, of_le [a; b; c; d] = lanes (b2n a) (b2n b) (b2n c) (b2n d)).
  { intros. unfold of_le, of_be, lanes. cbn [rev app fold_left]. lia. }
  cbn [firstn skipn Nat.mul Nat.add]. rewrite !G, !hamming_weight_spec. cbn [rbind].
  unfold id_bits, bits_of. cbn [flat_map]. rewrite !count_true_app. change (count_true []) with 0.
  repeat match goal with |- context[count_true (byte_bits ?b)] =>
    let Q := fresh "Q" in pose proof (count_true_le (byte_bits b)) as Q; rewrite byte_bits_length in Q;
    generalize dependent (count_true (byte_bits b)); intros end.
  unfold u32_add. change (2 ^ 32)%N with 4294967296%N.
  repeat (match goal with |- context[(?a <? 4294967296)%N] =>
    replace (a <? 4294967296)%N with true by (symmetry; apply N.ltb_lt; lia); cbn [rbind] end).
  f_equal. lia.
Qed.
