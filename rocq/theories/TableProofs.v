(** Proofs about the routing table. *)
From Coq Require Import List NArith ZArith Lia Bool Arith Permutation.
From Verif Require Import Base BitSpec IdModel IdProofs IdProps WireModel TableModel TableSpec.
Import ListNotations.
Set Implicit Arguments.

(** ** common prefix length *)
Lemma dist_lt : forall a b, wf_id a -> wf_id b -> (dist a b < 2 ^ 160)%N.
Proof.
  intros a b Ha Hb. unfold dist. pose proof (id_val_lt Ha) as La. pose proof (id_val_lt Hb) as Lb.
  destruct (N.eq_dec (N.lxor (id_val a) (id_val b)) 0) as [->|E]; [reflexivity|].
  apply N.log2_lt_pow2; [lia|].
  eapply N.le_lt_trans; [apply N.log2_lxor|].
  apply N.max_lub_lt.
  - destruct (N.eq_dec (id_val a) 0) as [->|]; [reflexivity|apply N.log2_lt_pow2; lia].
  - destruct (N.eq_dec (id_val b) 0) as [->|]; [reflexivity|apply N.log2_lt_pow2; lia].
Qed.
Lemma size_le160 : forall a b, wf_id a -> wf_id b -> (N.size (dist a b) <= 160)%N.
Proof.
  intros a b Ha Hb. pose proof (dist_lt Ha Hb) as L.
  destruct (N.eq_dec (dist a b) 0) as [->|E]; [simpl; lia|].
  rewrite N.size_log2 by auto. assert (N.log2 (dist a b) < 160)%N by (apply N.log2_lt_pow2; lia). lia.
Qed.
Lemma cpl_le : forall a b, cpl a b <= 160.
Proof. intros. unfold cpl. lia. Qed.
Lemma cpl_sym : forall a b, cpl a b = cpl b a.
Proof. intros. unfold cpl, dist. rewrite N.lxor_comm. reflexivity. Qed.
Lemma cpl_refl : forall a, cpl a a = 160.
Proof. intros. unfold cpl, dist. rewrite N.lxor_nilpotent. reflexivity. Qed.
Lemma cpl_unique : forall a b k, wf_id a -> wf_id b -> k < 160 ->
  N.testbit (id_val a) (N.of_nat (159 - k)) <> N.testbit (id_val b) (N.of_nat (159 - k)) ->
  (forall j, j < k -> N.testbit (id_val a) (N.of_nat (159 - j)) = N.testbit (id_val b) (N.of_nat (159 - j))) ->
  cpl a b = k.
Proof.
  intros a b k Ha Hb Hk Hd Hp. unfold cpl.
  assert (E : N.log2 (dist a b) = N.of_nat (159 - k)).
  { apply N.log2_bits_unique.
    - unfold dist. rewrite N.lxor_spec. destruct (N.testbit (id_val a) _), (N.testbit (id_val b) _); auto; congruence.
    - intros m Hm. destruct (N.lt_ge_cases m 160) as [L|L].
      + unfold dist. rewrite N.lxor_spec.
        specialize (Hp (159 - N.to_nat m)). replace (N.of_nat (159 - (159 - N.to_nat m))) with m in Hp by lia.
        rewrite Hp by lia. apply xorb_nilpotent.
      + apply N.bits_above_log2. pose proof (dist_lt Ha Hb).
        destruct (N.eq_dec (dist a b) 0) as [->|]; [simpl; lia|].
        apply N.lt_le_trans with 160%N; [apply N.log2_lt_pow2; lia|lia]. }
  assert (NZ : dist a b <> 0%N).
  { intro Z. apply Hd. unfold dist in Z. apply N.lxor_eq in Z. rewrite Z. reflexivity. }
  rewrite N.size_log2 by auto. rewrite E. lia.
Qed.
Lemma first_diff_cpl : forall a b, wf_id a -> wf_id b ->
  first_diff_bit_idx a b = if cpl a b <? 160 then Some (cpl a b) else None.
Proof.
  intros a b Ha Hb. destruct (C07_id_first_diff a b Ha Hb) as (N & S & _).
  destruct (first_diff_bit_idx a b) as [k|] eqn:E.
  - destruct (proj1 (S k) eq_refl) as (H1 & H2 & H3). rewrite (cpl_unique Ha Hb H1 H2 H3).
    apply Nat.ltb_lt in H1. rewrite H1. reflexivity.
  - assert (a = b) by tauto. subst. rewrite cpl_refl. reflexivity.
Qed.
Lemma cpl_160 : forall a b, wf_id a -> wf_id b -> cpl a b = 160 -> a = b.
Proof.
  intros a b Ha Hb H. pose proof (first_diff_cpl Ha Hb) as F. rewrite H in F. cbn in F.
  apply (C07_id_first_diff a b Ha Hb). exact F.
Qed.
(** Bits below the common prefix length agree, the next one differs. *)
Lemma cpl_bits : forall a b, wf_id a -> wf_id b ->
  (forall j, j < cpl a b -> get_bit a j = get_bit b j) /\
  (cpl a b < 160 -> exists v, get_bit a (cpl a b) = Val v /\ get_bit b (cpl a b) = Val (negb v)).
Proof.
  intros a b Ha Hb.
  assert (G : forall i x, wf_id x -> i < 160 -> get_bit x i = Val (N.testbit (id_val x) (N.of_nat (159 - i)))).
  { intros. apply C05_id_bit_access; auto. }
  pose proof (first_diff_cpl Ha Hb) as F. pose proof (cpl_le a b) as L. destruct (C07_id_first_diff a b Ha Hb) as (N & S & _).
  destruct (Nat.ltb_spec (cpl a b) 160) as [Q|Q].
  - apply S in F. destruct F as (F1 & F2 & F3). split.
    + intros j Hj. rewrite !G by (auto; lia). f_equal. apply F3. auto.
    + intros _. rewrite !G by auto. eexists. split; [reflexivity|]. f_equal.
      destruct (N.testbit (id_val a) _), (N.testbit (id_val b) _); auto; congruence.
  - apply N in F. subst. split; auto. lia.
Qed.
Lemma cpl_iff_bits : forall a b k, wf_id a -> wf_id b -> k < 160 ->
  (forall j, j < k -> get_bit a j = get_bit b j) -> get_bit a k <> get_bit b k -> cpl a b = k.
Proof.
  intros a b k Ha Hb Hk Hp Hd.
  assert (G : forall i x, wf_id x -> i < 160 -> get_bit x i = Val (N.testbit (id_val x) (N.of_nat (159 - i)))).
  { intros. apply C05_id_bit_access; auto. }
  apply cpl_unique; auto.
  - intro E. apply Hd. rewrite !G by auto. f_equal. auto.
  - intros j Hj. specialize (Hp j Hj). rewrite !G in Hp by (auto; lia). congruence.
Qed.
Lemma cpl_ge_bits : forall a b k, wf_id a -> wf_id b -> k <= 160 ->
  (forall j, j < k -> get_bit a j = get_bit b j) -> k <= cpl a b.
Proof.
  intros a b k Ha Hb Hk Hp. destruct (Nat.le_gt_cases k (cpl a b)) as [L|L]; auto.
  destruct (cpl_bits Ha Hb) as (_ & B). destruct B as (v & B1 & B2); [lia|].
  rewrite (Hp _ L), B2 in B1. injection B1. destruct v; discriminate.
Qed.
(** Ultrametric inequality, with equality when the two differ. *)
Lemma cpl_tri : forall a b c, wf_id a -> wf_id b -> wf_id c ->
  Nat.min (cpl a b) (cpl b c) <= cpl a c.
Proof.
  intros a b c Ha Hb Hc. apply cpl_ge_bits; auto.
  - pose proof (cpl_le a b). lia.
  - intros j Hj. transitivity (get_bit b j).
    + apply cpl_bits; auto; lia.
    + apply cpl_bits; auto; lia.
Qed.
Lemma cpl_tri_eq : forall a b c, wf_id a -> wf_id b -> wf_id c -> cpl a b < cpl b c -> cpl a c = cpl a b.
Proof.
  intros a b c Ha Hb Hc H. pose proof (cpl_tri Ha Hb Hc). pose proof (cpl_tri Ha Hc Hb).
  rewrite (cpl_sym c b) in *. lia.
Qed.

(** ** generic *)
Lemma position_some : forall A (p : A -> bool) l i, position p l = Some i ->
  exists x, nth_error l i = Some x /\ p x = true /\ forall y, In y (firstn i l) -> p y = false.
Proof.
  induction l as [|x l IH]; intros i H; [discriminate|]. cbn [position] in H.
  destruct (p x) eqn:P.
  - injection H as <-. exists x. repeat split; auto. intros y [].
  - destruct (position p l) as [k|] eqn:E; [|discriminate]. injection H as <-.
    destruct (IH k eq_refl) as (y & A1 & A2 & A3). exists y. repeat split; auto.
    intros z [<-|Hz]; auto.
Qed.
Lemma position_none : forall A (p : A -> bool) l, position p l = None -> forall y, In y l -> p y = false.
Proof.
  induction l as [|x l IH]; intros H y [].
  - subst. cbn [position] in H. destruct (p y); auto; discriminate.
  - cbn [position] in H. destruct (p x); [discriminate|]. destruct (position p l); [discriminate|]. auto.
Qed.
Lemma upd_split : forall A (l : list A) i x y, nth_error l i = Some x ->
  exists a b, l = a ++ x :: b /\ length a = i /\ upd l i y = a ++ y :: b.
Proof.
  intros A l i x y H. destruct (nth_error_split _ _ H) as (a & b & -> & L). exists a, b.
  repeat split; auto. rewrite upd_app_r by lia. rewrite L, Nat.sub_diag. reflexivity.
Qed.
Lemma flatten_app : forall a b, flatten (a ++ b) = flatten a ++ flatten b.
Proof. intros. apply flat_map_app. Qed.
Lemma flatten_some : forall n l, flatten (Some n :: l) = n :: flatten l.
Proof. reflexivity. Qed.
Lemma flatten_none : forall l, flatten (None :: l) = flatten l.
Proof. reflexivity. Qed.
Lemma flatten_len : forall l, length (flatten l) <= length l.
Proof. induction l as [|[n|] l IH]; rewrite ?flatten_some, ?flatten_none; cbn [length]; auto. lia. Qed.
Lemma flatten_full : forall l, (forall s, In s l -> vacant s = false) -> length (flatten l) = length l.
Proof.
  induction l as [|[n|] l IH]; intros H; rewrite ?flatten_some, ?flatten_none; cbn [length]; auto.
  - f_equal. apply IH. intros. apply H. right. auto.
  - specialize (H None (or_introl eq_refl)). discriminate.
Qed.
Lemma in_flatten : forall l n, In n (flatten l) <-> In (Some n) l.
Proof.
  induction l as [|[m|] l IH]; intros n; rewrite ?flatten_some, ?flatten_none; cbn [In]; [tauto| |].
  - rewrite IH. split; intros [H|H]; auto; left; congruence.
  - rewrite IH. split; intros H; auto. destruct H as [H|H]; [discriminate|auto].
Qed.
Lemma count_perm : forall A (p : A -> bool) l l', Permutation l l' -> count p l = count p l'.
Proof.
  intros A p l l' H. unfold count. induction H; cbn; auto; try congruence.
  - destruct (p x); cbn; congruence.
  - destruct (p x), (p y); reflexivity.
Qed.
Lemma count_app : forall A (p : A -> bool) a b, count p (a ++ b) = count p a + count p b.
Proof. intros. unfold count. rewrite filter_app, app_length. reflexivity. Qed.
Lemma count_le : forall A (p : A -> bool) l, count p l <= length l.
Proof. intros. unfold count. induction l; cbn; auto. destruct (p a); cbn; lia. Qed.
Lemma count_none : forall A (p : A -> bool) l, (forall x, In x l -> p x = false) -> count p l = 0.
Proof.
  intros A p l H. unfold count. induction l as [|x l IH]; cbn; auto. rewrite (H x (or_introl eq_refl)).
  apply IH. intros. apply H. right. auto.
Qed.
Lemma count_all : forall A (p : A -> bool) l, (forall x, In x l -> p x = true) -> count p l = length l.
Proof.
  intros A p l H. unfold count. induction l as [|x l IH]; cbn; auto. rewrite (H x (or_introl eq_refl)). cbn. f_equal.
  apply IH. intros. apply H. right. auto.
Qed.
Lemma count_ext : forall A (p q : A -> bool) l, (forall x, In x l -> p x = q x) -> count p l = count q l.
Proof.
  intros A p q l H. unfold count. f_equal. induction l as [|x l IH]; cbn; auto.
  rewrite (H x (or_introl eq_refl)), IH; auto. intros. apply H. right. auto.
Qed.
Lemma count_lt : forall A (p : A -> bool) l x, In x l -> p x = false -> count p l < length l.
Proof.
  intros A p l x H P. apply in_split in H. destruct H as (a & b & ->). rewrite count_app, app_length.
  unfold count at 2. cbn [filter]. rewrite P. fold (count p b). cbn [length].
  pose proof (count_le p a). pose proof (count_le p b). lia.
Qed.

(** ** buckets *)
Definition wf_slots (b : bucket) : Prop := length (b_data b) = K_NODE_PER_BUCKET.
Lemma id_eqb_eq : forall a b, id_eqb a b = true <-> a = b.
Proof. intros. apply bytes_eqb_eq. Qed.
Lemma find_none_iff : forall id l, find (slot_has id) l = None <-> ~ In id (map n_id (flatten l)).
Proof.
  induction l as [|[n|] l IH]; rewrite ?flatten_some, ?flatten_none; cbn [find slot_has map In].
  - cbn. tauto.
  - destruct (id_eqb (n_id n) id) eqn:E.
    + apply id_eqb_eq in E. split; [discriminate|]. intro H. exfalso. apply H. left. auto.
    + rewrite IH. split; intros H; [intros [F|F]; auto|].
      * apply id_eqb_eq in F. congruence.
      * intro F. apply H. right. auto.
  - exact IH.
Qed.
Lemma get_node_none : forall b id, get_node b id = None <-> ~ In id (map n_id (iter_nodes b)).
Proof.
  intros b id. unfold get_node, iter_nodes. rewrite <- find_none_iff.
  destruct (find (slot_has id) (b_data b)) as [s|] eqn:E; [|tauto].
  apply find_some in E. destruct E as (_ & E). destruct s; [split; discriminate|discriminate].
Qed.
Lemma get_node_some : forall b id n, get_node b id = Some n -> In n (iter_nodes b) /\ n_id n = id.
Proof.
  intros b id n H. unfold get_node in H. destruct (find (slot_has id) (b_data b)) as [s|] eqn:E; [|discriminate].
  subst s. apply find_some in E. destruct E as (E1 & E2). split. apply in_flatten. auto.
  apply id_eqb_eq. auto.
Qed.
Lemma touch_first_spec : forall now id l, In id (map n_id (flatten l)) ->
  exists a n b, flatten l = a ++ n :: b /\ n_id n = id /\ ~ In id (map n_id a) /\
    flatten (touch_first now id l) = a ++ touch now n :: b.
Proof.
  intros now id. induction l as [|[m|] l IH]; intros H; [destruct H| |].
  - cbn [touch_first slot_has]. destruct (id_eqb (n_id m) id) eqn:E.
    + exists [], m, (flatten l). apply id_eqb_eq in E. repeat split; auto.
    + destruct H as [H|H]. apply id_eqb_eq in H. change (id_eqb (n_id m) id = true) in H. congruence.
      destruct (IH H) as (a & n & b & A1 & A2 & A3 & A4). exists (m :: a), n, b.
      change (flatten (Some m :: l)) with (m :: flatten l).
      change (flatten (Some m :: touch_first now id l)) with (m :: flatten (touch_first now id l)).
      rewrite A1, A4. repeat split; auto. intros [F|F]; auto. apply id_eqb_eq in F. congruence.
  - exact (IH H).
Qed.
Lemma touch_first_length : forall now id l, length (touch_first now id l) = length l.
Proof. intros. induction l as [|s l IH]; cbn; auto. destruct (slot_has id s); cbn; auto. Qed.

(** What inserting into one bucket does. *)
Inductive bins (now : N) (id : ID) (a : addr) (ns : list node) : option (list node) -> Prop :=
| Bins_touch : forall s1 n s2, ns = s1 ++ n :: s2 -> n_id n = id -> bins now id a ns (Some (s1 ++ touch now n :: s2))
| Bins_add : forall s1 s2, ns = s1 ++ s2 -> ~ In id (map n_id ns) -> length ns < 8 ->
    bins now id a ns (Some (s1 ++ new_good now id a :: s2))
| Bins_replace : forall s1 n s2, ns = s1 ++ n :: s2 -> ~ In id (map n_id ns) -> length ns = 8 -> good now n = false ->
    bins now id a ns (Some (s1 ++ new_good now id a :: s2))
| Bins_full : ~ In id (map n_id ns) -> length ns = 8 -> (forall n, In n ns -> good now n = true) -> bins now id a ns None.

Lemma replaceable_spec : forall now b, wf_slots b ->
  match replaceable_idx now b with
  | Some i => exists s, nth_error (b_data b) i = Some s /\
      ((s = None /\ length (iter_nodes b) < 8) \/ (exists n, s = Some n /\ good now n = false /\ length (iter_nodes b) = 8))
  | None => length (iter_nodes b) = 8 /\ forall n, In n (iter_nodes b) -> good now n = true
  end.
Proof.
  intros now b W. unfold replaceable_idx. unfold wf_slots in W. unfold K_NODE_PER_BUCKET in W.
  destruct (position vacant (b_data b)) as [i|] eqn:V.
  - apply position_some in V. destruct V as (s & H1 & H2 & _). exists s. split; auto. left.
    destruct s as [n|]; [discriminate|]. split; auto.
    destruct (nth_error_split _ _ H1) as (x & y & E & _). unfold iter_nodes.
    rewrite E in *. rewrite flatten_app, app_length in *. rewrite flatten_none. cbn [length] in *.
    pose proof (flatten_len x) as Q1. pose proof (flatten_len y) as Q2. lia.
  - pose proof (position_none _ _ V) as F. pose proof (flatten_full _ F) as FL. fold (iter_nodes b) in FL. rewrite W in FL.
    destruct (position (fun s => negb (good_slot now s)) (b_data b)) as [i|] eqn:G.
    + apply position_some in G. destruct G as (s & H1 & H2 & _). exists s. split; auto. right.
      destruct s as [n|].
      * exists n. repeat split; auto. apply negb_true_iff in H2. exact H2.
      * apply nth_error_In in H1. specialize (F _ H1). discriminate.
    + split; auto. intros n Hn. apply in_flatten in Hn. pose proof (position_none _ _ G _ Hn) as P.
      apply negb_false_iff in P. exact P.
Qed.
Lemma is_full_spec : forall now b, wf_slots b ->
  is_full now b = true <-> count (good now) (iter_nodes b) = 8.
Proof.
  intros now b W. pose proof (replaceable_spec now W) as R. unfold is_full.
  destruct (replaceable_idx now b) as [i|].
  - split; [discriminate|]. intro C. exfalso. destruct R as (s & H & [[-> L]|(n & -> & G & L)]).
    + pose proof (count_le (good now) (iter_nodes b)). lia.
    + assert (In n (iter_nodes b)) by (apply in_flatten; eapply nth_error_In; eauto).
      pose proof (@count_lt _ (good now) _ _ H0 G). lia.
  - split; auto. intros _. destruct R as (R1 & R2). rewrite count_all; auto.
Qed.
Lemma count_le8 : forall now b, wf_slots b -> count (good now) (iter_nodes b) <= 8.
Proof.
  intros. pose proof (count_le (good now) (iter_nodes b)). pose proof (flatten_len (b_data b)).
  unfold wf_slots, K_NODE_PER_BUCKET, iter_nodes in *. lia.
Qed.

Lemma b_try_insert_spec : forall now id a b, wf_slots b ->
  match b_try_insert now id a b with
  | Val b' => wf_slots b' /\ b_depth b' = b_depth b /\ bins now id a (iter_nodes b) (Some (iter_nodes b'))
  | Fail => bins now id a (iter_nodes b) None
  | Panic => False
  end.
Proof.
  intros now id a b W. unfold b_try_insert.
  destruct (get_node b id) as [n0|] eqn:G.
  - split; [|split]; auto. unfold wf_slots; cbn. rewrite touch_first_length. exact W.
    assert (I : In id (map n_id (iter_nodes b))).
    { destruct (in_dec bytes_eq_dec id (map n_id (iter_nodes b))) as [I|I]; auto. apply get_node_none in I. congruence. }
    destruct (touch_first_spec now _ _ I) as (s1 & n & s2 & A1 & A2 & A3 & A4).
    unfold iter_nodes at 2. cbn [b_data]. rewrite A4. eapply Bins_touch; eauto.
  - apply get_node_none in G. pose proof (replaceable_spec now W) as R.
    destruct (replaceable_idx now b) as [i|].
    + destruct R as (s & H1 & H2). destruct (@upd_split _ _ _ _ (Some (new_good now id a)) H1) as (x & y & E & L & U).
      split; [|split]; auto. unfold wf_slots; cbn. rewrite upd_length. exact W.
      unfold iter_nodes at 2. cbn [b_data]. rewrite U, flatten_app.
      change (flatten (Some (new_good now id a) :: y)) with (new_good now id a :: flatten y).
      destruct H2 as [[-> LL]|(n & -> & GN & LL)].
      * eapply Bins_add; auto. unfold iter_nodes. rewrite E, flatten_app. reflexivity.
      * eapply Bins_replace; eauto. unfold iter_nodes. rewrite E, flatten_app. reflexivity.
    + destruct R. apply Bins_full; auto.
Qed.

(** ** splitting a bucket *)
Definition padded (l : list node) : list (option node) := map Some l ++ repeat None (K_NODE_PER_BUCKET - length l).
Lemma flatten_padded : forall l, flatten (padded l) = l.
Proof.
  intros. unfold padded. rewrite flatten_app.
  replace (flatten (repeat None _)) with (@nil node).
  - rewrite app_nil_r. induction l; cbn; auto. f_equal. auto.
  - induction (K_NODE_PER_BUCKET - length l); auto.
Qed.
Lemma padded_length : forall l, length l <= 8 -> length (padded l) = 8.
Proof. intros. unfold padded. rewrite app_length, map_length, repeat_length. unfold K_NODE_PER_BUCKET. lia. Qed.
Lemma put_padded : forall l n, length l < 8 -> put (padded l) (length l) (Some n) = Val (padded (l ++ [n])).
Proof.
  intros l n H. unfold put. rewrite padded_length by lia. destruct (Nat.ltb_spec (length l) 8); [|lia].
  f_equal. unfold padded. rewrite upd_app_r by (rewrite map_length; lia). rewrite map_length, Nat.sub_diag.
  rewrite map_app, app_length, <- app_assoc. f_equal. cbn [map length app].
  unfold K_NODE_PER_BUCKET. replace (8 - length l) with (S (8 - (length l + 1))) by lia. reflexivity.
Qed.
Definition bit_of (id : ID) (d : nat) : bool := match get_bit id d with Val b => b | _ => false end.
Lemma get_bit_of : forall id d, wf_id id -> d < 160 -> get_bit id d = Val (bit_of id d).
Proof.
  intros id d W H. unfold bit_of. destruct (C05_id_bit_access id d W) as (A & _). destruct (A H) as (-> & _). reflexivity.
Qed.
Lemma split_loop_spec : forall d ns zs os, d < 160 -> (forall n, In n ns -> wf_id (n_id n)) ->
  length ns + length zs + length os <= 8 ->
  split_loop d ns (padded zs) (padded os) (length zs) (length os) =
  Val (padded (zs ++ filter (fun n => negb (bit_of (n_id n) d)) ns), padded (os ++ filter (fun n => bit_of (n_id n) d) ns)).
Proof.
  intros d ns. induction ns as [|n ns IH]; intros zs os Hd W L; cbn [split_loop filter].
  - rewrite !app_nil_r. reflexivity.
  - cbn [length] in L. rewrite get_bit_of by (auto; apply W; left; auto).
    assert (W' : forall m, In m ns -> wf_id (n_id m)) by (intros; apply W; right; auto).
    destruct (bit_of (n_id n) d).
    + rewrite put_padded by lia. cbn [rbind negb].
      replace (S (length os)) with (length (os ++ [n])) by (rewrite app_length; cbn; lia).
      rewrite IH by (auto; rewrite app_length; cbn; lia). rewrite <- app_assoc. reflexivity.
    + rewrite put_padded by lia. cbn [rbind negb].
      replace (S (length zs)) with (length (zs ++ [n])) by (rewrite app_length; cbn; lia).
      rewrite IH by (auto; rewrite app_length; cbn; lia). rewrite <- app_assoc. reflexivity.
Qed.
Lemma b_split_spec : forall b, wf_slots b -> b_depth b < 160 -> (forall n, In n (iter_nodes b) -> wf_id (n_id n)) ->
  b_split b = Val (mk_bucket (S (b_depth b)) (padded (filter (fun n => negb (bit_of (n_id n) (b_depth b))) (iter_nodes b))),
                   mk_bucket (S (b_depth b)) (padded (filter (fun n => bit_of (n_id n) (b_depth b)) (iter_nodes b)))).
Proof.
  intros b W D N. unfold b_split. change (repeat None K_NODE_PER_BUCKET) with (padded []).
  change 0 with (@length node []) at 1 2. rewrite split_loop_spec; auto.
  pose proof (flatten_len (b_data b)). unfold wf_slots, K_NODE_PER_BUCKET in W. fold (iter_nodes b) in H. cbn. lia.
Qed.
