(** Invariant of the routing table and what touching a node does. *)
From Coq Require Import List NArith ZArith Lia Bool Arith Permutation.
From Verif Require Import Base BitSpec IdModel IdProofs IdProps WireModel TableModel TableSpec TableProofs.
Import ListNotations.
Set Implicit Arguments.

Record inv (t : table) : Prop := {
  i_own : wf_id (t_own t);
  i_len : 1 <= n_buckets t <= 161;
  i_bkt : forall i b, nth_error (t_data t) i = Some b ->
    wf_slots b /\ b_depth b = (if i =? n_buckets t - 1 then i else S i) /\
    forall n, In n (iter_nodes b) -> wf_id (n_id n) /\ home t (n_id n) = i;
  i_nodup : NoDup (map n_id (t_nodes t)) }.

Lemma inv_default : forall own, wf_id own -> inv (t_default own).
Proof.
  intros own W. split; auto.
  - cbn. lia.
  - intros i b H. destruct i as [|i]; [|destruct i; discriminate]. injection H as <-.
    split; [reflexivity|]. split; [reflexivity|]. intros n [].
  - constructor.
Qed.

Lemma find_idx : forall t id, inv t -> wf_id id -> find_bucket_idx t id = Val (home t id).
Proof.
  intros t id I W. unfold find_bucket_idx, home, n_buckets. pose proof (i_len I) as L. unfold n_buckets in L.
  destruct (t_data t) as [|b l] eqn:E; [cbn in L; lia|]. rewrite <- E in *.
  rewrite (first_diff_cpl (i_own I) W). pose proof (cpl_le (t_own t) id).
  destruct (Nat.ltb_spec (cpl (t_own t) id) 160).
  - destruct (Nat.leb_spec (length (t_data t)) (cpl (t_own t) id)); f_equal; lia.
  - f_equal. lia.
Qed.
Lemma home_lt : forall t id, inv t -> home t id < n_buckets t.
Proof. intros t id I. pose proof (i_len I). unfold home. lia. Qed.
Lemma home_bucket : forall t id, inv t -> exists b, nth_error (t_data t) (home t id) = Some b.
Proof.
  intros t id I. pose proof (home_lt id I). destruct (nth_error (t_data t) (home t id)) eqn:E; eauto.
  apply nth_error_None in E. unfold n_buckets in *. lia.
Qed.

Lemma in_nodes : forall t n, In n (t_nodes t) <-> exists i b, nth_error (t_data t) i = Some b /\ In n (iter_nodes b).
Proof.
  intros t n. unfold t_nodes. rewrite in_flat_map. split.
  - intros (b & H1 & H2). apply In_nth_error in H1. destruct H1 as (i & H1). eauto.
  - intros (i & b & H1 & H2). exists b. split; auto. eapply nth_error_In; eauto.
Qed.
Lemma in_home : forall t n, inv t -> In n (t_nodes t) -> In n (bucket_nodes t (home t (n_id n))) /\ wf_id (n_id n).
Proof.
  intros t n I H. apply in_nodes in H. destruct H as (i & b & H1 & H2).
  destruct (i_bkt I _ H1) as (_ & _ & B). destruct (B n H2) as (B1 & B2). rewrite B2. unfold bucket_nodes. rewrite H1. auto.
Qed.
Lemma in_bucket : forall t n i, In n (bucket_nodes t i) -> In n (t_nodes t).
Proof.
  intros t n i H. unfold bucket_nodes in H. destruct (nth_error (t_data t) i) eqn:E; [|destruct H].
  apply in_nodes. eauto.
Qed.
Lemma bucket_home : forall t n i, inv t -> In n (bucket_nodes t i) -> home t (n_id n) = i.
Proof.
  intros t n i I H. unfold bucket_nodes in H. destruct (nth_error (t_data t) i) eqn:E; [|destruct H].
  apply (i_bkt I _ E). auto.
Qed.
Lemma known_home : forall t id b, inv t -> nth_error (t_data t) (home t id) = Some b ->
  (known t id <-> In id (map n_id (iter_nodes b))).
Proof.
  intros t id b I H. unfold known. rewrite !in_map_iff. split; intros (n & H1 & H2); exists n; split; auto.
  - subst id. apply in_home in H2; auto. unfold bucket_nodes in H2. rewrite H in H2. tauto.
  - apply in_nodes. eauto.
Qed.
Lemma nodes_at : forall t i b b', nth_error (t_data t) i = Some b ->
  exists P Q, t_nodes t = P ++ iter_nodes b ++ Q /\
    t_nodes (mk_table (t_own t) (upd (t_data t) i b')) = P ++ iter_nodes b' ++ Q.
Proof.
  intros t i b b' H. destruct (@upd_split _ _ _ _ b' H) as (x & y & E & _ & U).
  exists (flat_map iter_nodes x), (flat_map iter_nodes y). unfold t_nodes. cbn [t_data]. rewrite U, E.
  rewrite !flat_map_app. cbn [flat_map]. auto.
Qed.

(** Counting nodes of one bucket over the whole table. *)
Lemma filter_none : forall A (p : A -> bool) l, (forall x, In x l -> p x = false) -> filter p l = [].
Proof. induction l as [|x l IH]; intros H; cbn; auto. rewrite (H x (or_introl eq_refl)). apply IH. intros. apply H. right. auto. Qed.
Lemma filter_all : forall A (p : A -> bool) l, (forall x, In x l -> p x = true) -> filter p l = l.
Proof. induction l as [|x l IH]; intros H; cbn; auto. rewrite (H x (or_introl eq_refl)). f_equal. apply IH. intros. apply H. right. auto. Qed.
Lemma filter_home : forall t i, inv t -> filter (fun n => home t (n_id n) =? i) (t_nodes t) = bucket_nodes t i.
Proof.
  intros t i I. unfold bucket_nodes. destruct (nth_error (t_data t) i) as [b|] eqn:E.
  - destruct (nth_error_split _ _ E) as (x & y & D & L). unfold t_nodes. rewrite D, flat_map_app. cbn [flat_map].
    assert (G : forall j c, nth_error (t_data t) j = Some c -> forall n, In n (iter_nodes c) -> (home t (n_id n) =? i) = (j =? i)).
    { intros j c Hj n Hn. destruct (i_bkt I _ Hj) as (_ & _ & B). destruct (B n Hn) as (_ & ->). reflexivity. }
    assert (OFF : forall c, In c x -> forall n, In n (iter_nodes c) -> (home t (n_id n) =? i) = false).
    { intros c Hc n Hn. destruct (In_nth_error _ _ Hc) as (j & Hj). assert (j < length x) by (apply nth_error_Some; congruence).
      rewrite (G j c) by (auto; rewrite D, nth_error_app1; auto). apply Nat.eqb_neq. lia. }
    assert (OFF2 : forall c, In c y -> forall n, In n (iter_nodes c) -> (home t (n_id n) =? i) = false).
    { intros c Hc n Hn. destruct (In_nth_error _ _ Hc) as (j & Hj).
      rewrite (G (length x + S j) c); auto. apply Nat.eqb_neq. lia.
      rewrite D, nth_error_app2 by lia. replace (length x + S j - length x) with (S j) by lia. exact Hj. }
    rewrite !filter_app. rewrite (@filter_none _ _ (flat_map iter_nodes x)), (@filter_none _ _ (flat_map iter_nodes y)), app_nil_r.
    + apply filter_all. intros n Hn. rewrite (G i b E n Hn). apply Nat.eqb_refl.
    + intros n Hn. apply in_flat_map in Hn. destruct Hn as (c & C1 & C2). eauto.
    + intros n Hn. apply in_flat_map in Hn. destruct Hn as (c & C1 & C2). eauto.
  - apply filter_none. intros n Hn. apply in_nodes in Hn. destruct Hn as (j & b & H1 & H2).
    destruct (i_bkt I _ H1) as (_ & _ & B). destruct (B n H2) as (_ & ->). apply Nat.eqb_neq. intros ->. congruence.
Qed.
Lemma count_home : forall t i p, inv t ->
  count (fun n => (home t (n_id n) =? i) && p n) (t_nodes t) = count p (bucket_nodes t i).
Proof.
  intros t i p I. rewrite <- (filter_home i I). unfold count. f_equal.
  induction (t_nodes t) as [|n l IH]; cbn [filter]; auto.
  destruct (home t (n_id n) =? i); cbn [andb filter]; [destruct (p n)|]; congruence.
Qed.

(** ** effect of one touch *)
Inductive effect (now : N) (id : ID) (a : addr) (t t' : table) : Prop :=
| Eff_touch : forall n r, n_id n = id -> Permutation (t_nodes t) (n :: r) -> Permutation (t_nodes t') (touch now n :: r) ->
    effect now id a t t'
| Eff_add : ~ known t id -> Permutation (t_nodes t') (new_good now id a :: t_nodes t) -> effect now id a t t'
| Eff_replace : forall n r, ~ known t id -> Permutation (t_nodes t) (n :: r) -> good now n = false ->
    Permutation (t_nodes t') (new_good now id a :: r) ->
    length (bucket_nodes t' (home t' id)) = 8 -> home t' (n_id n) = home t' id -> effect now id a t t'
| Eff_refuse : ~ known t id -> Permutation (t_nodes t') (t_nodes t) ->
    length (bucket_nodes t' (home t' id)) = 8 -> (forall n, In n (bucket_nodes t' (home t' id)) -> good now n = true) ->
    effect now id a t t'.

Lemma perm_mid : forall A (P Q s1 s2 : list A) x, Permutation (P ++ (s1 ++ x :: s2) ++ Q) (x :: P ++ (s1 ++ s2) ++ Q).
Proof.
  intros. replace (P ++ (s1 ++ x :: s2) ++ Q) with ((P ++ s1) ++ x :: (s2 ++ Q)).
  2:{ rewrite <- !app_assoc. reflexivity. }
  eapply perm_trans; [symmetry; apply Permutation_middle|]. rewrite <- !app_assoc. reflexivity.
Qed.

(** Updating the home bucket. *)
Lemma upd_inv : forall now id a t b b', inv t -> wf_id id -> nth_error (t_data t) (home t id) = Some b ->
  wf_slots b' -> b_depth b' = b_depth b -> bins now id a (iter_nodes b) (Some (iter_nodes b')) ->
  let t' := mk_table (t_own t) (upd (t_data t) (home t id) b') in
  inv t' /\ n_buckets t' = n_buckets t /\ effect now id a t t' /\ known t' id.
Proof.
  intros now id a t b b' I W H WS D B t'.
  assert (NB : n_buckets t' = n_buckets t) by (unfold n_buckets, t'; cbn [t_data]; apply upd_length).
  assert (HM : forall x, home t' x = home t x) by (intro x; unfold home; rewrite NB; reflexivity).
  assert (BN : bucket_nodes t' (home t id) = iter_nodes b').
  { unfold bucket_nodes, t'. cbn [t_data]. rewrite nth_error_upd_same; auto.
    apply nth_error_Some. congruence. }
  destruct (nodes_at t _ b' H) as (P & Q & N1 & N2). fold t' in N2.
  destruct (i_bkt I _ H) as (W1 & W2 & W3).
  assert (MEM : forall n, In n (iter_nodes b') -> wf_id (n_id n) /\ home t (n_id n) = home t id).
  { intros n Hn. inversion B as [s1 m s2 E1 E2 E3|s1 s2 E1 E2 E3 E4|s1 m s2 E1 E2 E3 E4 E5|]; subst; rewrite <- ?E3, <- ?E4, <- ?E5 in Hn.
    - apply in_app_or in Hn. destruct Hn as [Hn|[Hn|Hn]].
      + apply W3. rewrite E1. apply in_or_app. auto.
      + subst n. cbn [touch n_id]. split; auto.
      + apply W3. rewrite E1. apply in_or_app. right. right. auto.
    - apply in_app_or in Hn. destruct Hn as [Hn|[Hn|Hn]].
      + apply W3. rewrite E1. apply in_or_app. auto.
      + subst n. cbn [new_good n_id]. split; auto.
      + apply W3. rewrite E1. apply in_or_app. right. auto.
    - apply in_app_or in Hn. destruct Hn as [Hn|[Hn|Hn]].
      + apply W3. rewrite E1. apply in_or_app. auto.
      + subst n. cbn [new_good n_id]. split; auto.
      + apply W3. rewrite E1. apply in_or_app. right. right. auto. }
  assert (EFF : effect now id a t t').
  { inversion B as [s1 m s2 E1 E2 E3|s1 s2 E1 E2 E3 E4|s1 m s2 E1 E2 E3 E4 E5|]; subst.
    - apply Eff_touch with (n := m) (r := P ++ (s1 ++ s2) ++ Q); auto.
      + rewrite N1, E1. apply perm_mid.
      + rewrite N2, <- E3. apply perm_mid.
    - apply Eff_add.
      + rewrite (known_home id I H). auto.
      + rewrite N2, <- E4, N1, E1. apply perm_mid.
    - apply Eff_replace with (n := m) (r := P ++ (s1 ++ s2) ++ Q); auto.
      + rewrite (known_home id I H). auto.
      + rewrite N1, E1. apply perm_mid.
      + rewrite N2, <- E5. apply perm_mid.
      + rewrite HM, BN, <- E5. rewrite E1 in E3. rewrite !app_length in *. cbn [length] in *. auto.
      + rewrite !HM. apply W3. rewrite E1. apply in_or_app. right. left. auto. }
  assert (KN : known t' id).
  { unfold known. rewrite N2, !map_app, !in_app_iff. right. left.
    inversion B as [s1 m s2 E1 E2 E3|s1 s2 E1 E2 E3 E4|s1 m s2 E1 E2 E3 E4 E5|]; subst;
      rewrite <- ?E3, <- ?E4, <- ?E5, map_app, in_app_iff; right; left; auto. }
  split; [|auto]. split.
  - exact (i_own I).
  - rewrite NB. exact (i_len I).
  - intros i c Hc. unfold t' in Hc. cbn [t_data] in Hc. rewrite NB.
    destruct (Nat.eq_dec i (home t id)) as [->|NE].
    + rewrite nth_error_upd_same in Hc by (apply nth_error_Some; congruence). injection Hc as <-.
      split; auto. split. congruence. intros n Hn. rewrite HM. auto.
    + rewrite nth_error_upd_other in Hc by auto. destruct (i_bkt I _ Hc) as (X1 & X2 & X3).
      split; auto. split; auto. intros n Hn. rewrite HM. auto.
  - pose proof (i_nodup I) as ND. destruct EFF as [n r E1 E2 E3|E1 E2|n r E1 E2 E3 E4 E5 E6|E1 E2 E3 E4].
    + eapply Permutation_NoDup; [apply Permutation_map; symmetry; exact E3|]. cbn [map touch n_id].
      change (n_id n :: map n_id r) with (map n_id (n :: r)).
      eapply Permutation_NoDup; [apply Permutation_map; exact E2|auto].
    + eapply Permutation_NoDup; [apply Permutation_map; symmetry; exact E2|]. cbn [map new_good n_id].
      constructor; auto.
    + eapply Permutation_NoDup; [apply Permutation_map; symmetry; exact E4|]. cbn [map new_good n_id].
      assert (ND' : NoDup (map n_id (n :: r))) by (eapply Permutation_NoDup; [apply Permutation_map; exact E2|auto]).
      cbn [map] in ND'. inversion ND'; subst. constructor; auto. intro F. apply E1. unfold known.
      eapply Permutation_in; [apply Permutation_map; symmetry; exact E2|]. right. auto.
    + eapply Permutation_NoDup; [apply Permutation_map; symmetry; exact E2|auto].
Qed.

(** ** splitting *)
Lemma filter_perm : forall A (p : A -> bool) l, Permutation (filter p l ++ filter (fun x => negb (p x)) l) l.
Proof.
  induction l as [|x l IH]; cbn; auto. destruct (p x); cbn.
  - constructor. auto.
  - eapply perm_trans; [symmetry; apply Permutation_middle|]. constructor. auto.
Qed.
Lemma bit_agree : forall a b d, wf_id a -> wf_id b -> d < 160 -> d <= cpl a b ->
  (bit_of a d = bit_of b d -> S d <= cpl a b) /\ (bit_of a d <> bit_of b d -> cpl a b = d).
Proof.
  intros a b d Ha Hb Hd L. destruct (cpl_bits Ha Hb) as (B1 & B2). split; intro E.
  - destruct (Nat.eq_dec d (cpl a b)) as [X|X]; [|lia]. exfalso.
    destruct B2 as (v & V1 & V2); [lia|]. unfold bit_of in E. rewrite <- X in *. rewrite V1, V2 in E. destruct v; discriminate.
  - apply cpl_iff_bits; auto.
    + intros. apply B1. lia.
    + intro F. apply E. unfold bit_of. rewrite F. reflexivity.
Qed.
Lemma split_inv : forall t, inv t -> n_buckets t <= 160 ->
  exists t', t_split t = Val t' /\ inv t' /\ t_own t' = t_own t /\ n_buckets t' = S (n_buckets t) /\
    Permutation (t_nodes t') (t_nodes t).
Proof.
  intros t I L. pose proof (i_len I) as LL. unfold n_buckets in *.
  assert (D : t_data t <> []) by (intro E; rewrite E in LL; cbn in LL; lia).
  destruct (exists_last D) as (A & b & E). set (d := length A).
  assert (NL : length (t_data t) = S d) by (rewrite E, app_length; cbn; unfold d; lia).
  assert (Hb : nth_error (t_data t) d = Some b).
  { rewrite E, nth_error_app2 by (unfold d; lia). unfold d. rewrite Nat.sub_diag. reflexivity. }
  destruct (i_bkt I _ Hb) as (W1 & W2 & W3). unfold n_buckets in W2. rewrite NL in W2.
  replace (S d - 1) with d in W2 by lia. rewrite Nat.eqb_refl in W2.
  assert (CB : forall n, In n (iter_nodes b) -> wf_id (n_id n) /\ d <= cpl (t_own t) (n_id n)).
  { intros n Hn. destruct (W3 n Hn) as (X1 & X2). split; auto. unfold home, n_buckets in X2. lia. }
  unfold t_split. rewrite E, rev_app_distr. cbn [rev app].
  rewrite b_split_spec; auto; [|rewrite W2; lia|intros; apply CB; auto]. cbn [rbind fst snd].
  rewrite W2. unfold bit_based_order. rewrite (get_bit_of (i_own I)) by lia.
  set (zb := mk_bucket (S d) (padded (filter (fun n => negb (bit_of (n_id n) d)) (iter_nodes b)))).
  set (ob := mk_bucket (S d) (padded (filter (fun n => bit_of (n_id n) d) (iter_nodes b)))).
  set (mine := if bit_of (t_own t) d then ob else zb). set (other := if bit_of (t_own t) d then zb else ob).
  exists (mk_table (t_own t) (A ++ [other; mine])).
  split. { rewrite removelast_last. destruct (bit_of (t_own t) d); reflexivity. }
  assert (ZN : iter_nodes zb = filter (fun n => negb (bit_of (n_id n) d)) (iter_nodes b)) by apply flatten_padded.
  assert (ON : iter_nodes ob = filter (fun n => bit_of (n_id n) d) (iter_nodes b)) by apply flatten_padded.
  assert (B8 : length (iter_nodes b) <= 8).
  { pose proof (flatten_len (b_data b)) as Q. unfold wf_slots, K_NODE_PER_BUCKET in W1. fold (iter_nodes b) in Q. lia. }
  assert (F8 : forall p, length (filter p (iter_nodes b)) <= 8).
  { intro p. pose proof (count_le p (iter_nodes b)). unfold count in *. lia. }
  assert (ZW : wf_slots zb) by (apply padded_length; apply F8).
  assert (OW : wf_slots ob) by (apply padded_length; apply F8).
  assert (MN : forall n, In n (iter_nodes mine) -> In n (iter_nodes b) /\ bit_of (n_id n) d = bit_of (t_own t) d).
  { intros n Hn. unfold mine in Hn. destruct (bit_of (t_own t) d); rewrite ?ZN, ?ON in Hn; apply filter_In in Hn; destruct Hn; split; auto.
    apply negb_true_iff. auto. }
  assert (OTN : forall n, In n (iter_nodes other) -> In n (iter_nodes b) /\ bit_of (n_id n) d <> bit_of (t_own t) d).
  { intros n Hn. unfold other in Hn. destruct (bit_of (t_own t) d); rewrite ?ZN, ?ON in Hn; apply filter_In in Hn; destruct Hn as (X & Y); split; auto.
    - apply negb_true_iff in Y. congruence.
    - congruence. }
  assert (PB : Permutation (iter_nodes other ++ iter_nodes mine) (iter_nodes b)).
  { unfold other, mine. destruct (bit_of (t_own t) d); rewrite ZN, ON.
    - eapply perm_trans; [apply Permutation_app_comm|]. apply (filter_perm (fun n => bit_of (n_id n) d)).
    - apply (filter_perm (fun n => bit_of (n_id n) d)). }
  assert (PERM : Permutation (t_nodes (mk_table (t_own t) (A ++ [other; mine]))) (t_nodes t)).
  { unfold t_nodes. cbn [t_data]. rewrite E, !flat_map_app. cbn [flat_map]. rewrite !app_nil_r.
    apply Permutation_app_head. exact PB. }
  assert (NB : length (A ++ [other; mine]) = S (S d)) by (rewrite app_length; cbn; unfold d; lia).
  split; [|split; [reflexivity|split; [cbn [t_data]; rewrite NB, <- E, NL; reflexivity|exact PERM]]].
  split.
  - exact (i_own I).
  - unfold n_buckets. cbn [t_data]. rewrite NB. lia.
  - intros i c Hc. cbn [t_data] in Hc. unfold home, n_buckets. cbn [t_data t_own]. rewrite NB.
    replace (S (S d) - 1) with (S d) by lia.
    destruct (Nat.lt_ge_cases i d) as [Q|Q].
    + rewrite nth_error_app1 in Hc by auto.
      assert (Hc' : nth_error (t_data t) i = Some c) by (rewrite E, nth_error_app1; auto).
      destruct (i_bkt I _ Hc') as (X1 & X2 & X3). unfold n_buckets in X2. rewrite NL in X2.
      replace (S d - 1) with d in X2 by lia. split; auto. split.
      { destruct (Nat.eqb_spec i d); [lia|]. destruct (Nat.eqb_spec i (S d)); [lia|]. auto. }
      intros n Hn. destruct (X3 n Hn) as (Y1 & Y2). split; auto. unfold home, n_buckets in Y2. rewrite NL in Y2. lia.
    + rewrite nth_error_app2 in Hc by auto. fold d in Hc.
      destruct (i - d) as [|[|k]] eqn:K; cbn in Hc.
      * injection Hc as <-. assert (i = d) by lia. subst i. split. unfold other; destruct (bit_of (t_own t) d); auto. split.
        { destruct (Nat.eqb_spec d (S d)); [lia|]. unfold other; destruct (bit_of (t_own t) d); reflexivity. }
        intros n Hn. destruct (OTN n Hn) as (X & Y). destruct (CB n X) as (Z1 & Z2). split; auto.
        destruct (@bit_agree (t_own t) (n_id n) d (i_own I) Z1 ltac:(lia) Z2) as (_ & G). rewrite G by congruence. lia.
      * injection Hc as <-. assert (i = S d) by lia. subst i. split. unfold mine; destruct (bit_of (t_own t) d); auto. split.
        { rewrite Nat.eqb_refl. unfold mine; destruct (bit_of (t_own t) d); reflexivity. }
        intros n Hn. destruct (MN n Hn) as (X & Y). destruct (CB n X) as (Z1 & Z2). split; auto.
        destruct (@bit_agree (t_own t) (n_id n) d (i_own I) Z1 ltac:(lia) Z2) as (G & _). specialize (G (eq_sym Y)). lia.
      * destruct k; discriminate.
  - eapply Permutation_NoDup; [apply Permutation_map; symmetry; exact PERM|]. apply (i_nodup I).
Qed.

(** ** inserting *)
Definition rivals (now : N) (t : table) (id : ID) (n : node) : bool :=
  good now n && (if cpl (t_own t) id <? n_buckets t - 1 then cpl (t_own t) (n_id n) =? cpl (t_own t) id
                 else cpl (t_own t) id <=? cpl (t_own t) (n_id n)).

Lemma effect_perm : forall now id a t t1 t', Permutation (t_nodes t1) (t_nodes t) -> effect now id a t1 t' -> effect now id a t t'.
Proof.
  intros now id a t t1 t' P E.
  assert (K : known t1 id <-> known t id).
  { unfold known. split; apply Permutation_in; apply Permutation_map; auto. symmetry; auto. }
  destruct E as [n r E1 E2 E3|E1 E2|n r E1 E2 E3 E4 E5 E6|E1 E2 E3 E4].
  - eapply Eff_touch; eauto. rewrite <- P. auto.
  - apply Eff_add; [tauto|]. rewrite E2. constructor. auto.
  - eapply Eff_replace; eauto; [tauto|]. rewrite <- P. auto.
  - apply Eff_refuse; auto; [tauto|]. rewrite E2. auto.
Qed.

Lemma count_mono : forall A (p q : A -> bool) l, (forall x, In x l -> p x = true -> q x = true) -> count p l <= count q l.
Proof.
  intros A p q l H. unfold count. induction l as [|x l IH]; cbn; auto.
  assert (IH' := IH (fun y Hy => H y (or_intror Hy))). specialize (H x (or_introl eq_refl)).
  destruct (p x); [rewrite H by auto; cbn; lia|]. destruct (q x); cbn; lia.
Qed.

(** The rivals of an id in its own bucket. *)
Lemma rivals_bucket : forall now t id b, inv t -> nth_error (t_data t) (home t id) = Some b ->
  count (rivals now t id) (t_nodes t) <= count (good now) (iter_nodes b) /\
  (cpl (t_own t) id <= n_buckets t - 1 -> count (rivals now t id) (t_nodes t) = count (good now) (iter_nodes b)).
Proof.
  intros now t id b I H. pose proof (count_home (home t id) (good now) I) as C. unfold bucket_nodes in C. rewrite H in C.
  rewrite <- C. split.
  - apply count_mono. intros n Hn R. unfold rivals in R. apply andb_true_iff in R. destruct R as (R1 & R2).
    rewrite R1, andb_true_r. apply Nat.eqb_eq. unfold home.
    destruct (Nat.ltb_spec (cpl (t_own t) id) (n_buckets t - 1)).
    + apply Nat.eqb_eq in R2. lia.
    + apply Nat.leb_le in R2. lia.
  - intro L. apply count_ext. intros n Hn. unfold rivals. rewrite andb_comm. f_equal. unfold home.
    destruct (Nat.ltb_spec (cpl (t_own t) id) (n_buckets t - 1));
      [destruct (Nat.eqb_spec (cpl (t_own t) (n_id n)) (cpl (t_own t) id))|
       destruct (Nat.leb_spec (cpl (t_own t) id) (cpl (t_own t) (n_id n)))]; symmetry;
      [apply Nat.eqb_eq|apply Nat.eqb_neq|apply Nat.eqb_eq|apply Nat.eqb_neq]; lia.
Qed.

Lemma splittable : forall t id, inv t -> wf_id id ->
  id_within_splittable t id = Val (n_buckets t - 1 <? cpl (t_own t) id) \/
  (cpl (t_own t) id = 160 /\ n_buckets t = 161 /\ id_within_splittable t id = Val true).
Proof.
  intros t id I W. pose proof (i_len I) as LL. unfold n_buckets in LL.
  assert (D : t_data t <> []) by (intro E; rewrite E in LL; cbn in LL; lia).
  destruct (exists_last D) as (A & b & E).
  assert (NL : length (t_data t) = S (length A)) by (rewrite E, app_length; cbn; lia).
  assert (Hb : nth_error (t_data t) (length A) = Some b).
  { rewrite E, nth_error_app2 by lia. rewrite Nat.sub_diag. reflexivity. }
  destruct (i_bkt I _ Hb) as (_ & W2 & _). unfold n_buckets in *. rewrite NL in *.
  replace (S (length A) - 1) with (length A) in * by lia. rewrite Nat.eqb_refl in W2.
  unfold id_within_splittable. rewrite E, rev_app_distr. cbn [rev app]. unfold id_within_bucket_range.
  rewrite W2, (first_diff_cpl (i_own I) W). pose proof (cpl_le (t_own t) id).
  destruct (Nat.ltb_spec (cpl (t_own t) id) 160).
  - left. reflexivity.
  - destruct (Nat.ltb_spec (length A) (cpl (t_own t) id)).
    + left. reflexivity.
    + right. repeat split; lia.
Qed.

(** At most one node shares all 160 bits. *)
Lemma own_alone : forall t b, inv t -> nth_error (t_data t) 160 = Some b -> length (iter_nodes b) <= 1.
Proof.
  intros t b I H. pose proof (i_nodup I) as ND.
  assert (NB : n_buckets t = 161).
  { pose proof (i_len I). assert (160 < length (t_data t)) by (apply nth_error_Some; congruence). unfold n_buckets in *. lia. }
  destruct (i_bkt I _ H) as (_ & _ & B).
  assert (G : forall n, In n (iter_nodes b) -> n_id n = t_own t).
  { intros n Hn. destruct (B n Hn) as (X & Y). unfold home in Y. rewrite NB in Y. symmetry. apply cpl_160; auto. apply (i_own I).
    pose proof (cpl_le (t_own t) (n_id n)). lia. }
  destruct (@nodes_at t _ _ b H) as (P & Q & N & _). rewrite N, !map_app in ND.
  assert (ND2 : NoDup (map n_id (iter_nodes b) ++ map n_id Q)).
  { clear -ND. induction P as [|x P IH]; cbn in ND; auto. inversion ND; auto. }
  clear ND. rename ND2 into ND.
  destruct (iter_nodes b) as [|x [|y l]]; cbn; auto. exfalso. cbn [map app] in ND. inversion ND; subst.
  apply H2. left. rewrite (G x), (G y); auto. right. left. auto. left. auto.
Qed.

Theorem insert_spec : forall fuel now id a t, inv t -> wf_id id -> 162 - n_buckets t <= fuel ->
  exists t', insert_new_good fuel now id a t = Val t' /\ inv t' /\ t_own t' = t_own t /\ n_buckets t <= n_buckets t' /\
    effect now id a t t' /\
    (known t' id <-> known t id \/ count (rivals now t id) (t_nodes t) < 8) /\
    (n_buckets t < n_buckets t' -> cpl (t_own t) id >= n_buckets t' - 1).
Proof.
  induction fuel as [|fuel IH]; intros now id a t I W F.
  { pose proof (i_len I). lia. }
  destruct (home_bucket id I) as (b & Hb). destruct (i_bkt I _ Hb) as (WS & WD & WN).
  cbn [insert_new_good]. unfold t_try_insert. rewrite (find_idx I W). cbn [rbind]. rewrite Hb.
  pose proof (b_try_insert_spec now id a WS) as BS. destruct (b_try_insert now id a b) as [b'| |] eqn:TI; [| |destruct BS].
  - destruct BS as (X1 & X2 & X3). destruct (@upd_inv now id a t b b' I W Hb X1 X2 X3) as (Y1 & Y2 & Y3 & Y4).
    cbn [rbind]. eexists. split; [reflexivity|]. split; [exact Y1|]. split; [reflexivity|]. split; [lia|]. split; [exact Y3|].
    split; [|lia]. split; [|auto]. intros _.
    inversion X3 as [s1 m s2 E1 E2 E3|s1 s2 E1 E2 E3 E4|s1 m s2 E1 E2 E3 E4 E5|]; subst.
    + left. apply (known_home _ I Hb). rewrite E1, map_app, in_app_iff. right. left. auto.
    + right. destruct (rivals_bucket now _ I Hb) as (R & _). pose proof (count_le (good now) (iter_nodes b)). lia.
    + right. destruct (rivals_bucket now _ I Hb) as (R & _).
      assert (In m (iter_nodes b)) by (rewrite E1; apply in_or_app; right; left; auto).
      pose proof (@count_lt _ (good now) _ _ H E4). lia.
  - cbn [rbind]. inversion BS as [| | |E1 E2 E3]; subst.
    assert (NK : ~ known t id) by (rewrite (known_home _ I Hb); auto).
    assert (CG : count (good now) (iter_nodes b) = 8) by (rewrite count_all; auto).
    assert (REF : effect now id a t t).
    { apply Eff_refuse; auto; unfold bucket_nodes; rewrite Hb; auto. }
    destruct (splittable I W) as [SP|(C160 & B161 & SP)]; rewrite SP; cbn [rbind].
    + destruct (Nat.ltb_spec (n_buckets t - 1) (cpl (t_own t) id)) as [Q|Q]; cbn [negb].
      * pose proof (cpl_le (t_own t) id). unfold max_depth_reached. fold (n_buckets t).
        destruct (Nat.eqb_spec (n_buckets t) MAX_BUCKETS) as [M|M]; [unfold MAX_BUCKETS in M; lia|].
        pose proof (i_len I) as LL. unfold MAX_BUCKETS in M.
        destruct (split_inv I) as (t1 & T1 & T2 & T3 & T4 & T5); [lia|]. rewrite T1. cbn [rbind].
        destruct (IH now id a t1 T2 W) as (t' & R1 & R2 & R3 & R4 & R5 & R6 & R7); [lia|].
        exists t'. split; auto. split; auto. split; [congruence|]. split; [lia|]. split; [eapply effect_perm; eauto|]. split.
        -- rewrite R6.
           assert (KK : known t1 id <-> known t id).
           { unfold known. split; apply Permutation_in; apply Permutation_map; auto. symmetry; auto. }
           rewrite KK. rewrite (count_perm _ T5).
           replace (count (rivals now t1 id) (t_nodes t)) with (count (rivals now t id) (t_nodes t)); [tauto|].
           apply count_ext. intros n _. unfold rivals. rewrite T3, T4.
           destruct (Nat.ltb_spec (cpl (t_own t) id) (n_buckets t - 1)); [lia|].
           destruct (Nat.ltb_spec (cpl (t_own t) id) (S (n_buckets t) - 1)); [lia|]. reflexivity.
        -- intros _. rewrite T3 in R7. destruct (Nat.eq_dec (n_buckets t1) (n_buckets t')) as [EQ|NE].
           ++ rewrite <- EQ, T4. lia.
           ++ apply R7. lia.
      * exists t. split; [reflexivity|]. split; [exact I|]. split; [reflexivity|]. split; [lia|]. split; [exact REF|]. split; [|lia].
        split; [tauto|]. intros [K|K]; [tauto|]. destruct (rivals_bucket now _ I Hb) as (_ & R). rewrite R in K by lia. lia.
    + exfalso. assert (home t id = 160) by (unfold home; lia). rewrite H in Hb.
      pose proof (own_alone I Hb). lia.
Qed.

Theorem touch_spec : forall now id a t, inv t -> wf_id id ->
  exists t', touch_node now id a t = Val t' /\ inv t' /\ t_own t' = t_own t /\ n_buckets t <= n_buckets t' /\
    effect now id a t t' /\
    (known t' id <-> known t id \/ count (rivals now t id) (t_nodes t) < 8) /\
    (n_buckets t < n_buckets t' -> cpl (t_own t) id >= n_buckets t' - 1).
Proof.
  intros now id a t I W. unfold touch_node. rewrite (find_idx I W). cbn [rbind].
  destruct (home_bucket id I) as (b & Hb). rewrite Hb. destruct (get_node b id) as [n0|] eqn:G.
  - destruct (i_bkt I _ Hb) as (WS & WD & WN).
    pose proof (b_try_insert_spec now id a WS) as BS. unfold b_try_insert in BS. rewrite G in BS.
    destruct BS as (X1 & X2 & X3). destruct (@upd_inv now id a t b _ I W Hb X1 X2 X3) as (Y1 & Y2 & Y3 & Y4).
    eexists. split; [reflexivity|]. split; [exact Y1|]. split; [reflexivity|]. split; [lia|]. split; [exact Y3|].
    split; [|lia]. split; [|auto]. intros _. left. apply (known_home _ I Hb). apply get_node_some in G. destruct G as (G1 & G2).
    apply in_map_iff. eauto.
  - apply insert_spec; auto. unfold MAX_BUCKETS. pose proof (i_len I). lia.
Qed.

Lemma run_spec : forall h t, inv t -> Forall (fun e => wf_id (te_id e)) h ->
  exists t', run t h = Val t' /\ inv t' /\ t_own t' = t_own t.
Proof.
  induction h as [|e h IH]; intros t I F; cbn [run]; [eauto|]. inversion F; subst.
  destruct (@touch_spec (te_now e) (te_id e) (te_addr e) t I H1) as (t1 & -> & I1 & O1 & _). cbn [rbind].
  destruct (IH t1 I1 H2) as (t' & R1 & R2 & R3). exists t'. split; [auto|]. split; [auto|]. congruence.
Qed.
(** A touch invents no node. *)
Lemma touch_origin : forall now id a t t' n, inv t -> wf_id id -> touch_node now id a t = Val t' -> In n (t_nodes t') ->
  (n_id n = id /\ n_addr n = a) \/ exists m, In m (t_nodes t) /\ n_id m = n_id n /\ n_addr m = n_addr n.
Proof.
  intros now id a t t' n I W T Hn. destruct (@touch_spec now id a t I W) as (t1 & T1 & _ & _ & _ & EFF & _).
  rewrite T in T1. injection T1 as <-. destruct EFF as [m r E1 E2 E3|E1 E2|m r E1 E2 E3 E4 E5 E6|E1 E2 E3 E4].
  - apply (Permutation_in _ E3) in Hn. right. destruct Hn as [<-|Hn].
    + exists m. split; [eapply Permutation_in; [symmetry; exact E2|left; auto]|auto].
    + exists n. split; [eapply Permutation_in; [symmetry; exact E2|right; auto]|auto].
  - apply (Permutation_in _ E2) in Hn. destruct Hn as [<-|Hn]; [left; auto|right; eauto].
  - apply (Permutation_in _ E4) in Hn. destruct Hn as [<-|Hn]; [left; auto|right].
    exists n. split; [eapply Permutation_in; [symmetry; exact E2|right; auto]|auto].
  - right. exists n. split; auto. rewrite <- E3 || rewrite <- E2 || rewrite <- E1 || idtac; auto.
Qed.
Lemma flatten_unseen : forall l, flatten (map (option_map unseen) l) = map unseen (flatten l).
Proof. induction l as [|[n|] l IH]; [reflexivity| |exact IH]. cbn [map option_map]. rewrite !flatten_some. cbn [map]. f_equal. exact IH. Qed.
Lemma iter_forget : forall b, iter_nodes (mk_bucket (b_depth b) (map (option_map unseen) (b_data b))) = map unseen (iter_nodes b).
Proof. intro b. unfold iter_nodes. cbn [b_data]. apply flatten_unseen. Qed.
Lemma nodes_forget : forall t, t_nodes (forget t) = map unseen (t_nodes t).
Proof.
  intro t. unfold t_nodes, forget. cbn [t_data]. induction (t_data t) as [|b l IH]; [reflexivity|].
  cbn [map flat_map]. rewrite iter_forget, map_app, IH. reflexivity.
Qed.
Lemma inv_forget : forall t, inv t -> inv (forget t).
Proof.
  intros t I. assert (NB : n_buckets (forget t) = n_buckets t) by (unfold n_buckets, forget; cbn [t_data]; apply map_length).
  split.
  - exact (i_own I).
  - rewrite NB. exact (i_len I).
  - intros i b H. unfold forget in H. cbn [t_data] in H. rewrite nth_error_map in H.
    destruct (nth_error (t_data t) i) as [c|] eqn:C; [|discriminate]. injection H as <-.
    destruct (i_bkt I _ C) as (W1 & W2 & W3). split; [unfold wf_slots in *; cbn [b_data]; rewrite map_length; exact W1|].
    rewrite NB. split; [exact W2|]. intros n Hn. rewrite iter_forget in Hn. apply in_map_iff in Hn. destruct Hn as (m & <- & M).
    cbn [unseen n_id]. destruct (W3 m M) as (A & B). split; auto. unfold home in *. rewrite NB. exact B.
  - rewrite nodes_forget, map_map. cbn [unseen n_id]. exact (i_nodup I).
Qed.
Lemma reachable_inv : forall t, reachable t -> inv t.
Proof.
  intros t R. induction R as [own W|t e t' R IH (W & _) T|t R IH]; [apply inv_default; auto| |apply inv_forget; auto].
  destruct (@touch_spec (te_now e) (te_id e) (te_addr e) t IH W) as (t1 & T1 & I1 & _). congruence.
Qed.
Lemma run_reachable : forall h t t', reachable t -> Forall wf_touch h -> run t h = Val t' -> reachable t'.
Proof.
  induction h as [|e h IH]; intros t t' R F H; cbn [run] in H; [congruence|]. destruct (Forall_inv F) as (W1 & W2).
  destruct (touch_node (te_now e) (te_id e) (te_addr e) t) as [t1| |] eqn:T; try discriminate. cbn [rbind] in H.
  apply (IH t1 t'); auto; [|eapply Forall_inv_tail; eauto]. eapply rc_touch; eauto. split; auto.
Qed.
Lemma reach_run : forall own h t, wf_id own -> Forall wf_touch h -> run (t_default own) h = Val t -> reachable t.
Proof. intros own h t W F H. eapply run_reachable; eauto. apply rc_new; auto. Qed.
Lemma reachable_addrs : forall t, reachable t -> forall n, In n (t_nodes t) -> wf_addr (n_addr n).
Proof.
  intros t R. induction R as [own W|t e t' R IH (W & A) T|t R IH]; intros n Hn.
  - destruct Hn.
  - destruct (@touch_origin _ _ _ _ _ n (reachable_inv R) W T Hn) as [(_ & ->)|(m & M & _ & <-)]; auto.
  - rewrite nodes_forget in Hn. apply in_map_iff in Hn. destruct Hn as (m & <- & M). cbn [unseen n_addr]. auto.
Qed.
