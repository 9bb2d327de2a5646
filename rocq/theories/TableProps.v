(** C44-C47, C49, C71: the routing table. *)
From Coq Require Import List NArith ZArith Lia Bool Arith Permutation Sorted.
From Coq Require Import Init.Byte.
From Verif Require Import Base BitSpec IdModel IdProofs IdProps WireModel TableModel TableSpec TableProofs TableProofs2.
Import ListNotations.
Set Implicit Arguments.

(** sample ids and addresses *)
Definition sid (a b : N) : ID := n2b a :: n2b b :: repeat x00 18.
Definition sad (k : N) : addr := mk_addr x0a x00 x00 (n2b k) 6881.
Definition ev (now : N) (a b : N) : touch_ev := mk_touch now (sid a b) (sad b).
Lemma wf_sid : forall a b, wf_id (sid a b). Proof. reflexivity. Qed.
Ltac wfh := repeat constructor.

(** ** C44 *)
Theorem C44_total : forall own h, wf_id own -> Forall (fun e => wf_id (te_id e)) h ->
  exists t, run (t_default own) h = Val t /\ t_own t = own.
Proof.
  intros own h W F. destruct (@run_spec h (t_default own) (inv_default W) F) as (t & R & _ & O). eauto.
Qed.
(** Also after restarts. *)
Theorem C44_total_restarts : forall t h, reachable t -> Forall wf_touch h ->
  exists t', run t h = Val t' /\ t_own t' = t_own t /\ reachable t'.
Proof.
  intros t h R F. destruct (@run_spec h t (reachable_inv R)) as (t' & H & _ & O).
  { eapply Forall_impl; [|exact F]. intros e (W & _). exact W. }
  exists t'. split; [exact H|]. split; [exact O|]. eapply run_reachable; eauto.
Qed.
Theorem C44_structure : forall t, reachable t ->
  1 <= n_buckets t <= 161 /\
  NoDup (map n_id (t_nodes t)) /\
  (forall n, In n (t_nodes t) <-> exists i, i < n_buckets t /\ In n (bucket_nodes t i)) /\
  (forall i, length (bucket_nodes t i) <= 8) /\
  (forall i n, In n (bucket_nodes t i) -> i = Nat.min (cpl (t_own t) (n_id n)) (n_buckets t - 1)).
Proof.
  intros t R. apply reachable_inv in R. rename R into I. split; [exact (i_len I)|]. split; [exact (i_nodup I)|]. split; [|split].
  - intro n. split.
    + intro H. exists (home t (n_id n)). split; [apply home_lt; auto|]. apply in_home; auto.
    + intros (i & _ & H). eapply in_bucket; eauto.
  - intro i. unfold bucket_nodes. destruct (nth_error (t_data t) i) as [b|] eqn:E; [|cbn; lia].
    destruct (i_bkt I _ E) as (W & _). pose proof (flatten_len (b_data b)). unfold wf_slots, K_NODE_PER_BUCKET in W. unfold iter_nodes. lia.
  - intros i n H. symmetry. exact (bucket_home _ _ I H).
Qed.
(** Membership queries see exactly the known nodes. *)
Theorem C44_contains : forall t id, reachable t -> wf_id id ->
  exists b, contains_node t id = Val b /\ (b = true <-> known t id).
Proof.
  intros t id R W. apply reachable_inv in R. rename R into I. unfold contains_node, get_bucket. rewrite (find_idx I W). cbn [rbind].
  destruct (home_bucket id I) as (b & Hb). rewrite Hb. cbn [rmap]. eexists. split; [reflexivity|].
  rewrite (known_home _ I Hb). destruct (get_node b id) as [n|] eqn:G.
  - split; auto. intros _. apply get_node_some in G. destruct G as (G1 & G2). apply in_map_iff. eauto.
  - split; [discriminate|]. intro H. apply get_node_none in G. tauto.
Qed.
Example C44_example : exists t, run (t_default (sid 0 0))
    (map (fun k => ev 5 (9 - k) k) [0; 1; 2; 3; 4; 5; 6; 7; 8]%N) = Val t /\
  n_buckets t = 6 /\ map (fun i => length (bucket_nodes t i)) (seq 0 6) = [0; 0; 0; 0; 2; 7].
Proof. eexists. split; [vm_compute; reflexivity|]. split; vm_compute; reflexivity. Qed.

(** ** C45 *)
Definition others (id : ID) (t : table) : list node := filter (fun n => negb (id_eqb (n_id n) id)) (t_nodes t).
Lemma perm_filter : forall A (p : A -> bool) l l', Permutation l l' -> Permutation (filter p l) (filter p l').
Proof.
  intros A p l l' H. induction H; cbn; auto; try (destruct (p x); auto).
  - destruct (p y); auto. apply perm_swap.
  - eapply perm_trans; eauto.
Qed.
Lemma id_eqb_refl : forall a, id_eqb a a = true.
Proof. intro. apply id_eqb_eq. reflexivity. Qed.
Theorem C45_no_good_evicted : forall now id a t, reachable t -> wf_id id -> exists t' dropped,
  touch_node now id a t = Val t' /\
  Permutation (others id t) (dropped ++ others id t') /\
  length dropped <= 1 /\
  (forall n, In n dropped -> fresh now n = false /\ ~ known t id /\ In (mk_node id a (Some now)) (t_nodes t') /\
     length (bucket_nodes t' (home t' id)) = 8 /\ home t' (n_id n) = home t' id) /\
  (known t id -> exists n, In n (t_nodes t) /\ n_id n = id /\ In (mk_node id (n_addr n) (Some now)) (t_nodes t')) /\
  (~ known t id -> known t' id -> In (mk_node id a (Some now)) (t_nodes t')).
Proof.
  change fresh with good.
  intros now id a t R W. apply reachable_inv in R. rename R into I.
  destruct (@touch_spec now id a t I W) as (t' & T & I' & O & NB & EFF & KN & _).
  assert (NO : forall n : node, n_id n = id -> negb (id_eqb (n_id n) id) = false) by (intros n ->; rewrite id_eqb_refl; reflexivity).
  assert (YES : forall l, ~ In id (map n_id l) -> filter (fun n => negb (id_eqb (n_id n) id)) l = l).
  { intros l H. apply filter_all. intros n Hn. apply negb_true_iff. destruct (id_eqb (n_id n) id) eqn:E; auto.
    apply id_eqb_eq in E. exfalso. apply H. apply in_map_iff. eauto. }
  destruct EFF as [n r E1 E2 E3|E1 E2|n r E1 E2 E3 E4 E5 E6|E1 E2 E3 E4].
  - exists t', []. split; auto. split.
    { unfold others. rewrite (perm_filter _ E2), (perm_filter _ E3). cbn [filter touch n_id app].
      rewrite NO by auto. reflexivity. }
    split; [cbn; lia|]. split; [intros ? []|].
    assert (K : known t id). { unfold known. eapply Permutation_in; [apply Permutation_map; symmetry; exact E2|]. left. auto. }
    split; [|tauto]. intros _. exists n. split; [eapply Permutation_in; [symmetry; exact E2|]; left; auto|]. split; auto.
    eapply Permutation_in; [symmetry; exact E3|]. left. unfold touch. congruence.
  - exists t', []. split; auto. split.
    { unfold others. rewrite (perm_filter _ E2). cbn [filter new_good n_id app]. rewrite id_eqb_refl. reflexivity. }
    split; [cbn; lia|]. split; [intros ? []|]. split; [tauto|]. intros _ _.
    eapply Permutation_in; [symmetry; exact E2|]. left. reflexivity.
  - exists t', [n]. split; auto.
    assert (NN : ~ In id (map n_id (n :: r))).
    { intro H. apply E1. unfold known. eapply Permutation_in; [apply Permutation_map; symmetry; exact E2|]. auto. }
    assert (INN : In (mk_node id a (Some now)) (t_nodes t')).
    { eapply Permutation_in; [symmetry; exact E4|]. left. reflexivity. }
    split.
    { unfold others. rewrite (perm_filter _ E2), (perm_filter _ E4). rewrite (YES (n :: r)) by auto.
      cbn [filter new_good n_id]. rewrite id_eqb_refl. cbn [negb]. rewrite YES; [reflexivity|]. intro H. apply NN. right. auto. }
    split; [cbn; lia|]. split.
    { intros m [<-|[]]. repeat split; auto. }
    split; [tauto|auto].
  - exists t', []. split; auto. split.
    { unfold others. rewrite (perm_filter _ E2). reflexivity. }
    split; [cbn; lia|]. split; [intros ? []|]. split; [tauto|]. intros _ K. exfalso. apply E1. unfold known in *.
    eapply Permutation_in; [apply Permutation_map; exact E2|]. auto.
Qed.
Theorem C45_good_kept : forall now id a t t' n, reachable t -> wf_id id -> touch_node now id a t = Val t' ->
  In n (t_nodes t) -> n_id n <> id -> fresh now n = true -> In n (t_nodes t').
Proof.
  change fresh with good.
  intros now id a t t' n R W T IN NE G. destruct (@C45_no_good_evicted now id a t R W) as (t'' & d & T' & P & _ & D & _).
  assert (t'' = t') by congruence. subst t''.
  assert (H : In n (others id t)).
  { apply filter_In. split; auto. apply negb_true_iff. destruct (id_eqb (n_id n) id) eqn:E; auto. apply id_eqb_eq in E. tauto. }
  apply (Permutation_in _ P) in H. apply in_app_or in H. destruct H as [H|H].
  - destruct (D n H) as (Q & _). change fresh with good in Q. congruence.
  - apply filter_In in H. tauto.
Qed.
(** A node is good if it was seen less than 15 minutes ago. *)
Lemma good_iff : forall now n, good now n = true <-> exists s, n_seen n = Some s /\ (now < s + 900 * 10 ^ 9)%N.
Proof.
  intros now n. unfold good. destruct (n_seen n) as [s|]; [|split; [discriminate|intros (s & H & _); discriminate]].
  rewrite N.ltb_lt. unfold NODE_VALIDITY. change (900 * 10 ^ 9)%N with 900000000000%N. split.
  - intro H. exists s. split; auto. lia.
  - intros (s' & H & L). injection H as <-. lia.
Qed.
(** Eight stale nodes; the ninth replaces the first of them. *)
Example C45_example : exists t t', run (t_default (sid 0 0)) (map (fun k => ev 0 128 k) [0; 1; 2; 3; 4; 5; 6; 7]%N) = Val t /\
  reachable t /\ touch_node 900000000000 (sid 128 8) (sad 8) t = Val t' /\
  map n_id (t_nodes t') = map (sid 128) [8; 1; 2; 3; 4; 5; 6; 7]%N.
Proof.
  eexists. eexists. assert (R : run (t_default (sid 0 0)) (map (fun k => ev 0 128 k) [0; 1; 2; 3; 4; 5; 6; 7]%N) = Val _) by (vm_compute; reflexivity).
  split; [exact R|]. split; [eapply reach_run; [| |exact R]; [reflexivity|wfh]|].
  split; [vm_compute; reflexivity|]. vm_compute. reflexivity.
Qed.

(** ** C46 *)
(** Wanted: a new node is refused only if 8 good nodes sit where it belongs
    once our own bucket has been split far enough. *)
Definition C46_admitted_always (now : N) (id : ID) (a : addr) (t : table) : Prop :=
  reachable t -> wf_id id -> exists t', touch_node now id a t = Val t' /\
    (known t' id <-> known t id \/
       count (fun n => good now n && (cpl (t_own t) (n_id n) =? cpl (t_own t) id)) (t_nodes t) < 8).
(** Proved: nodes closer to us than the new one count against it too, as long
    as it falls into our own bucket. *)
Theorem C46_admitted_partial : forall now id a t, reachable t -> wf_id id -> exists t', touch_node now id a t = Val t' /\
  (known t' id <-> known t id \/
     count (fun n => fresh now n &&
              (if cpl (t_own t) id <? n_buckets t - 1 then cpl (t_own t) (n_id n) =? cpl (t_own t) id
               else cpl (t_own t) id <=? cpl (t_own t) (n_id n))) (t_nodes t) < 8) /\
  (cpl (t_own t) id < n_buckets t - 1 -> n_buckets t' = n_buckets t).
Proof.
  change fresh with good.
  intros now id a t R W. apply reachable_inv in R. rename R into I.
  destruct (@touch_spec now id a t I W) as (t' & T & I' & O & NB & EFF & KN & SP). exists t'. split; auto. split; [exact KN|].
  intro H. destruct (Nat.eq_dec (n_buckets t') (n_buckets t)) as [E|E]; auto. specialize (SP ltac:(lia)). lia.
Qed.
(** Consequences that hold in full. *)
Theorem C46_first_eight : forall now id a t, reachable t -> wf_id id -> count (fresh now) (t_nodes t) < 8 ->
  exists t', touch_node now id a t = Val t' /\ known t' id.
Proof.
  change fresh with good.
  intros now id a t R W C. destruct (@C46_admitted_partial now id a t R W) as (t' & T & K & _). exists t'. split; auto. apply K. right.
  eapply Nat.le_lt_trans; [|exact C]. apply count_mono. intros n _ H. apply andb_true_iff in H. tauto.
Qed.
Theorem C46_own_id : forall now a t, reachable t -> exists t', touch_node now (t_own t) a t = Val t' /\ known t' (t_own t).
Proof.
  intros now a t R. pose proof (reachable_inv R) as I. destruct (@C46_admitted_partial now (t_own t) a t R (i_own I)) as (t' & T & K & _).
  exists t'. split; auto. apply K. destruct (in_dec bytes_eq_dec (t_own t) (map n_id (t_nodes t))) as [IN|IN]; [left; exact IN|right].
  rewrite count_none; [lia|]. intros n Hn. apply andb_false_iff. right. pose proof (i_len I).
  rewrite cpl_refl. destruct (in_home _ I Hn) as (_ & WN).
  assert (NE : cpl (t_own t) (n_id n) < 160).
  { pose proof (cpl_le (t_own t) (n_id n)). destruct (Nat.eq_dec (cpl (t_own t) (n_id n)) 160) as [E|]; [|lia].
    exfalso. apply IN. apply in_map_iff. exists n. split; auto. symmetry. apply cpl_160; auto. apply (i_own I). }
  destruct (Nat.ltb_spec 160 (n_buckets t - 1)); [lia|]. apply Nat.leb_gt. auto.
Qed.
(** Eight nodes in our half of the id space keep every node of the other half
    out, although that half is empty. *)
Theorem C46_admitted_refuted : exists now id a t, ~ C46_admitted_always now id a t /\ reachable t /\ wf_id id /\
  (forall n, In n (t_nodes t) -> cpl (t_own t) (n_id n) <> cpl (t_own t) id) /\
  exists t', touch_node now id a t = Val t' /\ ~ known t' id.
Proof.
  assert (R : exists t, run (t_default (sid 0 0)) (map (fun k => ev 0 1 k) [0; 1; 2; 3; 4; 5; 6; 7]%N) = Val t /\
     t_own t = sid 0 0 /\ map n_id (t_nodes t) = map (sid 1) [0; 1; 2; 3; 4; 5; 6; 7]%N /\
     touch_node 1 (sid 128 0) (sad 9) t = Val t).
  { eexists. split; [vm_compute; reflexivity|]. split; [reflexivity|]. split; vm_compute; reflexivity. }
  destruct R as (t & R & O & N & T).
  assert (RT : reachable t) by (apply (@reach_run (sid 0 0) (map (fun k => ev 0 1 k) [0; 1; 2; 3; 4; 5; 6; 7]%N)); [reflexivity|wfh|exact R]).
  assert (NK : ~ known t (sid 128 0)).
  { unfold known. rewrite N. cbn [map In]. intuition discriminate. }
  assert (NC : forall n, In n (t_nodes t) -> cpl (t_own t) (n_id n) <> cpl (t_own t) (sid 128 0)).
  { intros n Hn. apply (in_map n_id) in Hn. rewrite N in Hn. rewrite O.
    cbn [map In] in Hn. repeat (destruct Hn as [Hn|Hn]; [rewrite <- Hn; vm_compute; discriminate|]). destruct Hn. }
  exists 1%N, (sid 128 0), (sad 9), t. split; [|split; [exact RT|split; [reflexivity|split; [exact NC|exists t; auto]]]].
  intro H. destruct (H RT eq_refl) as (t' & T' & K). assert (t' = t) by congruence. subst t'. apply NK. apply K. right.
  rewrite count_none; [lia|]. intros n Hn. apply andb_false_iff. right. apply Nat.eqb_neq. auto.
Qed.

(** ** C49 *)
Definition enough (draws : list (list byte * list bool)) : Prop :=
  Forall (fun d => 20 <= length (fst d) /\ 8 <= length (snd d)) draws.
Lemma refresh_id_spec : forall t i b d, inv t -> nth_error (t_data t) i = Some b -> i < n_buckets t - 1 ->
  20 <= length (fst d) -> 8 <= length (snd d) ->
  exists x, refresh_id (t_own t) b d = Val x /\ wf_id x /\ home t x = i.
Proof.
  intros t i b d I H L D1 D2. destruct (i_bkt I _ H) as (_ & BD & _). destruct (Nat.eqb_spec i (n_buckets t - 1)); [lia|].
  pose proof (i_len I) as LL. assert (Hi : i < 160) by lia. unfold refresh_id. rewrite BD.
  destruct (C05_id_bit_access (t_own t) i (i_own I)) as (A & _). destruct (A Hi) as (_ & _ & (x & v & F1 & F2 & F3 & F4 & F5)).
  rewrite F1. cbn [rbind]. destruct (C08_id_randomize x i F2) as (Rz & _).
  destruct (Rz (fst d) (snd d)) as (y & Y1 & Y2 & Y3); [lia|lia|]. exists y. split; auto. split; auto.
  unfold home. rewrite (@cpl_iff_bits (t_own t) y i); auto; [lia|apply (i_own I)| |].
  - intros j Hj. rewrite Y3 by lia. symmetry. apply F5. lia.
  - rewrite Y3 by lia. rewrite F3, F4. intro E. injection E. destruct v; discriminate.
Qed.
Lemma refresh_ids_spec : forall t now l1 l2 draws, inv t -> removelast (t_data t) = l1 ++ l2 -> enough draws -> length l2 <= length draws ->
  exists l, refresh_ids now (t_own t) l2 draws = Val l /\
    Forall2 (fun i x => wf_id x /\ home t x = i)
      (filter (fun i => count (good now) (bucket_nodes t i) <? 8) (seq (length l1) (length l2))) l.
Proof.
  intros t now l1 l2. revert l1. induction l2 as [|b l2 IH]; intros l1 draws I E EN LD; cbn [refresh_ids].
  { exists []. cbn. auto. }
  destruct draws as [|d ds]; [cbn in LD; lia|]. cbn [length] in LD. inversion EN as [|? ? (D1 & D2) EN']; subst.
  assert (D : t_data t <> []) by (intro Q; rewrite Q in E; cbn in E; destruct l1; discriminate).
  assert (LT : length (t_data t) = S (length (removelast (t_data t)))).
  { destruct (exists_last D) as (x & y & ->). rewrite removelast_last, app_length. cbn. lia. }
  rewrite E, app_length in LT. cbn [length] in LT.
  assert (Hb : nth_error (t_data t) (length l1) = Some b).
  { rewrite (app_removelast_last (b_new 0) D). rewrite E. rewrite <- app_assoc, nth_error_app2 by lia. rewrite Nat.sub_diag. reflexivity. }
  destruct (i_bkt I _ Hb) as (WS & _).
  destruct (IH (l1 ++ [b]) ds I) as (l & R1 & R2); auto; [rewrite E, <- app_assoc; reflexivity|lia|].
  rewrite app_length in R2. cbn [length] in R2. replace (length l1 + 1) with (S (length l1)) in R2 by lia.
  cbn [length seq filter]. unfold bucket_nodes at 1. rewrite Hb. pose proof (is_full_spec now WS) as FS. pose proof (count_le8 now WS) as C8.
  destruct (is_full now b).
  - destruct (Nat.ltb_spec (count (good now) (iter_nodes b)) 8); [assert (count (good now) (iter_nodes b) = 8) by (apply FS; auto); lia|].
    exists l. auto.
  - destruct (Nat.ltb_spec (count (good now) (iter_nodes b)) 8).
    + destruct (@refresh_id_spec t (length l1) b d I Hb) as (x & X1 & X2 & X3); auto; [unfold n_buckets; lia|].
      rewrite X1. cbn [rbind]. rewrite R1. cbn [rmap]. exists (x :: l). split; auto.
    + assert (count (good now) (iter_nodes b) = 8) by lia. apply FS in H0. discriminate.
Qed.
(** One id for every bucket but our own that has room, in order, each falling
    into its bucket; then our own id as long as our bucket can be split. *)
Theorem C49_refresh_targets : forall t now draws, reachable t -> enough draws -> n_buckets t <= length draws ->
  exists l, iter_over_ids now t draws = Val (l ++ (if n_buckets t <=? 160 then [t_own t] else [])) /\
    Forall2 (fun i x => wf_id x /\ Nat.min (cpl (t_own t) x) (n_buckets t - 1) = i)
      (filter (fun i => count (fresh now) (bucket_nodes t i) <? 8) (seq 0 (n_buckets t - 1))) l /\
    Nat.min (cpl (t_own t) (t_own t)) (n_buckets t - 1) = n_buckets t - 1.
Proof.
  change fresh with good.
  intros t now draws R EN LD. pose proof (reachable_inv R) as I. pose proof (i_len I) as LL. unfold n_buckets in *.
  assert (D : t_data t <> []) by (intro Q; rewrite Q in LL; cbn in LL; lia).
  destruct (exists_last D) as (A & b & E).
  assert (RL : removelast (t_data t) = A) by (rewrite E; apply removelast_last).
  assert (LA : length (t_data t) = S (length A)) by (rewrite E, app_length; cbn; lia).
  destruct (@refresh_ids_spec t now [] A draws I RL EN) as (l & R1 & R2); [lia|].
  exists l. split; [|split].
  - unfold iter_over_ids. rewrite RL. rewrite E at 1. rewrite rev_app_distr. cbn [rev app]. rewrite R1. cbn [rmap]. do 2 f_equal.
    unfold ID_BIT_COUNT. destruct (Nat.leb_spec (length (t_data t)) 160); [reflexivity|]. cbn [orb].
    assert (Hb : nth_error (t_data t) 160 = Some b).
    { rewrite E, nth_error_app2 by lia. replace (160 - length A) with 0 by lia. reflexivity. }
    destruct (i_bkt I _ Hb) as (WS & _). pose proof (own_alone I Hb). pose proof (is_full_spec now WS) as FS. pose proof (count_le (good now) (iter_nodes b)).
    destruct (is_full now b); auto. exfalso. assert (count (good now) (iter_nodes b) = 8) by (apply FS; auto). lia.
  - cbn [length] in R2. replace (length (t_data t) - 1) with (length A) by lia.
    unfold home, n_buckets in R2. rewrite LA in R2. replace (S (length A) - 1) with (length A) in R2 by lia. exact R2.
  - rewrite cpl_refl. lia.
Qed.
Example C49_example : exists t, reachable t /\ n_buckets t = 3 /\
  map (fun i => count (good 5) (bucket_nodes t i)) (seq 0 2) = [0; 4] /\
  iter_over_ids 5 t (repeat (repeat xff 20, repeat true 8) 3) = Val [repeat xff 20; x7f :: repeat xff 19; sid 0 0].
Proof.
  eexists. assert (R : run (t_default (sid 0 0)) (map (fun k => ev 0 (64 - 1 + (k mod 2)) k) [1; 2; 3; 4; 5; 6; 7; 8]%N ++ [ev 0 1 1]) = Val _) by (vm_compute; reflexivity).
  split; [eapply reach_run; [| |exact R]; [reflexivity|wfh]|]. repeat split; vm_compute; reflexivity.
Qed.

(** ** C71 *)
(** Wanted: the stored address is the one the node was last seen at. *)
Definition C71_addr_always (own : ID) (h : list touch_ev) (e : touch_ev) : Prop := forall t,
  wf_id own -> Forall (fun e => wf_id (te_id e)) (h ++ [e]) -> run (t_default own) (h ++ [e]) = Val t ->
  forall n, In n (t_nodes t) -> n_id n = te_id e -> n_addr n = te_addr e.
Lemma run_app : forall h g t, run t (h ++ g) = rbind (run t h) (fun t' => run t' g).
Proof. induction h as [|e h IH]; intros g t; cbn [app run]; auto. destruct (touch_node _ _ _ t); cbn [rbind]; auto. Qed.
(** Proved: nothing is invented; id, address and time come from touches of
    that node, and the time is that of its last touch. *)
Theorem C71_addr_partial : forall own h t, wf_id own -> Forall (fun e => wf_id (te_id e)) h -> run (t_default own) h = Val t ->
  forall n, In n (t_nodes t) ->
  (exists e, In e h /\ te_id e = n_id n /\ te_addr e = n_addr n) /\
  (exists h1 e h2, h = h1 ++ e :: h2 /\ te_id e = n_id n /\ n_seen n = Some (te_now e) /\ ~ In (n_id n) (map te_id h2)).
Proof.
  intros own h. induction h as [|e h IH] using rev_ind; intros t W F R n Hn.
  { injection R as <-. destruct Hn. }
  apply Forall_app in F. destruct F as (F & Fe). inversion Fe; subst. rewrite run_app in R.
  destruct (@run_spec h (t_default own) (inv_default W) F) as (t0 & R0 & I0 & O0). rewrite R0 in R. cbn [rbind run] in R.
  destruct (@touch_spec (te_now e) (te_id e) (te_addr e) t0 I0 H1) as (t' & T & I' & O & _ & EFF & _). rewrite T in R. cbn [rbind] in R.
  injection R as <-. specialize (IH t0 W F R0).
  assert (OLD : forall m, In m (t_nodes t0) -> n_id m <> te_id e ->
    (exists e0, In e0 (h ++ [e]) /\ te_id e0 = n_id m /\ te_addr e0 = n_addr m) /\
    (exists h1 e0 h2, h ++ [e] = h1 ++ e0 :: h2 /\ te_id e0 = n_id m /\ n_seen m = Some (te_now e0) /\ ~ In (n_id m) (map te_id h2))).
  { intros m Hm NE. destruct (IH m Hm) as ((e0 & A1 & A2 & A3) & (h1 & e1 & h2 & B1 & B2 & B3 & B4)). split.
    - exists e0. repeat split; auto. apply in_or_app. auto.
    - exists h1, e1, (h2 ++ [e]). repeat split; auto. rewrite B1, <- app_assoc. reflexivity.
      rewrite map_app, in_app_iff. intros [Q|[Q|[]]]; auto. }
  assert (NEW : forall m, n_id m = te_id e -> n_seen m = Some (te_now e) -> (exists e0, In e0 (h ++ [e]) /\ te_id e0 = n_id m /\ te_addr e0 = n_addr m) ->
    (exists e0, In e0 (h ++ [e]) /\ te_id e0 = n_id m /\ te_addr e0 = n_addr m) /\
    (exists h1 e0 h2, h ++ [e] = h1 ++ e0 :: h2 /\ te_id e0 = n_id m /\ n_seen m = Some (te_now e0) /\ ~ In (n_id m) (map te_id h2))).
  { intros m Q1 Q2 Q3. split; auto. exists h, e, []. repeat split; auto. }
  assert (FRESH : (exists e0, In e0 (h ++ [e]) /\ te_id e0 = te_id e /\ te_addr e0 = te_addr e)).
  { exists e. repeat split; auto. apply in_or_app. right. left. auto. }
  assert (NI : forall m, In m (t_nodes t0) -> ~ known t0 (te_id e) -> n_id m <> te_id e).
  { intros m Hm NK E. apply NK. unfold known. rewrite <- E. apply in_map. auto. }
  destruct EFF as [m r E1 E2 E3|E1 E2|m r E1 E2 E3 E4 E5 E6|E1 E2 E3 E4].
  - apply (Permutation_in _ E3) in Hn. assert (IM : In m (t_nodes t0)) by (eapply Permutation_in; [symmetry; exact E2|left; auto]).
    destruct Hn as [<-|Hn].
    + apply NEW; auto. cbn [touch n_id n_addr]. destruct (IH m IM) as ((e0 & A1 & A2 & A3) & _). exists e0. repeat split; auto. apply in_or_app. auto.
    + apply OLD. eapply Permutation_in; [symmetry; exact E2|right; auto].
      assert (ND : NoDup (map n_id (m :: r))) by (eapply Permutation_NoDup; [apply Permutation_map; exact E2|apply (i_nodup I0)]).
      cbn [map] in ND. inversion ND; subst. intro Q. apply H3. apply in_map_iff. exists n. split; congruence.
  - apply (Permutation_in _ E2) in Hn. destruct Hn as [<-|Hn]; [apply NEW; auto|]. apply OLD; auto.
  - apply (Permutation_in _ E4) in Hn. destruct Hn as [<-|Hn]; [apply NEW; auto|].
    assert (IM : In n (t_nodes t0)) by (eapply Permutation_in; [symmetry; exact E2|right; auto]). apply OLD; auto.
  - apply (Permutation_in _ E2) in Hn. apply OLD; auto.
Qed.
(** A node that moved keeps its old address as long as it answers. *)
Theorem C71_addr_refuted : exists own h e, ~ C71_addr_always own h e.
Proof.
  exists (sid 0 0), [mk_touch 0 (sid 1 1) (sad 1)], (mk_touch 1 (sid 1 1) (sad 2)). intro H.
  specialize (H (mk_table (sid 0 0) [mk_bucket 0 (Some (mk_node (sid 1 1) (sad 1) (Some 1%N)) :: repeat None 7)])).
  assert (Q : n_addr (mk_node (sid 1 1) (sad 1) (Some 1%N)) = sad 2).
  { apply H; [reflexivity|wfh|vm_compute; reflexivity|left; reflexivity|reflexivity]. }
  discriminate.
Qed.

Print Assumptions C44_total.
Print Assumptions C44_structure.
Print Assumptions C44_contains.
Print Assumptions C45_no_good_evicted.
Print Assumptions C45_good_kept.
Print Assumptions C46_admitted_partial.
Print Assumptions C46_first_eight.
Print Assumptions C46_own_id.
Print Assumptions C46_admitted_refuted.
Print Assumptions C49_refresh_targets.
Print Assumptions C71_addr_partial.
Print Assumptions C71_addr_refuted.
