(** C47: looking up nodes close to a target. *)
From Coq Require Import List NArith ZArith Lia Bool Arith Permutation Sorted.
From Coq Require Import Init.Byte.
From Verif Require Import Base BitSpec IdModel IdProofs IdProps WireModel TableModel TableSpec TableProofs TableProofs2 TableProps.
Import ListNotations.
Set Implicit Arguments.

(** ** sorting *)
Section sorting.
  Variables (A : Type) (key : A -> N) (cmp : A -> A -> comparison) (P : A -> Prop).
  Hypothesis cmp_key : forall a b, P a -> P b -> cmp a b = N.compare (key a) (key b).
  Definition kle (a b : A) : Prop := (key a <= key b)%N.
  Lemma sort_ins_perm : forall x l, Permutation (sort_ins cmp x l) (x :: l).
  Proof.
    induction l as [|y l IH]; cbn; auto. destruct (cmp x y); auto.
    eapply perm_trans; [apply perm_skip; exact IH|]. apply perm_swap.
  Qed.
  Lemma sort_perm : forall l, Permutation (sort_by cmp l) l.
  Proof. induction l as [|x l IH]; cbn; auto. eapply perm_trans; [apply sort_ins_perm|]. auto. Qed.
  Lemma sort_ins_sorted : forall x l, P x -> Forall P l -> StronglySorted kle l -> StronglySorted kle (sort_ins cmp x l).
  Proof.
    induction l as [|y l IH]; intros Px Pl S; cbn [sort_ins].
    - constructor; auto.
    - inversion S; subst. inversion Pl; subst. rewrite cmp_key by auto.
      destruct (N.compare_spec (key x) (key y)) as [E|E|E].
      + constructor; auto. constructor; [unfold kle; lia|]. eapply Forall_impl; [|exact H2]. unfold kle. intros. lia.
      + constructor; auto. constructor; [unfold kle; lia|]. eapply Forall_impl; [|exact H2]. unfold kle. intros. lia.
      + constructor; auto. eapply Permutation_Forall; [symmetry; apply sort_ins_perm|]. constructor; auto. unfold kle. lia.
  Qed.
  Lemma sort_sorted : forall l, Forall P l -> StronglySorted kle (sort_by cmp l).
  Proof.
    induction l as [|x l IH]; intros F; cbn [sort_by]; [constructor|]. inversion F; subst. apply sort_ins_sorted; auto.
    eapply Permutation_Forall; [symmetry; apply sort_perm|auto].
  Qed.
End sorting.

Lemma cmp_dist : forall id a b, wf_id id -> wf_id (n_id a) -> wf_id (n_id b) ->
  cmp_by_distance id a b = N.compare (N.size (dist id (n_id a))) (N.size (dist id (n_id b))).
Proof.
  intros id a b W A B. unfold cmp_by_distance.
  destruct (C09_id_xor_metric (n_id a) id id A W W) as (X1 & X2 & _). destruct (C09_id_xor_metric (n_id b) id id B W W) as (Y1 & Y2 & _).
  destruct (C10_id_order_partial _ _ X1 Y1) as (-> & _). rewrite X2, Y2. unfold dist. rewrite !(N.lxor_comm (id_val id)). reflexivity.
Qed.

(** ** which buckets are looked at *)
Lemma collect_spec : forall now L acc, length acc < 8 -> (forall b, In b L -> length (iter_over_goods now b) <= 8) ->
  exists A B, L = A ++ B /\ collect now L acc = acc ++ flat_map (iter_over_goods now) A /\
    (B = [] \/ 8 <= length (collect now L acc)) /\ length (collect now L acc) <= 15.
Proof.
  intros now. induction L as [|b L IH]; intros acc LA G; cbn [collect].
  - exists [], []. cbn. rewrite app_nil_r. repeat split; auto. lia.
  - unfold K_NODE_PER_BUCKET. destruct (Nat.leb_spec 8 (length (acc ++ iter_over_goods now b))) as [Q|Q].
    + exists [b], L. cbn [flat_map]. rewrite app_nil_r. repeat split; auto.
      specialize (G b (or_introl eq_refl)). rewrite app_length. lia.
    + destruct (IH (acc ++ iter_over_goods now b) Q) as (A & B & E1 & E2 & E3 & E4).
      { intros. apply G. right. auto. }
      exists (b :: A), B. cbn [flat_map app]. rewrite E1. rewrite <- E1, E2. rewrite E2 in E3, E4. rewrite app_assoc. auto.
Qed.
Lemma nth_error_rev : forall A (l : list A) p, p < length l -> nth_error (rev l) p = nth_error l (length l - 1 - p).
Proof.
  induction l as [|x l IH]; intros p H; cbn [length] in H; [lia|]. cbn [rev]. destruct (Nat.lt_ge_cases p (length l)) as [Q|Q].
  - rewrite nth_error_app1 by (rewrite rev_length; auto). rewrite IH by auto. cbn [length].
    replace (S (length l) - 1 - p) with (S (length l - 1 - p)) by lia. reflexivity.
  - rewrite nth_error_app2 by (rewrite rev_length; auto). rewrite rev_length. replace p with (length l) by lia.
    rewrite Nat.sub_diag. cbn [length]. replace (S (length l) - 1 - length l) with 0 by lia. reflexivity.
Qed.
Lemma nth_skipn : forall A (l : list A) i p, nth_error (skipn i l) p = nth_error l (i + p).
Proof. induction l as [|x l IH]; destruct i; intros; cbn; auto. destruct p; auto. Qed.
(** Position in the search order to bucket number. *)
Definition order_idx (n i p : nat) : nat := if p <? n - i then i + p else i - 1 - (p - (n - i)).
Lemma nth_order : forall A (l : list A) i p, i <= length l ->  p < length l ->
  nth_error (skipn i l ++ rev (firstn i l)) p = nth_error l (order_idx (length l) i p).
Proof.
  intros A l i p H Hp. unfold order_idx. destruct (Nat.ltb_spec p (length l - i)).
  - rewrite nth_error_app1 by (rewrite skipn_length; auto). apply nth_skipn.
  - rewrite nth_error_app2 by (rewrite skipn_length; lia). rewrite skipn_length.
    assert (LF : length (firstn i l) = i) by (rewrite firstn_length; lia).
    rewrite nth_error_rev by lia. rewrite LF. apply nth_firstn. lia.
Qed.

(** Common prefix with the target, by bucket. *)
Lemma cpl_by_bucket : forall t id n j, inv t -> wf_id id -> In n (bucket_nodes t j) ->
  (j = home t id -> j <= cpl id (n_id n)) /\
  (j = home t id -> j < n_buckets t - 1 -> j < cpl id (n_id n)) /\
  (home t id < j -> cpl id (n_id n) = home t id) /\
  (j < home t id -> cpl id (n_id n) = j).
Proof.
  intros t id n j I W H. pose proof (bucket_home _ _ I H) as HB. pose proof (in_bucket _ _ _ H) as IN.
  destruct (in_home _ I IN) as (_ & WN). pose proof (i_own I) as WO. unfold home in *.
  pose proof (cpl_sym id (t_own t)) as S1. pose proof (i_len I) as LL.
  pose proof (cpl_tri W WO WN) as T1. rewrite S1 in T1.
  split; [lia|]. split; [|split].
  - intros E L. assert (E1 : cpl (t_own t) id = j) by lia. assert (E2 : cpl (t_own t) (n_id n) = j) by lia.
    destruct (cpl_bits WO W) as (B1 & B2). destruct (cpl_bits WO WN) as (C1 & C2). rewrite E1 in *. rewrite E2 in *.
    apply (@cpl_ge_bits id (n_id n) (S j)); auto; [lia|]. intros k Hk.
    destruct (Nat.eq_dec k j) as [->|NE].
    + destruct B2 as (v & V1 & V2); [lia|]. destruct C2 as (u & U1 & U2); [lia|]. rewrite V2, U2. congruence.
    + rewrite <- B1, <- C1 by lia. reflexivity.
  - intro L. assert (E1 : cpl (t_own t) id < cpl (t_own t) (n_id n)) by lia.
    rewrite (@cpl_tri_eq id (t_own t) (n_id n)); auto; rewrite S1; lia.
  - intro L. assert (E1 : cpl (t_own t) (n_id n) < cpl (t_own t) id) by lia.
    rewrite (cpl_sym id). rewrite (@cpl_tri_eq (n_id n) (t_own t) id); auto; rewrite (cpl_sym (n_id n)); lia.
Qed.
Lemma order_cpl : forall t id p q n m, inv t -> wf_id id -> p < q -> q < n_buckets t ->
  In n (bucket_nodes t (order_idx (n_buckets t) (home t id) p)) ->
  In m (bucket_nodes t (order_idx (n_buckets t) (home t id) q)) -> cpl id (n_id m) <= cpl id (n_id n).
Proof.
  intros t id p q n m I W PQ Q Hn Hm. pose proof (home_lt id I) as HL.
  destruct (cpl_by_bucket _ _ I W Hn) as (N1 & N2 & N3 & N4). destruct (cpl_by_bucket _ _ I W Hm) as (M1 & M2 & M3 & M4).
  clear Hn Hm. unfold order_idx in *. set (h := home t id) in *. set (N := n_buckets t) in *. clearbody h N.
  generalize dependent (cpl id (n_id n)). generalize dependent (cpl id (n_id m)). intros x M1 M2 M3 M4 y N1 N2 N3 N4. clear - M1 M2 M3 M4 N1 N2 N3 N4 PQ Q HL.
  destruct (Nat.ltb_spec p (N - h)) as [L1|L1]; destruct (Nat.ltb_spec q (N - h)) as [L2|L2].
  - assert (X : x = h) by (apply M3; clear -PQ; lia). clear M1 M2 M3 M4.
    destruct (Nat.eq_dec p 0) as [Z|Z]; [clear N2 N3 N4; rewrite X, <- N1; subst; lia|].
    rewrite N3 by (clear -Z; lia). lia.
  - assert (X : x = h - 1 - (q - (N - h))) by (apply M4; clear -Q L2 HL; lia). clear M1 M2 M3 M4.
    destruct (Nat.eq_dec p 0) as [Z|Z]; [clear N2 N3 N4|rewrite N3 by (clear -Z; lia); lia].
    specialize (N1 ltac:(clear -Z; lia)). lia.
  - clear -PQ L1 L2. lia.
  - rewrite M4 by (clear -Q L2 HL; lia). clear M1 M2 M3 M4. rewrite N4 by (clear -PQ Q L1 HL; lia). clear N1 N2 N3 N4. lia.
Qed.

Lemma NoDup_app_l : forall A (a b : list A), NoDup (a ++ b) -> NoDup a.
Proof.
  induction a as [|x a IH]; intros b H; [constructor|]. cbn in H. inversion H; subst. constructor; eauto.
  intro Q. apply H2. apply in_or_app. auto.
Qed.
Lemma NoDup_map_filter : forall A B (f : A -> B) p l, NoDup (map f l) -> NoDup (map f (filter p l)).
Proof.
  induction l as [|x l IH]; intros H; cbn; auto. cbn in H. inversion H; subst. destruct (p x); cbn; auto. constructor; auto.
  intro Q. apply H2. apply in_map_iff in Q. destruct Q as (y & Y1 & Y2). apply filter_In in Y2. apply in_map_iff. exists y. tauto.
Qed.

Definition closest_ok (now : N) (t : table) (id : ID) (l : list node) : Prop :=
  NoDup (map n_id l) /\
  (forall n, In n l -> In n (t_nodes t) /\ good now n = true) /\
  StronglySorted (fun a b => cpl id (n_id b) <= cpl id (n_id a)) l /\
  (forall n m, In n l -> In m (t_nodes t) -> good now m = true -> ~ In m l -> cpl id (n_id m) <= cpl id (n_id n)) /\
  Nat.min 8 (count (good now) (t_nodes t)) <= length l <= 15.

Lemma perm_order : forall A (l : list A) i, Permutation (skipn i l ++ rev (firstn i l)) l.
Proof.
  intros. eapply perm_trans; [apply Permutation_app_head; symmetry; apply Permutation_rev|].
  eapply perm_trans; [apply Permutation_app_comm|]. rewrite firstn_skipn. auto.
Qed.
Lemma goods_nodes : forall now l, flat_map (iter_over_goods now) l = filter (good now) (flat_map iter_nodes l).
Proof. intros now l. induction l as [|b l IH]; cbn [flat_map]; auto. rewrite filter_app, IH. reflexivity. Qed.

Lemma closest_spec : forall now t id, inv t -> wf_id id ->
  exists o, get_closest_nodes now t id = Val o /\
    match o with
    | None => forall n, In n (t_nodes t) -> good now n = false
    | Some l => l <> [] /\ closest_ok now t id l
    end.
Proof.
  intros now t id I W. unfold get_closest_nodes. rewrite (find_idx I W). cbn [rbind]. pose proof (home_lt id I) as HL.
  set (L := skipn (home t id) (t_data t) ++ rev (firstn (home t id) (t_data t))).
  assert (PL : Permutation L (t_data t)) by apply perm_order.
  assert (LL : length L = n_buckets t) by (apply Permutation_length in PL; exact PL).
  assert (PN : Permutation (flat_map iter_nodes L) (t_nodes t)) by (apply Permutation_flat_map; exact PL).
  assert (B8 : forall b, In b L -> length (iter_over_goods now b) <= 8).
  { intros b Hb. apply (Permutation_in _ PL) in Hb. apply In_nth_error in Hb. destruct Hb as (j & Hj).
    destruct (i_bkt I _ Hj) as (WS & _). exact (count_le8 now WS). }
  destruct (@collect_spec now L [] ltac:(cbn; lia) B8) as (A & B & E1 & E2 & E3 & E4).
  set (ns := collect now L []) in *. cbn [app] in E2.
  assert (SUB : forall n, In n ns -> In n (t_nodes t) /\ good now n = true).
  { intros n Hn. rewrite E2, goods_nodes in Hn. apply filter_In in Hn. destruct Hn as (Hn & G). split; auto.
    apply (Permutation_in _ PN). rewrite E1, flat_map_app. apply in_or_app. auto. }
  assert (OUT : forall m, In m (t_nodes t) -> good now m = true -> ~ In m ns -> In m (flat_map iter_nodes B)).
  { intros m Hm G NI. apply (Permutation_in _ (Permutation_sym PN)) in Hm. rewrite E1, flat_map_app in Hm. apply in_app_or in Hm.
    destruct Hm as [Hm|Hm]; auto. exfalso. apply NI. rewrite E2, goods_nodes. apply filter_In. auto. }
  assert (CNT : B = [] -> length ns = count (good now) (t_nodes t)).
  { intros ->. rewrite app_nil_r in E1. rewrite E2, goods_nodes, <- E1. apply (count_perm (good now) PN). }
  assert (DEC : ns = [] \/ ns <> []) by (destruct ns; [left; auto|right; discriminate]).
  destruct DEC as [NIL|NN].
  - rewrite NIL in *. eexists. split; [reflexivity|]. cbn beta iota. destruct E3 as [->|E3]; [|cbn in E3; lia].
    intros n Hn. destruct (good now n) eqn:G; auto. exfalso. specialize (OUT n Hn G (fun z => z)). destruct OUT.
  - exists (Some (sort_by (cmp_by_distance id) ns)). split. { destruct ns; [congruence|reflexivity]. }
    set (l := sort_by (cmp_by_distance id) ns). assert (PS : Permutation l ns) by apply sort_perm.
    split. { intro Z. apply Permutation_sym, Permutation_length in PS. rewrite Z in PS. destruct ns; [congruence|discriminate]. }
    assert (WN : forall n, In n (t_nodes t) -> wf_id (n_id n)) by (intros n Hn; apply (in_home _ I Hn)).
    split; [|split; [|split; [|split]]].
    + eapply Permutation_NoDup; [apply Permutation_map; symmetry; exact PS|]. rewrite E2, goods_nodes. apply NoDup_map_filter.
      assert (ND : NoDup (map n_id (flat_map iter_nodes L))).
      { eapply Permutation_NoDup; [apply Permutation_map; symmetry; exact PN|apply (i_nodup I)]. }
      rewrite E1, flat_map_app, map_app in ND. apply NoDup_app_l in ND. exact ND.
    + intros n Hn. apply SUB. eapply Permutation_in; eauto.
    + assert (SS : StronglySorted (kle (fun n => N.size (dist id (n_id n)))) l).
      { apply sort_sorted with (P := fun n => wf_id (n_id n)).
        - intros a b Ha Hb. apply cmp_dist; auto.
        - apply Forall_forall. intros n Hn. apply WN. apply SUB. auto. }
      clear -SS. induction SS as [|x l S IH F]; constructor; auto. eapply Forall_impl; [|exact F].
      intros y K. unfold kle in K. unfold cpl. lia.
    + intros n m Hn Hm Gm NI. assert (NI' : ~ In m ns). { intro Q. apply NI. eapply Permutation_in; [symmetry; exact PS|auto]. }
      pose proof (OUT m Hm Gm NI') as MB. apply (Permutation_in _ PS) in Hn. rewrite E2 in Hn.
      apply in_flat_map in Hn. destruct Hn as (b1 & B1 & N1). apply in_flat_map in MB. destruct MB as (b2 & B2 & M2).
      apply In_nth_error in B1. destruct B1 as (p & P1). apply In_nth_error in B2. destruct B2 as (q & Q1).
      assert (p < length A) by (apply nth_error_Some; congruence). assert (q < length B) by (apply nth_error_Some; congruence).
      rewrite E1, app_length in LL.
      assert (HH : home t id <= length (t_data t)) by (unfold n_buckets in HL; lia).
      apply (@order_cpl t id p (length A + q)); auto; try lia.
      * unfold bucket_nodes. pose proof (@nth_order _ (t_data t) (home t id) p HH) as NO. unfold n_buckets in *. rewrite <- NO by lia. fold L.
        rewrite E1, nth_error_app1 by auto. rewrite P1. apply filter_In in N1. tauto.
      * unfold bucket_nodes. pose proof (@nth_order _ (t_data t) (home t id) (length A + q) HH) as NO. unfold n_buckets in *. rewrite <- NO by lia. fold L.
        rewrite E1, nth_error_app2 by lia. replace (length A + q - length A) with q by lia. rewrite Q1. auto.
    + rewrite (Permutation_length PS). split; [|exact E4]. destruct E3 as [E3|E3]; [rewrite CNT by auto; lia|lia].
Qed.

(** ** C47 *)
(** A known node is returned as such. *)
Theorem C47_exact : forall now t id, reachable t -> wf_id id -> known t id ->
  exists n, find_node now t id = Val (Some (Exact n)) /\ In n (t_nodes t) /\ n_id n = id.
Proof.
  intros now t id R W K. pose proof (reachable_inv R) as I. unfold find_node, get_bucket. rewrite (find_idx I W). cbn [rbind].
  destruct (home_bucket id I) as (b & Hb). rewrite Hb. cbn [rbind]. apply (known_home _ I Hb) in K.
  destruct (get_node b id) as [n|] eqn:G.
  - exists n. split; auto. apply get_node_some in G. destruct G. split; auto. apply in_nodes. eauto.
  - apply get_node_none in G. tauto.
Qed.
(** Wanted for other targets: the (up to) 8 good nodes closest by XOR, closest
    first. *)
Definition C47_closest_always (now : N) (t : table) (id : ID) : Prop :=
  reachable t -> wf_id id -> ~ known t id -> exists o, find_node now t id = Val o /\
    match o with
    | None => count (fresh now) (t_nodes t) = 0
    | Some (Exact _) => False
    | Some (Closest l) =>
      NoDup (map n_id l) /\
      (forall n, In n l -> In n (t_nodes t) /\ fresh now n = true) /\
      length l = Nat.min 8 (count (fresh now) (t_nodes t)) /\
      StronglySorted (fun a b => (dist id (n_id a) <= dist id (n_id b))%N) l /\
      (forall n m, In n l -> In m (t_nodes t) -> fresh now m = true -> ~ In m l -> (dist id (n_id n) <= dist id (n_id m))%N)
    end.
Lemma cpl_dist : forall id a b, wf_id id -> wf_id a -> wf_id b -> b <> id -> cpl id b <= cpl id a -> (dist id a < 2 * dist id b)%N.
Proof.
  intros id a b W A B NE H. pose proof (size_le160 W A) as SA. pose proof (size_le160 W B) as SB.
  assert (S : (N.size (dist id a) <= N.size (dist id b))%N) by (unfold cpl in H; lia).
  assert (NZ : dist id b <> 0%N). { intro Z. apply NE. unfold dist in Z. apply N.lxor_eq in Z. symmetry. apply id_val_inj; auto. }
  rewrite (N.size_log2 _ NZ) in S. pose proof (N.log2_spec (dist id b) ltac:(lia)) as (L1 & _).
  pose proof (N.size_gt (dist id a)) as G. assert (2 ^ N.size (dist id a) <= 2 ^ N.succ (N.log2 (dist id b)))%N by (apply N.pow_le_mono_r; lia).
  rewrite N.pow_succ_r' in H0. lia.
Qed.
(** Proved: closest up to a factor of two (exactly: by common prefix length),
    between 8 and 15 nodes when there are that many. *)
Theorem C47_closest_partial : forall now t id, reachable t -> wf_id id -> ~ known t id ->
  exists o, find_node now t id = Val o /\
    match o with
    | None => count (fresh now) (t_nodes t) = 0
    | Some (Exact _) => False
    | Some (Closest l) =>
      NoDup (map n_id l) /\
      (forall n, In n l -> In n (t_nodes t) /\ fresh now n = true) /\
      Nat.min 8 (count (fresh now) (t_nodes t)) <= length l <= 15 /\
      0 < length l /\
      StronglySorted (fun a b => cpl id (n_id b) <= cpl id (n_id a) /\ (dist id (n_id a) < 2 * dist id (n_id b))%N) l /\
      (forall n m, In n l -> In m (t_nodes t) -> fresh now m = true -> ~ In m l ->
         cpl id (n_id m) <= cpl id (n_id n) /\ (dist id (n_id n) < 2 * dist id (n_id m))%N)
    end.
Proof.
  change fresh with good.
  intros now t id R W NK. pose proof (reachable_inv R) as I. unfold find_node, get_bucket. rewrite (find_idx I W). cbn [rbind].
  destruct (home_bucket id I) as (b & Hb). rewrite Hb. cbn [rbind].
  assert (G : get_node b id = None) by (apply get_node_none; rewrite <- (known_home _ I Hb); auto). rewrite G.
  assert (WN : forall n, In n (t_nodes t) -> wf_id (n_id n) /\ n_id n <> id).
  { intros n Hn. split. apply (in_home _ I Hn). intro Q. apply NK. unfold known. rewrite <- Q. apply in_map. auto. }
  destruct (closest_spec now I W) as (o & E & S). rewrite E. cbn [rmap]. destruct o as [l|]; cbn [option_map].
  - eexists. split; [reflexivity|]. cbn beta iota. destruct S as (NN & S1 & S2 & S3 & S4 & S5).
    split; [auto|]. split; [auto|]. split; [auto|]. split; [destruct l; [congruence|cbn; lia]|]. split.
    + assert (FA : Forall (fun n => In n (t_nodes t)) l) by (apply Forall_forall; intros n Hn; apply S2; auto).
      clear -S3 FA WN W. induction S3 as [|x l S IH F]; constructor; inversion FA; subst; auto.
      rewrite Forall_forall in *. intros y Hy. split; [auto|]. destruct (WN x H1), (WN y (H2 y Hy)). apply cpl_dist; auto.
    + intros n m Hn Hm Gm NI. specialize (S4 n m Hn Hm Gm NI). split; auto. destruct (WN m Hm), (WN n (proj1 (S2 n Hn))). apply cpl_dist; auto.
  - eexists. split; [reflexivity|]. cbn beta iota. apply count_none. auto.
Qed.
(** The lookup also returns a node it has not heard from for a long time. *)
Theorem C47_exact_stale_refuted : exists now t id n, reachable t /\ find_node now t id = Val (Some (Exact n)) /\ fresh now n = false.
Proof.
  change fresh with good.
  exists 900000000000%N. eexists. exists (sid 1 1). eexists.
  assert (R : run (t_default (sid 0 0)) [ev 0 1 1] = Val _) by (vm_compute; reflexivity).
  split; [eapply reach_run; [| |exact R]; [reflexivity|wfh]|]. split; [vm_compute; reflexivity|]. vm_compute. reflexivity.
Qed.
(** 13 touches that fill bucket 1 (ids 01...) and put five nodes 00... in our
    bucket. *)
Definition crowd : list touch_ev :=
  map (fun k => ev 0 64 k) [1; 2; 3; 4]%N ++ map (fun k => ev 0 (2 + k) k) [1; 2; 3; 4; 5]%N ++ map (fun k => ev 0 64 k) [5; 6; 7; 8]%N.
Lemma crowd_reachable : exists t, reachable t /\ run (t_default (sid 0 0)) crowd = Val t.
Proof.
  destruct (@C44_total (sid 0 0) crowd) as (t & R & _); [reflexivity|wfh|]. exists t. split; auto.
  apply (@reach_run (sid 0 0) crowd); [reflexivity|wfh|exact R].
Qed.
(** Too many nodes. *)
Theorem C47_too_many_refuted : exists now t id l, ~ C47_closest_always now t id /\ reachable t /\
  find_node now t id = Val (Some (Closest l)) /\ length l = 13.
Proof.
  destruct crowd_reachable as (t & RT & R).
  assert (F : exists l, find_node 1 t (sid 0 0) = Val (Some (Closest l)) /\ length l = 13).
  { vm_compute in R. injection R as <-. eexists. split; vm_compute; reflexivity. }
  destruct F as (l & F & L). exists 1%N, t, (sid 0 0), l. split; [|auto]. intro H.
  destruct (H RT eq_refl) as (o & E & S).
  - intro K. destruct (@C47_exact 1%N t (sid 0 0) RT eq_refl K) as (n & Q & _). congruence.
  - rewrite E in F. injection F as ->. destruct S as (_ & _ & S & _). lia.
Qed.
(** Closer nodes left out: bucket 1 is exhausted before the nodes of our own
    bucket are considered. *)
Theorem C47_closer_missed_refuted : exists now t id l n m, ~ C47_closest_always now t id /\ reachable t /\
  find_node now t id = Val (Some (Closest l)) /\ In n l /\ In m (t_nodes t) /\ fresh now m = true /\ ~ In m l /\
  (dist id (n_id m) < dist id (n_id n))%N.
Proof.
  change fresh with good.
  destruct crowd_reachable as (t & RT & R).
  assert (F : exists l n m, find_node 1 t (sid 128 0) = Val (Some (Closest l)) /\ In n l /\ In m (t_nodes t) /\ good 1 m = true /\ ~ In (n_id m) (map n_id l) /\
     (dist (sid 128 0) (n_id m) < dist (sid 128 0) (n_id n))%N).
  { vm_compute in R. injection R as <-. eexists. exists (mk_node (sid 64 1) (sad 1) (Some 0%N)), (mk_node (sid 3 1) (sad 1) (Some 0%N)).
    split; [vm_compute; reflexivity|]. split; [left; reflexivity|]. split; [cbn; tauto|]. split; [reflexivity|].
    split; [|vm_compute; reflexivity]. cbn [map In n_id]. intuition discriminate. }
  destruct F as (l & n & m & F & IN & IM & G & NI & D). exists 1%N, t, (sid 128 0), l, n, m.
  assert (NI' : ~ In m l) by (intro Q; apply NI; apply in_map; auto).
  split; [|repeat split; auto]. intro H. destruct (H RT eq_refl) as (o & E & S).
  - intro K. destruct (@C47_exact 1%N t (sid 128 0) RT eq_refl K) as (x & Q & _). congruence.
  - rewrite E in F. injection F as ->. destruct S as (_ & _ & _ & _ & S). specialize (S n m IN IM G NI'). lia.
Qed.
(** Not closest first. *)
Theorem C47_order_refuted : exists now t id a b, ~ C47_closest_always now t id /\ reachable t /\
  find_node now t id = Val (Some (Closest [a; b])) /\ (dist id (n_id b) < dist id (n_id a))%N.
Proof.
  destruct (@C44_total (sid 0 0) [ev 0 192 1; ev 0 128 1]) as (t & R & _); [reflexivity|wfh|].
  assert (RT : reachable t) by (apply (@reach_run (sid 0 0) [ev 0 192 1; ev 0 128 1]); [reflexivity|wfh|exact R]).
  assert (F : exists a b, find_node 1 t (sid 0 0) = Val (Some (Closest [a; b])) /\ (dist (sid 0 0) (n_id b) < dist (sid 0 0) (n_id a))%N).
  { vm_compute in R. injection R as <-. eexists. eexists. split; vm_compute; reflexivity. }
  destruct F as (a & b & F & D). exists 1%N, t, (sid 0 0), a, b. split; [|auto]. intro H. destruct (H RT eq_refl) as (o & E & S).
  - intro K. destruct (@C47_exact 1%N t (sid 0 0) RT eq_refl K) as (x & Q & _). congruence.
  - rewrite E in F. injection F as ->. destruct S as (_ & _ & _ & S & _). inversion S; subst. inversion H3; subst. lia.
Qed.

Print Assumptions C47_exact.
Print Assumptions C47_closest_partial.
Print Assumptions C47_exact_stale_refuted.
Print Assumptions C47_too_many_refuted.
Print Assumptions C47_closer_missed_refuted.
Print Assumptions C47_order_refuted.
