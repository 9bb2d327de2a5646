(** C03, C10 and C71, exactly: when the weight of a piece map is right, when ids
    are compared rightly, and which address the routing table holds. *)
From Coq Require Import List NArith ZArith Lia Bool Arith Permutation.
From Coq Require Import Init.Byte.
From Verif Require Import Base BitSpec BitmapModel BitmapProofs BitmapProps IdModel IdProofs IdProps WireModel WireProofs TableModel TableSpec TableProofs TableProofs2 TableProps.
Import ListNotations.
Set Implicit Arguments.

(** ** C03 *)
Lemma count_true_0 : forall l, count_true l = 0 <-> forall i, nth_error l i <> Some true.
Proof.
  induction l as [|x l IH]; [split; [intros _ [|i]; discriminate|reflexivity]|].
  change (count_true (x :: l)) with (count_true ([x] ++ l)). rewrite count_true_app. split.
  - intros H [|i]; cbn.
    + destruct x; [cbn in H; lia|discriminate].
    + apply IH. lia.
  - intro H. destruct x; [destruct (H 0); reflexivity|]. cbn. apply IH. intro i. exact (H (S i)).
Qed.
(** The weight is too high by the number of padding bits that are set, so it is
    right exactly if none is. *)
Theorem C03_exact : forall b,
  N.to_nat (bm_weight b) = count_true (firstn (bm_len b) (bits b)) + count_true (skipn (bm_len b) (bits b)) /\
  (N.to_nat (bm_weight b) = count_true (firstn (bm_len b) (bits b)) <-> forall i, bm_len b <= i -> nth_error (bits b) i <> Some true).
Proof.
  intro b. assert (N.to_nat (bm_weight b) = count_true (firstn (bm_len b) (bits b)) + count_true (skipn (bm_len b) (bits b))) as E.
  { rewrite <- count_true_app, firstn_skipn. apply C03_bitmap_weight_partial. }
  split; [exact E|]. rewrite E.
  assert (forall i, nth_error (skipn (bm_len b) (bits b)) i = nth_error (bits b) (bm_len b + i)) as SK.
  { intro i. destruct (le_lt_dec (bm_len b) (length (bits b))) as [L|L].
    - rewrite <- (firstn_skipn (bm_len b) (bits b)) at 2. rewrite nth_error_app2; rewrite firstn_length_le by auto; [f_equal; lia|lia].
    - rewrite skipn_all2 by lia. symmetry. rewrite (proj2 (nth_error_None _ _)) by lia. destruct i; reflexivity. }
  split.
  - intros H i I. assert (count_true (skipn (bm_len b) (bits b)) = 0) as Z by lia. rewrite count_true_0 in Z. specialize (Z (i - bm_len b)).
    rewrite SK in Z. replace (bm_len b + (i - bm_len b)) with i in Z by lia. exact Z.
  - intro H. assert (count_true (skipn (bm_len b) (bits b)) = 0) as Z; [|lia]. apply count_true_0. intro i. rewrite SK. apply H. lia.
Qed.

(** ** C10 *)
(** Two ids are compared as numbers exactly if they are the same or have
    different bit lengths. *)
Theorem C10_exact : forall a b, wf_id a -> wf_id b ->
  (id_cmp a b = N.compare (id_val a) (id_val b) <-> a = b \/ N.size (id_val a) <> N.size (id_val b)).
Proof.
  intros a b A B. destruct (@C10_id_order_partial a b A B) as (E & D & _). split.
  - intro H. destruct (N.eq_dec (N.size (id_val a)) (N.size (id_val b))) as [S|S]; [left|right; exact S].
    rewrite E, S, N.compare_refl in H. symmetry in H. apply N.compare_eq in H. apply id_val_inj; auto.
  - intros [<-|S]; [rewrite E, !N.compare_refl; reflexivity|apply D; exact S].
Qed.

(** ** C71 *)
(** The address held for a node is that of the touch with which it last came
    into the table: it was unknown before, and known ever since. *)
Theorem C71_exact : forall own h t, wf_id own -> Forall (fun e => wf_id (te_id e)) h -> run (t_default own) h = Val t ->
  forall n, In n (t_nodes t) -> exists h1 e h2 t1, h = h1 ++ e :: h2 /\ te_id e = n_id n /\ te_addr e = n_addr n /\
    run (t_default own) h1 = Val t1 /\ ~ known t1 (n_id n) /\
    forall g1 g2 u, h2 = g1 ++ g2 -> run (t_default own) (h1 ++ e :: g1) = Val u -> known u (n_id n).
Proof.
  intros own h. induction h as [|e h IH] using rev_ind; intros t W F R n Hn.
  { injection R as <-. destruct Hn. }
  pose proof R as RR.
  apply Forall_app in F. destruct F as (F & Fe). inversion Fe as [|? ? He _]; subst. rewrite run_app in R.
  destruct (@run_spec h (t_default own) (inv_default W) F) as (t0 & R0 & I0 & O0). rewrite R0 in R. cbn [rbind run] in R.
  destruct (@touch_spec (te_now e) (te_id e) (te_addr e) t0 I0 He) as (t' & T & I' & O & _ & EFF & _). rewrite T in R. cbn [rbind] in R.
  injection R as <-. specialize (IH t0 W F R0).
  assert (OLD : forall m, In m (t_nodes t0) -> n_id m = n_id n -> n_addr m = n_addr n ->
    exists h1 e0 h2 t1, h ++ [e] = h1 ++ e0 :: h2 /\ te_id e0 = n_id n /\ te_addr e0 = n_addr n /\
      run (t_default own) h1 = Val t1 /\ ~ known t1 (n_id n) /\
      forall g1 g2 u, h2 = g1 ++ g2 -> run (t_default own) (h1 ++ e0 :: g1) = Val u -> known u (n_id n)).
  { intros m Hm E1 E2. destruct (IH m Hm) as (h1 & e0 & h2 & t1 & A1 & A2 & A3 & A4 & A5 & A6). rewrite E1 in *. rewrite E2 in *.
    exists h1, e0, (h2 ++ [e]), t1. split; [rewrite A1, <- app_assoc; reflexivity|]. repeat (split; [assumption|]).
    intros g1 g2 u G U. destruct g2 as [|x g2] using rev_ind.
    - rewrite app_nil_r in G. subst g1. assert (h1 ++ e0 :: h2 ++ [e] = h ++ [e]) as Q by (rewrite A1, <- app_assoc; reflexivity).
      rewrite Q, RR in U. injection U as <-. apply in_map. exact Hn.
    - clear IHg2. rewrite app_assoc in G. apply app_inj_tail in G. destruct G as (G & _). eapply A6; eauto. }
  assert (NEW : n_id n = te_id e -> n_addr n = te_addr e -> ~ known t0 (te_id e) ->
    exists h1 e0 h2 t1, h ++ [e] = h1 ++ e0 :: h2 /\ te_id e0 = n_id n /\ te_addr e0 = n_addr n /\
      run (t_default own) h1 = Val t1 /\ ~ known t1 (n_id n) /\
      forall g1 g2 u, h2 = g1 ++ g2 -> run (t_default own) (h1 ++ e0 :: g1) = Val u -> known u (n_id n)).
  { intros E1 E2 NK. exists h, e, [], t0. rewrite E1. repeat (split; [auto|]). intros g1 g2 u G U. symmetry in G. apply app_eq_nil in G. destruct G as (-> & ->).
    rewrite RR in U. injection U as <-. rewrite <- E1. apply in_map. exact Hn. }
  destruct EFF as [m r E1 E2 E3|E1 E2|m r E1 E2 E3 E4 E5 E6|E1 E2 E3 E4].
  - apply (Permutation_in _ E3) in Hn. destruct Hn as [<-|Hn].
    + apply (OLD m); auto. eapply Permutation_in; [symmetry; exact E2|left; auto].
    + apply (OLD n); auto. eapply Permutation_in; [symmetry; exact E2|right; auto].
  - apply (Permutation_in _ E2) in Hn. destruct Hn as [<-|Hn]; [apply NEW; auto|]. apply (OLD n); auto.
  - apply (Permutation_in _ E4) in Hn. destruct Hn as [<-|Hn]; [apply NEW; auto|].
    apply (OLD n); auto. eapply Permutation_in; [symmetry; exact E2|right; auto].
  - apply (Permutation_in _ E2) in Hn. apply (OLD n); auto.
Qed.
(** So a node that is heard from at another address keeps the one it has. *)
Theorem C71_moved_always : forall now id a t n, reachable t -> wf_id id -> In n (t_nodes t) -> n_id n = id ->
  exists t' m, touch_node now id a t = Val t' /\ In m (t_nodes t') /\ n_id m = id /\ n_addr m = n_addr n.
Proof.
  intros now id a t n R W Hn E. destruct (@C45_no_good_evicted now id a t R W) as (t' & d & T & _ & _ & _ & K & _).
  destruct K as (m & Hm & Em & IM); [unfold known; rewrite <- E; apply in_map; exact Hn|].
  exists t', (mk_node id (n_addr m) (Some now)). repeat split; auto. cbn.
  assert (NoDup (map n_id (t_nodes t))) as ND by (apply reachable_inv in R; apply (i_nodup R)).
  assert (m = n) as ->; [|reflexivity]. clear - ND Hn Hm E Em. induction (t_nodes t) as [|x l IH]; [destruct Hn|]. cbn in ND. inversion ND as [|? ? N1 N2]; subst.
  destruct Hn as [->|Hn], Hm as [->|Hm]; auto; exfalso; apply N1; [rewrite <- Em|rewrite Em]; apply in_map; auto.
Qed.

Example C03_exact_example : exists b, bm_reach b /\ bm_weight b = 2%N /\ count_true (firstn (bm_len b) (bits b)) = 1.
Proof.
  exists (mk_bitmap [x81] 3). split; [|split; vm_compute; reflexivity].
  eapply reach_replace with (d := [x81]). eapply reach_new with (len := 3). reflexivity. reflexivity.
Qed.
Example C10_exact_example : id_cmp (sid 2 0) (sid 3 0) = Eq /\ id_cmp (sid 1 0) (sid 3 0) = Lt /\ id_cmp (sid 3 0) (sid 3 0) = Eq.
Proof. repeat split; vm_compute; reflexivity. Qed.
Example C71_exact_example : exists t n, run (t_default (sid 0 0)) [mk_touch 0 (sid 1 1) (sad 1); mk_touch 1 (sid 1 1) (sad 2)] = Val t /\ In n (t_nodes t) /\ n_addr n = sad 1.
Proof. do 2 eexists. split; [vm_compute; reflexivity|]. split; [left; reflexivity|reflexivity]. Qed.
Print Assumptions C03_exact.
Print Assumptions C10_exact.
Print Assumptions C71_exact.
Print Assumptions C71_moved_always.
