(** C37: the file handle cache. *)
From Coq Require Import List NArith ZArith Lia Bool Arith Permutation.
From Coq Require Import Init.Byte.
From Verif Require Import Base Assoc CacheModel FsProofs.
Import ListNotations.
Set Implicit Arguments.

(** ** vocabulary *)
(** How stale an entry is: both accesses count once, a missing one makes the
    other count three times. *)
Inductive staleness (now : nat) : centry -> nat -> Prop :=
| st_both : forall r w, staleness now (mk_centry (Some r) (Some w)) ((now - r) + (now - w))
| st_read : forall r, staleness now (mk_centry (Some r) None) (3 * (now - r))
| st_write : forall w, staleness now (mk_centry None (Some w)) (3 * (now - w)).
(** The time of the last access of a kind. *)
Definition stamp (a : access) (e : centry) : option nat := match a with Aread => ce_read e | Awrite => ce_write e end.
Definition other (a : access) : access := match a with Aread => Awrite | Awrite => Aread end.
(** Any history of accesses; the hash map may be reordered at any time. *)
Inductive cache_reach : cache -> Prop :=
| cr_new : cache_reach []
| cr_get : forall c c2 a now opens p, cache_reach c -> Permutation c c2 -> cache_reach (fst (get_file a now opens p c2)).

(** ** proofs *)
Lemma dur_le_refl : forall a, dur_le a a = true.
Proof. destruct a; cbn; auto. apply Nat.leb_refl. Qed.
Lemma dur_le_trans : forall a b c, dur_le a b = true -> dur_le b c = true -> dur_le a c = true.
Proof. destruct a, b, c; cbn; intros; auto; try discriminate. apply Nat.leb_le in H, H0. apply Nat.leb_le. lia. Qed.
Lemma dur_le_total : forall a b, dur_le a b = false -> dur_le b a = true.
Proof. destruct a, b; cbn; intros; auto; try discriminate. apply Nat.leb_gt in H. apply Nat.leb_le. lia. Qed.
Lemma max_from_spec : forall now c best, In (max_from now best c) (best :: c) /\
  forall x, In x (best :: c) -> dur_le (weighted_elapsed now (snd x)) (weighted_elapsed now (snd (max_from now best c))) = true.
Proof.
  induction c as [|y t IH]; intro best; cbn [max_from].
  - split; [left; auto|]. intros x [<-|[]]. apply dur_le_refl.
  - destruct (IH (if dur_le (weighted_elapsed now (snd best)) (weighted_elapsed now (snd y)) then y else best)) as [A B].
    destruct (dur_le (weighted_elapsed now (snd best)) (weighted_elapsed now (snd y))) eqn:E.
    + split; [cbn in *; tauto|]. intros x [<-|[<-|H]]; try (apply B; cbn; auto; fail). eapply dur_le_trans; [exact E|]. apply B. left; auto.
    + split; [cbn in *; tauto|]. intros x [<-|[<-|H]]; try (apply B; cbn; auto; fail).
      eapply dur_le_trans; [apply dur_le_total; exact E|]. apply B. left; auto.
Qed.
Lemma evict_spec : forall now c, NoDup (keys c) -> c <> [] -> exists v ev, mget bytes_eqb v c = Some ev /\
  (forall k e, mget bytes_eqb k c = Some e -> dur_le (weighted_elapsed now e) (weighted_elapsed now ev) = true) /\
  evict now c = mdel bytes_eqb v c.
Proof.
  intros now [|x t] ND NE; [congruence|]. destruct (max_from_spec now t x) as [A B]. destruct (max_from now x t) as [v ev] eqn:E.
  exists v, ev. split; [apply (in_mget _ bytes_eqb_spec); auto|]. split.
  - intros k e G. apply (mget_in _ bytes_eqb_spec) in G. apply (B (k, e) G).
  - unfold evict. rewrite E. reflexivity.
Qed.
Definition stamped (e : centry) : Prop := ce_read e <> None \/ ce_write e <> None.
Record cache_inv (c : cache) : Prop := {
  ci_nodup : NoDup (keys c);
  ci_len : length c <= FILE_CACHE_SIZE;
  ci_stamp : forall k e, In (k, e) c -> stamped e }.
(** What an access does to the other files. *)
Lemma get_entry_spec : forall now opens p c, cache_inv c -> exists c1,
  get_entry now opens p c = (if opens then (if mhas bytes_eqb p c1 then c1 else mset bytes_eqb p (mk_centry None None) c1, true) else (c1, false)) /\
  cache_inv c1 /\ mhas bytes_eqb p c1 = mhas bytes_eqb p c /\ (mhas bytes_eqb p c1 = false -> length c1 < FILE_CACHE_SIZE) /\
  (mhas bytes_eqb p c = true \/ length c < FILE_CACHE_SIZE -> c1 = c) /\
  (mhas bytes_eqb p c = false -> length c = FILE_CACHE_SIZE -> exists v ev, mget bytes_eqb v c = Some ev /\
    (forall k e, mget bytes_eqb k c = Some e -> dur_le (weighted_elapsed now e) (weighted_elapsed now ev) = true) /\ c1 = mdel bytes_eqb v c).
Proof.
  intros now opens p c [ND L ST]. unfold get_entry. destruct (Nat.eqb_spec (length c) FILE_CACHE_SIZE) as [F|F]; destruct (mhas bytes_eqb p c) eqn:HP; cbn [andb negb].
  1, 3, 4: exists c; split; auto; split; [constructor; auto|]; split; auto; split; [intro; try congruence; lia|]; split; auto; intros; try congruence; lia.
  destruct (@evict_spec now c ND) as (v & ev & G & M & E). { intros ->. cbn in F. discriminate. }
  exists (evict now c). split; auto. rewrite E.
  assert (NP : v <> p). { intros ->. unfold mhas in HP. rewrite G in HP. discriminate. }
  assert (LD : length (mdel bytes_eqb v c) < FILE_CACHE_SIZE).
  { rewrite length_mdel. assert (mhas bytes_eqb v c = true) by (unfold mhas; rewrite G; auto). rewrite H, F. unfold FILE_CACHE_SIZE. lia. }
  split; [constructor|].
  - apply NoDup_mdel. auto.
  - lia.
  - intros k e H. apply (ST k). eapply mdel_incl; eauto.
  - split. { unfold mhas. rewrite (@mget_mdel_other _ _ _ bytes_eqb_spec); auto. }
    split; auto. split; [intros [H|H]; [congruence|lia]|]. intros _ _. exists v, ev. auto.
Qed.
Lemma get_file_inv : forall a now opens p c, cache_inv c -> cache_inv (fst (get_file a now opens p c)).
Proof.
  intros a now opens p c I. destruct (get_entry_spec now opens p I) as (c1 & E & [ND L ST] & H & F & _). unfold get_file. rewrite E.
  destruct opens; cbn [fst snd]; [|constructor; auto].
  assert (G : exists e c2, mget bytes_eqb p (if mhas bytes_eqb p c1 then c1 else mset bytes_eqb p (mk_centry None None) c1) = Some e /\
     c2 = (if mhas bytes_eqb p c1 then c1 else mset bytes_eqb p (mk_centry None None) c1) /\ NoDup (keys c2) /\ length c2 <= FILE_CACHE_SIZE /\
     mhas bytes_eqb p c2 = true /\ forall k x, k <> p -> In (k, x) c2 -> stamped x).
  { destruct (mhas bytes_eqb p c1) eqn:HP.
    - unfold mhas in HP. destruct (mget bytes_eqb p c1) as [e|] eqn:Q; [|discriminate]. exists e, c1. repeat split; auto.
      unfold mhas. rewrite Q. auto. intros k x _. apply ST.
    - exists (mk_centry None None). eexists. rewrite (mget_mset_same _ bytes_eqb_spec). split; auto. split; [reflexivity|].
      split; [apply (NoDup_mset _ bytes_eqb_spec); auto|]. split; [rewrite length_mset, HP; specialize (F eq_refl); lia|].
      split; [unfold mhas; rewrite (mget_mset_same _ bytes_eqb_spec); auto|].
      intros k x NE IN. apply (in_mget _ bytes_eqb_spec) in IN; [|apply (NoDup_mset _ bytes_eqb_spec); auto].
      rewrite (@mget_mset_other _ _ _ bytes_eqb_spec) in IN by auto. apply (mget_in _ bytes_eqb_spec) in IN. eapply ST; eauto. }
  destruct G as (e & c2 & G & Q & N2 & L2 & H2 & S2). rewrite G. rewrite <- Q in *. cbn [fst].
  set (v := match a with Aread => mk_centry (Some now) (ce_write e) | Awrite => mk_centry (ce_read e) (Some now) end). constructor.
  - apply (NoDup_mset _ bytes_eqb_spec); auto.
  - rewrite length_mset, H2. auto.
  - intros k x IN. apply (in_mget _ bytes_eqb_spec) in IN; [|apply (NoDup_mset _ bytes_eqb_spec); auto].
    destruct (bytes_eqb k p) eqn:KP.
    + apply bytes_eqb_eq in KP. subst k. rewrite (mget_mset_same _ bytes_eqb_spec) in IN. inversion IN. subst x v. destruct a; [left|right]; cbn; discriminate.
    + assert (k <> p) by (intros ->; rewrite bytes_eqb_refl in KP; discriminate).
      rewrite (@mget_mset_other _ _ _ bytes_eqb_spec) in IN by auto. apply (mget_in _ bytes_eqb_spec) in IN. eapply S2; eauto.
Qed.
Lemma cache_inv_perm : forall c c2, Permutation c c2 -> cache_inv c -> cache_inv c2.
Proof.
  intros c c2 P [A B C]. constructor.
  - eapply Permutation_NoDup; [|exact A]. unfold keys. apply Permutation_map. auto.
  - rewrite <- (Permutation_length P). auto.
  - intros k e H. apply (C k). eapply Permutation_in; [|exact H]. symmetry. auto.
Qed.
Lemma cache_reach_inv : forall c, cache_reach c -> cache_inv c.
Proof.
  induction 1; [constructor; cbn; try lia; try constructor; intros ? ? []|]. apply get_file_inv. eapply cache_inv_perm; eauto.
Qed.
Lemma stale_weight : forall now e, stamped e -> exists n, staleness now e n /\ weighted_elapsed now e = Some n.
Proof.
  intros now [[r|] [w|]] S; unfold weighted_elapsed; cbn [ce_read ce_write].
  - eexists; split; [constructor|]. reflexivity.
  - eexists; split; [constructor|]. f_equal. lia.
  - eexists; split; [constructor|]. f_equal. lia.
  - destruct S as [S|S]; cbn in S; congruence.
Qed.
Lemma stale_fun : forall now e n m, staleness now e n -> staleness now e m -> n = m.
Proof. intros now e n m A B. inversion A; subst; inversion B; subst; auto. Qed.

(** ** C37 *)
(** Never more than 16 files, none twice. *)
Theorem C37_bounded : forall c, cache_reach c -> length c <= 16 /\ NoDup (keys c).
Proof. intros c H. destruct (cache_reach_inv H). auto. Qed.
(** A successful access leaves the file cached and stamped with its time; the
    other stamp of a file that was cached is kept. *)
Theorem C37_accessed : forall c a now p, cache_reach c -> exists e,
  get_file a now true p c = (fst (get_file a now true p c), true) /\
  mget bytes_eqb p (fst (get_file a now true p c)) = Some e /\ stamp a e = Some now /\
  stamp (other a) e = match mget bytes_eqb p c with Some e0 => stamp (other a) e0 | None => None end.
Proof.
  intros c a now p R. apply cache_reach_inv in R. destruct (get_entry_spec now true p R) as (c1 & E & I & H & F & S & V).
  unfold get_file. rewrite E. cbn [fst snd]. destruct (mhas bytes_eqb p c1) eqn:HP.
  - rewrite S by (left; congruence). unfold mhas in H. destruct (mget bytes_eqb p c) as [e0|] eqn:Q; [|discriminate]. cbn [fst].
    rewrite (mget_mset_same _ bytes_eqb_spec). eexists. split; [reflexivity|]. split; [reflexivity|]. destruct a; auto.
  - rewrite (mget_mset_same _ bytes_eqb_spec). cbn [fst]. rewrite (mget_mset_same _ bytes_eqb_spec). eexists. split; [reflexivity|]. split; [reflexivity|].
    unfold mhas in H. destruct (mget bytes_eqb p c); [discriminate|]. destruct a; auto.
Qed.
(** While there is room, or the file is cached, no other file is touched, and
    nothing else enters; this also holds when opening fails. *)
Theorem C37_no_eviction : forall c a now opens p, cache_reach c -> In p (keys c) \/ length c < 16 ->
  forall k, k <> p -> mget bytes_eqb k (fst (get_file a now opens p c)) = mget bytes_eqb k c.
Proof.
  intros c a now opens p R O k K. apply cache_reach_inv in R. destruct (get_entry_spec now opens p R) as (c1 & E & I & H & F & S & V).
  assert (c1 = c). { apply S. destruct O; auto. left. apply (mhas_in _ bytes_eqb_spec). auto. } subst c1.
  unfold get_file. rewrite E. destruct opens; cbn [fst snd]; auto. destruct (mhas bytes_eqb p c).
  - destruct (mget bytes_eqb p c); auto. cbn [fst]. rewrite (@mget_mset_other _ _ _ bytes_eqb_spec); auto.
  - rewrite (mget_mset_same _ bytes_eqb_spec). cbn [fst]. rewrite !(@mget_mset_other _ _ _ bytes_eqb_spec); auto.
Qed.
(** When full, exactly one file goes, and none was staler. *)
Theorem C37_evicts_stalest : forall c a now opens p, cache_reach c -> ~ In p (keys c) -> length c = 16 ->
  exists v ev nv, mget bytes_eqb v c = Some ev /\ staleness now ev nv /\
    (forall k e n, mget bytes_eqb k c = Some e -> staleness now e n -> n <= nv) /\
    mget bytes_eqb v (fst (get_file a now opens p c)) = None /\
    forall k, k <> p -> k <> v -> mget bytes_eqb k (fst (get_file a now opens p c)) = mget bytes_eqb k c.
Proof.
  intros c a now opens p R NP L. apply cache_reach_inv in R. destruct (get_entry_spec now opens p R) as (c1 & E & I & H & F & S & V).
  assert (HP : mhas bytes_eqb p c = false). { destruct (mhas bytes_eqb p c) eqn:Q; auto. exfalso. apply NP. apply (mhas_in _ bytes_eqb_spec). auto. }
  destruct (V HP L) as (v & ev & G & M & ->). destruct R as [ND LE ST].
  assert (SV : stamped ev). { apply (ST v). apply (mget_in _ bytes_eqb_spec). auto. }
  destruct (stale_weight now SV) as (nv & SN & WN). exists v, ev, nv. split; auto. split; auto. split; [|].
  - intros k e n Q SE. specialize (M k e Q). assert (SK : stamped e) by (apply (ST k), (mget_in _ bytes_eqb_spec); auto).
    destruct (stale_weight now SK) as (m & S1 & W1). rewrite (stale_fun SE S1). rewrite W1, WN in M. cbn in M. apply Nat.leb_le. auto.
  - assert (VP : v <> p). { intros ->. apply NP. eapply (mget_some_key _ bytes_eqb_spec); eauto. }
    assert (A : forall k, k <> p -> mget bytes_eqb k (fst (get_file a now opens p c)) = mget bytes_eqb k (mdel bytes_eqb v c)).
    { intros k K. unfold get_file. rewrite E. destruct opens; cbn [fst snd]; auto. rewrite H, HP.
      rewrite (mget_mset_same _ bytes_eqb_spec). cbn [fst]. rewrite !(@mget_mset_other _ _ _ bytes_eqb_spec); auto. }
    split.
    + rewrite A by auto. apply (mget_mdel_same _ bytes_eqb_spec). auto.
    + intros k K1 K2. rewrite A by auto. apply (@mget_mdel_other _ _ _ bytes_eqb_spec). auto.
Qed.
(** A failed access to a file that is not cached leaves it uncached. *)
Theorem C37_failed : forall c a now p, cache_reach c -> ~ In p (keys c) ->
  mget bytes_eqb p (fst (get_file a now false p c)) = None /\ snd (get_file a now false p c) = false.
Proof.
  intros c a now p R NP. apply cache_reach_inv in R. destruct (get_entry_spec now false p R) as (c1 & E & I & H & _).
  unfold get_file. rewrite E. cbn [fst snd]. split; auto. apply (mget_none _ bytes_eqb_spec). intro Q. apply (mhas_in _ bytes_eqb_spec) in Q.
  apply NP. apply (mhas_in _ bytes_eqb_spec). congruence.
Qed.
(** Seventeen files, accessed one after the other. *)
Definition fill (n : nat) : cache := fold_left (fun c k => fst (get_file Awrite k true [n2b (N.of_nat k)] c)) (seq 0 n) [].
Example C37_example : cache_reach (fill 17) /\ length (fill 16) = 16 /\
  mhas bytes_eqb [x00] (fill 16) = true /\ mhas bytes_eqb [x00] (fill 17) = false /\ mhas bytes_eqb [x01] (fill 17) = true.
Proof.
  split; [|vm_compute; auto]. unfold fill. generalize (seq 0 17). assert (G : forall l c, cache_reach c -> cache_reach (fold_left (fun c k => fst (get_file Awrite k true [n2b (N.of_nat k)] c)) l c)).
  { induction l; intros c H; cbn [fold_left]; auto. apply IHl. econstructor; eauto. } intro l. apply G. constructor.
Qed.
Print Assumptions C37_evicts_stalest.
