(** Proofs about file handles and their background writes. *)
From Coq Require Import List NArith ZArith Lia Bool Arith Permutation.
From Coq Require Import Init.Byte.
From Verif Require Import Base Assoc CacheModel FsModel FsSpec FsProofs CacheProps FileModel FileSpec.
Import ListNotations.
Set Implicit Arguments.

(** ** the cache *)
Lemma mhas_mset : forall (p k : bytes) V (v : V) m, mhas bytes_eqb k (mset bytes_eqb p v m) = bytes_eqb k p || mhas bytes_eqb k m.
Proof.
  intros p k V v m. unfold mhas. destruct (bytes_eqb k p) eqn:E.
  - apply bytes_eqb_eq in E. subst. rewrite (mget_mset_same _ bytes_eqb_spec). auto.
  - rewrite (@mget_mset_other _ _ _ bytes_eqb_spec); auto. intros ->. rewrite bytes_eqb_refl in E. discriminate.
Qed.
Lemma get_file_keys : forall a now p c, cache_inv c -> exists c1, cache_inv c1 /\
  (forall k, mhas bytes_eqb k (fst (get_file a now true p c)) = bytes_eqb k p || mhas bytes_eqb k c1) /\
  (forall k, mhas bytes_eqb k c1 = true -> mhas bytes_eqb k c = true) /\
  (mhas bytes_eqb p c = true \/ length c < FILE_CACHE_SIZE -> c1 = c).
Proof.
  intros a now p c I. destruct (get_entry_spec now true p I) as (c1 & E & I1 & H & F & S & V). exists c1. split; auto. split; [|split; auto].
  - intro k. unfold get_file. rewrite E. cbn [fst snd]. destruct (mhas bytes_eqb p c1) eqn:HP.
    + unfold mhas in HP. destruct (mget bytes_eqb p c1) eqn:Q; [|discriminate]. cbn [fst]. apply mhas_mset.
    + rewrite (mget_mset_same _ bytes_eqb_spec). cbn [fst]. rewrite !mhas_mset. destruct (bytes_eqb k p); auto.
  - intros k K. destruct (mhas bytes_eqb p c) eqn:HP; [rewrite <- S; auto|].
    destruct (Nat.eq_dec (length c) FILE_CACHE_SIZE) as [L|L].
    + destruct (V eq_refl L) as (v & ev & G & M & ->). apply (mhas_in _ bytes_eqb_spec) in K. apply (mhas_in _ bytes_eqb_spec). eapply keys_mdel_incl; eauto.
    + rewrite <- S; auto. right. pose proof (ci_len I). lia.
Qed.

(** ** one handle *)
Record hinv (s : fstate) : Prop := {
  fi_cache : cache_inv (f_cache s);
  fi_hand : NoDup (keys (f_hand s));
  fi_open : forall k, mhas bytes_eqb k (f_hand s) = true -> mhas bytes_eqb k (f_cache s) = true }.
(** What a file will hold once its handle is done. *)
Definition eff (s : fstate) (p : bytes) : bytes :=
  match mget bytes_eqb p (f_hand s) with Some w => write_at (dget (f_disk s) p) (fst w) (snd w) | None => dget (f_disk s) p end.
Lemma fresh_inv : forall d, hinv (fresh d).
Proof. constructor; cbn; try constructor; cbn; try lia; try constructor; intros ? []; discriminate. Qed.
Lemma settle_same : forall p s, f_cache (settle p s) = f_cache s /\ f_orph (settle p s) = f_orph s.
Proof. intros. unfold settle. destruct (mget _ p (f_hand s)); auto. Qed.
Lemma settle_hand : forall p s k, NoDup (keys (f_hand s)) ->
  mget bytes_eqb k (f_hand (settle p s)) = if bytes_eqb k p then None else mget bytes_eqb k (f_hand s).
Proof.
  intros p s k ND. unfold settle. destruct (mget bytes_eqb p (f_hand s)) as [w|] eqn:E; cbn [f_hand]; destruct (bytes_eqb k p) eqn:K.
  - apply bytes_eqb_eq in K. subst. apply (mget_mdel_same _ bytes_eqb_spec). auto.
  - apply (@mget_mdel_other _ _ _ bytes_eqb_spec). intros ->. rewrite bytes_eqb_refl in K. discriminate.
  - apply bytes_eqb_eq in K. subst. auto.
  - auto.
Qed.
Lemma settle_inv : forall p s, hinv s -> hinv (settle p s).
Proof.
  intros p s [C H O]. destruct (settle_same p s) as [E _]. constructor; rewrite ?E; auto.
  - unfold settle. destruct (mget bytes_eqb p (f_hand s)); cbn [f_hand]; auto. apply NoDup_mdel. auto.
  - intros k K. apply O. unfold mhas in *. rewrite settle_hand in K by auto. destruct (bytes_eqb k p); [discriminate|]. auto.
Qed.
Lemma settle_eff : forall p s k, hinv s -> eff (settle p s) k = eff s k.
Proof.
  intros p s k I. unfold eff. rewrite settle_hand by apply I. unfold settle. destruct (bytes_eqb k p) eqn:K.
  - apply bytes_eqb_eq in K. subst k. destruct (mget bytes_eqb p (f_hand s)) as [w|]; cbn [f_disk]; auto. unfold do_write. cbn [fst snd]. rewrite dget_same. auto.
  - assert (k <> p) by (intros ->; rewrite bytes_eqb_refl in K; discriminate).
    destruct (mget bytes_eqb p (f_hand s)) as [w|]; cbn [f_disk]; auto. unfold do_write. cbn [fst snd]. rewrite dget_other; auto.
Qed.
Lemma settled_disk : forall p s, hinv s -> dget (f_disk (settle p s)) p = eff s p.
Proof. intros p s I. rewrite <- (settle_eff p p I). unfold eff. rewrite settle_hand by apply I. rewrite bytes_eqb_refl. auto. Qed.
Lemma filter_keys : forall V (f : bytes * V -> bool) m, NoDup (keys m) -> NoDup (keys (filter f m)).
Proof.
  intros V f m. unfold keys. induction m as [|x t IH]; cbn; intro N; auto. inversion N; subst. destruct (f x); cbn; auto. constructor; auto.
  intro H. apply H1. apply in_map_iff in H as (y & E & Y). apply filter_In in Y as [Y _]. rewrite <- E. apply in_map. auto.
Qed.
Lemma use_inv : forall a now p s, hinv s -> hinv (use_file a now p s).
Proof.
  intros a now p s [C H O]. unfold use_file. apply settle_inv. constructor; cbn [f_cache f_hand].
  - apply get_file_inv. auto.
  - apply filter_keys. auto.
  - intros k K. apply (mhas_in _ bytes_eqb_spec) in K. unfold keys in K. apply in_map_iff in K as (x & <- & X). apply filter_In in X. apply X.
Qed.
Lemma fstep_inv : forall s e s' o, hinv s -> fstep s e = Some (s', o) -> hinv s'.
Proof.
  intros s e s' o I E. destruct e as [a now p|p off b|p off n|p|k]; cbn in E.
  - inversion E. apply use_inv. auto.
  - destruct (mhas bytes_eqb p (f_cache s)) eqn:HP; [|discriminate]. destruct b as [|x b]; inversion E; subst; auto.
    destruct (settle_inv p I) as [C H O]. destruct (settle_same p s) as [Q _]. constructor; cbn [f_cache f_hand]; auto.
    + apply (NoDup_mset _ bytes_eqb_spec). auto.
    + intros k K. rewrite mhas_mset in K. apply orb_true_iff in K as [K|K]; auto. apply bytes_eqb_eq in K. subst. rewrite Q. auto.
  - destruct (mhas bytes_eqb p (f_cache s)) eqn:HP; [|discriminate]. destruct n; inversion E; subst; auto. apply settle_inv. auto.
  - destruct (mget bytes_eqb p (f_hand s)); [|discriminate]. inversion E. apply settle_inv. auto.
  - destruct (nth_error (f_orph s) k); [|discriminate]. inversion E. destruct I. constructor; auto.
Qed.

(** ** few files *)
Lemma filter_true : forall A (f : A -> bool) l, (forall x, In x l -> f x = true) -> filter f l = l.
Proof. induction l as [|x t IH]; cbn; intro H; auto. rewrite (H x) by auto. f_equal. apply IH. auto. Qed.
Lemma filter_false : forall A (f : A -> bool) l, (forall x, In x l -> f x = false) -> filter f l = [].
Proof. induction l as [|x t IH]; cbn; intro H; auto. rewrite (H x) by auto. apply IH. auto. Qed.
Lemma room : forall s p files, hinv s -> (forall k, mhas bytes_eqb k (f_cache s) = true -> In k files) -> In p files -> length files <= 16 ->
  mhas bytes_eqb p (f_cache s) = true \/ length (f_cache s) < FILE_CACHE_SIZE.
Proof.
  intros s p files I K P L. destruct (mhas bytes_eqb p (f_cache s)) eqn:H; auto. right.
  assert (N : NoDup (p :: keys (f_cache s))). { constructor; [|apply (ci_nodup (fi_cache I))]. intro Q. apply (mhas_in _ bytes_eqb_spec) in Q. congruence. }
  apply (@NoDup_incl_length _ _ files) in N; [|intros x [<-|X]; auto; apply K; apply (mhas_in _ bytes_eqb_spec); auto].
  cbn in N. unfold keys in N. rewrite map_length in N. unfold FILE_CACHE_SIZE. lia.
Qed.
Lemma use_kept : forall a now p s, hinv s -> (mhas bytes_eqb p (f_cache s) = true \/ length (f_cache s) < FILE_CACHE_SIZE) ->
  f_orph (use_file a now p s) = f_orph s /\ (forall k, eff (use_file a now p s) k = eff s k) /\
  (forall k, mhas bytes_eqb k (f_cache (use_file a now p s)) = bytes_eqb k p || mhas bytes_eqb k (f_cache s)).
Proof.
  intros a now p s I R. destruct (get_file_keys a now p (fi_cache I)) as (c1 & I1 & G & _ & S). specialize (S R). subst c1.
  assert (KH : forall x, In x (f_hand s) -> mhas bytes_eqb (fst x) (fst (get_file a now true p (f_cache s))) = true).
  { intros x X. rewrite G. apply orb_true_iff. right. apply (fi_open I). apply (mhas_in _ bytes_eqb_spec). unfold keys. apply in_map. auto. }
  assert (U : use_file a now p s = settle p (mk_fstate (f_disk s) (fst (get_file a now true p (f_cache s))) (f_hand s) (f_orph s))).
  { unfold use_file. rewrite filter_true by auto. rewrite filter_false, app_nil_r; auto. intros x X. rewrite KH; auto. }
  rewrite U. destruct (settle_same p (mk_fstate (f_disk s) (fst (get_file a now true p (f_cache s))) (f_hand s) (f_orph s))) as [C O]. rewrite C, O. cbn [f_cache f_orph].
  split; auto. split; auto. intro k. rewrite settle_eff; [reflexivity|]. destruct I. constructor; cbn [f_cache f_hand]; auto.
  - apply get_file_inv. auto.
  - intros x X. rewrite G. apply orb_true_iff. right. auto.
Qed.
Lemma few_run : forall s h outs s2, fruns s h outs s2 -> forall d files, length files <= 16 -> incl (used h) files -> hinv s -> f_orph s = [] ->
  (forall k, mhas bytes_eqb k (f_cache s) = true -> In k files) -> (forall k, eff s k = dget d k) ->
  outs = plain_reads d h /\ f_orph s2 = [] /\ forall k, eff s2 k = dget (plain d h) k.
Proof.
  induction 1 as [s|s e s1 o h outs s2 E R IH|s c h outs s2 P R IH]; intros d files L U I O K V.
  - cbn. auto.
  - assert (I1 : hinv s1) by (eapply fstep_inv; eauto).
    assert (U2 : incl (used h) files). { intros x X. apply U. unfold used in *. cbn. apply in_or_app. auto. }
    destruct e as [a now p|p off b|p off n|p|k]; cbn in E.
    + inversion E; subst; clear E. assert (P : In p files) by (apply U; cbn; auto).
      destruct (use_kept a now p I (@room s p files I K P L)) as (A & B & C).
      cbn [plain plain_reads app]. apply IH with (files := files); auto.
      * rewrite A. auto.
      * intros k Q. rewrite C in Q. apply orb_true_iff in Q as [Q|Q]; auto. apply bytes_eqb_eq in Q. subst. auto.
      * intro k. rewrite B. auto.
    + destruct (mhas bytes_eqb p (f_cache s)) eqn:HP; [|discriminate].
      destruct (settle_same p s) as [C1 O1].
      assert (G : exists d', d' = dput d p (write_at (dget d p) off b) /\ forall k, eff s1 k = dget d' k).
      { eexists. split; [reflexivity|]. intro k. destruct b as [|x b].
        - inversion E; subst. cbn [write_at]. rewrite V. destruct (bytes_eqb k p) eqn:Q.
          + apply bytes_eqb_eq in Q. subst. rewrite dget_same. auto.
          + rewrite dget_other; auto. intros ->. rewrite bytes_eqb_refl in Q. discriminate.
        - remember (x :: b) as y. inversion E; subst s1 o. unfold eff. cbn [f_hand f_disk]. destruct (bytes_eqb k p) eqn:Q.
          + apply bytes_eqb_eq in Q. subst k. rewrite (mget_mset_same _ bytes_eqb_spec), dget_same. cbn [fst snd]. rewrite settled_disk by auto. rewrite V. auto.
          + assert (k <> p) by (intros ->; rewrite bytes_eqb_refl in Q; discriminate).
            rewrite (@mget_mset_other _ _ _ bytes_eqb_spec), dget_other by auto. rewrite <- V, <- (settle_eff p k I). reflexivity. }
      destruct G as (d' & D & G). cbn [plain plain_reads]. rewrite <- D.
      assert (Q : o = [] /\ f_orph s1 = [] /\ f_cache s1 = f_cache s).
      { destruct b; inversion E; subst; auto. cbn [f_orph f_cache]. rewrite C1, O1. auto. }
      destruct Q as (-> & Q1 & Q2). cbn [app]. apply IH with (files := files); auto. rewrite Q2. auto.
    + destruct (mhas bytes_eqb p (f_cache s)) eqn:HP; [|discriminate]. destruct (settle_same p s) as [C1 O1]. cbn [plain plain_reads].
      assert (Q : o = [read_at (dget d p) off n] /\ f_orph s1 = [] /\ f_cache s1 = f_cache s /\ forall k, eff s1 k = dget d k).
      { destruct n; inversion E; subst; auto.
        - split; [|auto]. unfold read_at. cbn [Nat.eqb firstn]. destruct (_ <? _); auto.
        - rewrite settled_disk by auto. rewrite V, O1, C1. repeat split; auto. intro k. rewrite settle_eff; auto. }
      destruct Q as (-> & Q1 & Q2 & Q3). cbn [app]. destruct (IH d files) as (A & B); auto. { rewrite Q2. auto. } split; auto. f_equal. auto.
    + destruct (mget bytes_eqb p (f_hand s)); [|discriminate]. inversion E; subst. destruct (settle_same p s) as [C1 O1]. cbn [plain plain_reads app].
      apply IH with (files := files); auto; rewrite ?C1, ?O1; auto. intro k. rewrite settle_eff; auto.
    + rewrite O in E. destruct k; discriminate.
  - apply IH with (files := files); auto.
    + destruct I. constructor; cbn [f_cache f_hand]; auto.
      * eapply cache_inv_perm; eauto.
      * intros k Q. apply (mhas_in _ bytes_eqb_spec). unfold keys. eapply Permutation_in; [apply Permutation_map; exact P|].
        apply (mhas_in _ bytes_eqb_spec). auto.
    + intros k Q. apply K. apply (mhas_in _ bytes_eqb_spec). apply (mhas_in _ bytes_eqb_spec) in Q. unfold keys in *.
      eapply Permutation_in; [apply Permutation_map; symmetry; exact P|]. auto.
Qed.

(** ** writes in any order *)
Definition apply_all (l : list (bytes * wreq)) (d : disk) : disk := fold_left do_write l d.
Definition same (a b : disk) : Prop := forall k, dget a k = dget b k.
Lemma do_write_same : forall a b w, same a b -> same (do_write a w) (do_write b w).
Proof.
  intros a b w S k. unfold do_write. destruct (bytes_eqb k (fst w)) eqn:K.
  - apply bytes_eqb_eq in K. subst. rewrite !dget_same, S. auto.
  - assert (k <> fst w) by (intros ->; rewrite bytes_eqb_refl in K; discriminate). rewrite !dget_other; auto.
Qed.
Lemma apply_same : forall l a b, same a b -> same (apply_all l a) (apply_all l b).
Proof. induction l; cbn; auto. intros. apply IHl. apply do_write_same. auto. Qed.
Lemma nth_ext_error : forall A (a b : list A), (forall x, nth_error a x = nth_error b x) -> a = b.
Proof.
  induction a as [|x a IH]; intros [|y b] H; auto.
  - specialize (H 0). discriminate.
  - specialize (H 0). discriminate.
  - pose proof (H 0) as E. cbn in E. inversion E. f_equal. apply IH. intro n. apply (H (S n)).
Qed.
Lemma write_at_commute : forall f o1 d1 o2 d2, o1 + length d1 <= o2 \/ o2 + length d2 <= o1 ->
  write_at (write_at f o1 d1) o2 d2 = write_at (write_at f o2 d2) o1 d1.
Proof.
  intros f o1 d1 o2 d2 D. destruct d1 as [|x1 d1]; [reflexivity|]. destruct d2 as [|x2 d2]; [reflexivity|].
  apply nth_ext_error. intro x. rewrite !write_at_nth, !write_at_length.
  cbn [length] in *. set (l1 := S (length d1)) in *. set (l2 := S (length d2)) in *. assert (0 < l1) by (unfold l1; lia). assert (0 < l2) by (unfold l2; lia).
  bools; cbn [andb]; auto; try lia; try reflexivity.
Qed.
Lemma do_write_swap : forall a b d, apart a b -> same (do_write (do_write d a) b) (do_write (do_write d b) a).
Proof.
  intros [p [o x]] [q [r y]] d A k. unfold apart in A. cbn [fst snd] in A. unfold do_write. cbn [fst snd].
  destruct (bytes_eqb p q) eqn:PQ.
  - apply bytes_eqb_eq in PQ. subst q. destruct (bytes_eqb k p) eqn:K.
    + apply bytes_eqb_eq in K. subst k. rewrite !dget_same. apply write_at_commute. auto.
    + assert (k <> p) by (intros ->; rewrite bytes_eqb_refl in K; discriminate). rewrite !dget_other; auto.
  - assert (N : p <> q) by (intros ->; rewrite bytes_eqb_refl in PQ; discriminate). rewrite (@dget_other d p q) by auto. rewrite (@dget_other d q p) by auto.
    destruct (bytes_eqb k p) eqn:K; [apply bytes_eqb_eq in K; subst k; rewrite dget_same, dget_other, dget_same by auto; auto|].
    assert (k <> p) by (intros ->; rewrite bytes_eqb_refl in K; discriminate).
    destruct (bytes_eqb k q) eqn:K2; [apply bytes_eqb_eq in K2; subst k; rewrite dget_same, dget_other, dget_same by auto; auto|].
    assert (k <> q) by (intros ->; rewrite bytes_eqb_refl in K2; discriminate). rewrite !dget_other; auto.
Qed.
Lemma apart_sym : forall a b, apart a b -> apart b a.
Proof. unfold apart. intros a b H E. destruct H; auto. Qed.
Lemma pairs_perm : forall l m, Permutation l m -> ForallOrdPairs apart l -> ForallOrdPairs apart m.
Proof.
  induction 1; intro F; auto.
  - inversion F; subst. constructor; auto. eapply Permutation_Forall; eauto.
  - inversion F; subst. inversion H1; subst. inversion H2; subst. constructor; [constructor; auto; apply apart_sym; auto|]. constructor; auto.
Qed.
Lemma apply_perm : forall l m, Permutation l m -> ForallOrdPairs apart l -> forall d, same (apply_all l d) (apply_all m d).
Proof.
  induction 1; intros F d.
  - intro k. auto.
  - inversion F; subst. cbn. apply IHPermutation. auto.
  - inversion F; subst. inversion H1; subst. cbn. apply apply_same. apply do_write_swap. auto.
  - intro k. rewrite (IHPermutation1 F d k). apply IHPermutation2. eapply pairs_perm; eauto.
Qed.
Lemma apply_app : forall a b d, apply_all (a ++ b) d = apply_all b (apply_all a d).
Proof. intros. unfold apply_all. apply fold_left_app. Qed.
Lemma apply_none : forall l d p, (forall x, In x l -> fst x <> p) -> dget (apply_all l d) p = dget d p.
Proof.
  induction l as [|x t IH]; cbn; intros d p H; auto. rewrite IH by auto. unfold do_write. apply dget_other. intro E. apply (H x); auto.
Qed.
Lemma plain_written : forall h d, same (plain d h) (apply_all (written h) d).
Proof.
  induction h as [|e h IH]; intros d k; auto. destruct e as [a now p|p off b|p off n|p|j]; cbn [plain]; try apply IH. destruct b as [|x b].
  - rewrite IH. cbn [write_at]. apply (@apply_same (written h)). intro q. destruct (bytes_eqb q p) eqn:Q.
    + apply bytes_eqb_eq in Q. subst. apply dget_same.
    + apply dget_other. intros ->. rewrite bytes_eqb_refl in Q. discriminate.
  - rewrite IH. reflexivity.
Qed.
Lemma perm_mdel : forall (p : bytes) (w : wreq) m, mget bytes_eqb p m = Some w -> Permutation m ((p, w) :: mdel bytes_eqb p m).
Proof.
  induction m as [|[q v] t IH]; cbn; intro E; [discriminate|]. destruct (bytes_eqb p q) eqn:Q.
  - apply bytes_eqb_eq in Q. subst. inversion E. auto.
  - etransitivity; [apply perm_skip; apply IH; auto|]. apply perm_swap.
Qed.
Lemma mset_new : forall (p : bytes) (w : wreq) m, mget bytes_eqb p m = None -> mset bytes_eqb p w m = m ++ [(p, w)].
Proof. induction m as [|[q v] t IH]; cbn; intro E; auto. destruct (bytes_eqb p q); [discriminate|]. f_equal. auto. Qed.
Lemma filter_split : forall A (f : A -> bool) l, Permutation l (filter f l ++ filter (fun x => negb (f x)) l).
Proof.
  induction l as [|x t IH]; cbn; auto. destruct (f x); cbn; auto. etransitivity; [apply perm_skip; exact IH|]. apply Permutation_middle.
Qed.
Lemma settle_track : forall p s, exists A, f_disk (settle p s) = apply_all A (f_disk s) /\ Permutation (A ++ f_hand (settle p s)) (f_hand s).
Proof.
  intros p s. unfold settle. destruct (mget bytes_eqb p (f_hand s)) as [w|] eqn:E.
  - exists [(p, w)]. split; auto. cbn [f_hand app]. symmetry. apply perm_mdel. auto.
  - exists []. auto.
Qed.
(** Every write is done, under way in a handle or under way in a dropped one. *)
Lemma track_run : forall s h outs s2, fruns s h outs s2 -> hinv s -> hinv s2 /\ exists A, f_disk s2 = apply_all A (f_disk s) /\
  Permutation (A ++ f_hand s2 ++ f_orph s2) ((f_hand s ++ f_orph s) ++ written h).
Proof.
  induction 1 as [s|s e s1 o h outs s2 E R IH|s c h outs s2 P R IH]; intro I.
  - split; auto. exists []. cbn. rewrite app_nil_r. auto.
  - assert (I1 : hinv s1) by (eapply fstep_inv; eauto). destruct (IH I1) as (I2 & A2 & D2 & P2). split; auto.
    assert (G : exists A1 w, f_disk s1 = apply_all A1 (f_disk s) /\ written (e :: h) = w ++ written h /\ Permutation (A1 ++ f_hand s1 ++ f_orph s1) ((f_hand s ++ f_orph s) ++ w)).
    { clear IH P2 D2 A2. destruct e as [a now p|p off b|p off n|p|k]; cbn in E.
      - inversion E; subst; clear E.
        set (c := fst (get_file a now true p (f_cache s))). set (f := fun h0 : bytes * wreq => mhas bytes_eqb (fst h0) c).
        set (t := mk_fstate (f_disk s) c (filter f (f_hand s)) (f_orph s ++ filter (fun x => negb (f x)) (f_hand s))).
        change (use_file a now p s) with (settle p t).
        destruct (settle_track p t) as (A & D & Q). exists A, []. split; auto. split; auto. destruct (settle_same p t) as [_ ->]. cbn [f_orph t].
        rewrite app_nil_r, app_assoc, Q. cbn [f_hand t]. rewrite (filter_split f (f_hand s)) at 3. rewrite <- !app_assoc. apply Permutation_app_head.
        apply Permutation_app_comm.
      - destruct (mhas bytes_eqb p (f_cache s)); [|discriminate]. destruct b as [|x b].
        + inversion E; subst. exists [], []. rewrite app_nil_r. auto.
        + remember (x :: b) as y. inversion E; subst s1 o; clear E. destruct (settle_track p s) as (A & D & Q). destruct (settle_same p s) as [_ O].
          exists A, [(p, (off, y))]. cbn [f_disk f_hand f_orph]. split; auto. split; [cbn; rewrite Heqy; auto|].
          rewrite mset_new by (rewrite settle_hand by apply I; rewrite bytes_eqb_refl; auto).
          rewrite O, <- Q, <- !app_assoc. apply Permutation_app_head. apply Permutation_app_head. apply Permutation_app_comm.
      - destruct (mhas bytes_eqb p (f_cache s)); [|discriminate]. destruct n; inversion E; subst; clear E.
        + exists [], []. rewrite app_nil_r. auto.
        + destruct (settle_track p s) as (A & D & Q). destruct (settle_same p s) as [_ O]. exists A, []. split; auto. split; auto. rewrite O, <- Q, app_nil_r, <- !app_assoc. auto.
      - destruct (mget bytes_eqb p (f_hand s)); [|discriminate]. inversion E; subst. destruct (settle_track p s) as (A & D & Q). destruct (settle_same p s) as [_ O].
        exists A, []. split; auto. split; auto. rewrite O, <- Q, app_nil_r, <- !app_assoc. auto.
      - destruct (nth_error (f_orph s) k) as [w|] eqn:W; [|discriminate]. inversion E; subst; clear E. exists [w], []. split; auto. split; auto. cbn [f_hand f_orph].
        rewrite app_nil_r. assert (Q : f_orph s = firstn k (f_orph s) ++ w :: skipn (S k) (f_orph s)).
        { clear -W. revert k W. induction (f_orph s) as [|x t IH]; intros [|k] W; cbn in *; try discriminate; [inversion W; auto|]. f_equal. auto. }
        rewrite Q at 3. cbn [app]. rewrite <- Permutation_middle. rewrite Permutation_middle. auto. }
    destruct G as (A1 & w & D1 & W & P1). exists (A1 ++ A2). rewrite apply_app, <- D1. split; auto. rewrite W, <- app_assoc, P2.
    rewrite !app_assoc. apply Permutation_app_tail. rewrite <- !app_assoc. rewrite <- !app_assoc in P1. exact P1.
  - destruct IH as (I2 & A & D & Q); [|split; auto; exists A; auto]. destruct I. constructor; cbn [f_cache f_hand]; auto.
    + eapply cache_inv_perm; eauto.
    + intros k K. apply (mhas_in _ bytes_eqb_spec). unfold keys. eapply Permutation_in; [apply Permutation_map; exact P|].
      apply (mhas_in _ bytes_eqb_spec). auto.
Qed.
Lemma once_pending : forall d h outs s, fruns (fresh d) h outs s -> once h -> hinv s /\ same (apply_all (f_hand s ++ f_orph s) (f_disk s)) (plain d h).
Proof.
  intros d h outs s R O. destruct (track_run R (fresh_inv d)) as (I & A & D & P). split; auto. cbn in P, D. intro k. rewrite plain_written, D, <- apply_app.
  apply apply_perm; auto. eapply pairs_perm; [|exact O]. symmetry. auto.
Qed.

(** ** the storage functions *)
Lemma plain_same : forall h a b, same a b -> same (plain a h) (plain b h).
Proof.
  induction h as [|e h IH]; intros a b S; auto. destruct e as [x now p|p off y|p off n|p|j]; cbn [plain]; try (apply IH; auto; fail).
  apply IH. apply (@do_write_same a b (p, (off, y))). auto.
Qed.
Lemma plain_reads_same : forall h a b, same a b -> plain_reads a h = plain_reads b h.
Proof.
  induction h as [|e h IH]; intros a b S; auto. destruct e as [x now p|p off y|p off n|p|j]; cbn [plain_reads]; try (apply IH; auto; fail).
  - apply IH. apply (@do_write_same a b (p, (off, y))). auto.
  - rewrite S. f_equal. apply IH. auto.
Qed.
Lemma plain_app : forall a b d, plain d (a ++ b) = plain (plain d a) b.
Proof. induction a as [|e a IH]; intros b d; auto. destruct e; cbn [plain app]; auto. Qed.
Lemma plain_reads_app : forall a b d, plain_reads d (a ++ b) = plain_reads d a ++ plain_reads (plain d a) b.
Proof. induction a as [|e a IH]; intros b d; auto. destruct e; cbn [plain plain_reads app]; auto. f_equal. auto. Qed.
(** Only what the program does counts. *)
Lemma plain_program : forall h d, plain d (filter program h) = plain d h /\ plain_reads d (filter program h) = plain_reads d h.
Proof.
  induction h as [|e h IH]; intro d; auto. destruct e; cbn [filter program plain plain_reads]; auto. destruct (IH d). split; auto. f_equal. auto.
Qed.
Lemma used_program : forall h, used (filter program h) = used h.
Proof. unfold used. induction h as [|e h IH]; auto. destruct e; cbn; auto. f_equal. auto. Qed.
Lemma written_program : forall h, written (filter program h) = written h.
Proof. unfold written. induction h as [|e h IH]; auto. destruct e; cbn; auto. f_equal. auto. Qed.
Lemma write_at_app : forall f off a b, write_at (write_at f off a) (off + length a) b = write_at f off (a ++ b).
Proof.
  intros f off a b. destruct a as [|x a]. { cbn [write_at length app]. rewrite Nat.add_0_r. auto. }
  destruct b as [|y b]. { rewrite app_nil_r. auto. }
  apply nth_ext_error. intro k. rewrite !write_at_nth, write_at_length, app_length. cbn [length].
  set (la := S (length a)). set (lb := S (length b)). assert (0 < la) by (unfold la; lia). assert (0 < lb) by (unfold lb; lia).
  assert (L : length (x :: a) = la) by reflexivity.
  destruct (Nat.leb_spec off k); destruct (Nat.ltb_spec k (off + la)); cbn [andb].
  - rewrite nth_error_app1 by (rewrite L; lia). bools; try lia; auto.
  - destruct (Nat.ltb_spec k (off + (la + lb))).
    + rewrite nth_error_app2 by (rewrite L; lia). rewrite L. replace (k - off - la) with (k - (off + la)) by lia. bools; try lia; auto.
    + bools; try lia; auto.
  - bools; try lia; auto.
  - lia.
Qed.
Lemma writes_plain : forall l p off d, same (plain d (writes p off l)) (do_write d (p, (off, concat l))).
Proof.
  induction l as [|b t IH]; intros p off d k; cbn [writes plain concat].
  - unfold do_write. cbn [fst snd write_at]. destruct (bytes_eqb k p) eqn:Q.
    + apply bytes_eqb_eq in Q. subst. rewrite dget_same. auto.
    + rewrite dget_other; auto. intros ->. rewrite bytes_eqb_refl in Q. discriminate.
  - rewrite IH. unfold do_write. cbn [fst snd]. destruct (bytes_eqb k p) eqn:Q.
    + apply bytes_eqb_eq in Q. subst. rewrite !dget_same. apply write_at_app.
    + assert (k <> p) by (intros ->; rewrite bytes_eqb_refl in Q; discriminate). rewrite !dget_other; auto.
Qed.
Lemma writes_quiet : forall l p off d, plain_reads d (writes p off l) = [] /\ used (writes p off l) = [].
Proof.
  induction l as [|b t IH]; intros p off d; auto. cbn [writes plain_reads]. destruct (IH p (off + length b) (dput d p (write_at (dget d p) off b))) as [A B].
  split; auto.
Qed.
Lemma chunk_slices_spec : forall bs f data before s e f', chunk_write bs f data before s e = Val f' ->
  f' = write_at f before (concat (chunk_slices bs data s e)).
Proof.
  intros bs f data before s e f' H. unfold chunk_write in H. destruct (e <? s); [discriminate|]. destruct (e =? 0); [discriminate|].
  cbv zeta in H. unfold chunk_slices. destruct (_ || _); [discriminate|].
  destruct (firstn ((e - 1) / bs + 1 - s / bs) (skipn (s / bs) data)) as [|b [|c t]]; [discriminate| |].
  - destruct (_ <? _); inversion H. cbn [concat]. rewrite app_nil_r. auto.
  - destruct (_ || _); [discriminate|]. inversion H. cbn [concat]. rewrite concat_app. cbn [concat]. rewrite app_nil_r. auto.
Qed.
Lemma write_script_plain : forall bs i data cs nows d d', write_chunks bs i d data cs = Val d' -> same (plain d (write_script bs i nows data cs)) d'.
Proof.
  induction cs as [|c t IH]; intros nows d d' E; cbn [write_chunks write_script plain] in *. { inversion E. intro. auto. }
  destruct (chunk_write bs (dget d (full_path i (fc_file c))) data (fc_before c) (fc_start c) (fc_end c)) as [f| |] eqn:C; [|discriminate|discriminate].
  cbn [rbind] in E. intro k. rewrite plain_app. rewrite <- (IH (fun k => nows (S k)) _ _ E k). apply plain_same. intro q.
  rewrite writes_plain. rewrite (chunk_slices_spec _ _ _ _ _ _ C). reflexivity.
Qed.
Lemma write_script_quiet : forall bs i data cs nows d, plain_reads d (write_script bs i nows data cs) = [] /\
  used (write_script bs i nows data cs) = map (fun c => full_path i (fc_file c)) cs.
Proof.
  induction cs as [|c t IH]; intros nows d; auto. cbn [write_script plain_reads]. rewrite plain_reads_app.
  destruct (writes_quiet (chunk_slices bs data (fc_start c) (fc_end c)) (full_path i (fc_file c)) (fc_before c) d) as [A B]. rewrite A.
  destruct (IH (fun k => nows (S k)) (plain d (writes (full_path i (fc_file c)) (fc_before c) (chunk_slices bs data (fc_start c) (fc_end c))))) as [C D].
  split; auto. unfold used in *. cbn. rewrite flat_map_app, B, D. auto.
Qed.
Lemma read_script_reads : forall i cs nows d buf, fill buf cs (plain_reads d (read_script i nows cs)) = read_chunks i d buf cs.
Proof.
  induction cs as [|c t IH]; intros nows d buf; auto. cbn [read_script plain_reads fill read_chunks]. destruct (_ || _); auto.
  destruct (read_at _ _ _); cbn [rbind]; auto.
Qed.
Lemma read_script_used : forall i cs nows, used (read_script i nows cs) = map (fun c => full_path i (fc_file c)) cs.
Proof. unfold used. induction cs as [|c t IH]; intro nows; cbn; auto. f_equal. auto. Qed.
Lemma fib_files : forall files s e c, s <= e -> In c (fib files s e) -> In (fc_file c) files.
Proof.
  intros files s e c L H. rewrite fib_cuts in H. destruct (@cuts_sublist s e files 0 L) as (a & b & E). rewrite E. apply in_or_app. right. apply in_or_app. left. apply in_map. auto.
Qed.
Lemma last_slices_spec : forall bs data rem x, last_bytes bs rem data = Val x -> concat (last_slices bs rem data) = x.
Proof.
  induction data as [|b t IH]; intros rem x E; cbn [last_bytes last_slices] in *.
  - destruct (rem =? 0); [inversion E; auto|discriminate].
  - destruct (rem =? 0); [inversion E; auto|]. destruct (_ <? _); [discriminate|].
    destruct (last_bytes bs (rem - Nat.min rem bs) t) as [r| |] eqn:R; cbn [rmap rbind] in E; try discriminate. inversion E. cbn [concat]. rewrite (IH _ _ R). auto.
Qed.
Lemma s_write_plain : forall bs i now idx data d d', s_write bs i d idx data = Val d' -> same (plain d (s_write_script bs i now idx data)) d'.
Proof.
  intros bs i now idx data d d' E. unfold s_write_script. cbn [plain]. intro k. rewrite writes_plain. unfold s_write in E.
  destruct (si_n i) as [|m] eqn:N; [discriminate|].
  destruct (Nat.ltb_spec idx m).
  - inversion E. destruct (Nat.ltb_spec (S idx) (S m)); [|lia]. reflexivity.
  - destruct (Nat.eqb_spec idx m); [|discriminate]. destruct (Nat.ltb_spec (S idx) (S m)); [lia|]. unfold s_write_last in E.
    destruct (si_plen i =? 0); [discriminate|]. destruct (last_bytes bs (si_len i mod si_plen i) data) as [x| |] eqn:L; cbn [rbind] in E; try discriminate.
    inversion E. rewrite (last_slices_spec _ _ _ L). reflexivity.
Qed.
