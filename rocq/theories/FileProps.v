(** C119: what was written to storage is read back. *)
From Coq Require Import List NArith ZArith Lia Bool Arith Permutation.
From Coq Require Import Init.Byte.
From Verif Require Import Base Assoc CacheModel FsModel FsSpec FsProofs CacheProps FsProps FileModel FileSpec FileProofs.
Import ListNotations.
Set Implicit Arguments.

(** ** in full *)
(** Every read returns what the writes made before it left in the file, whatever
    files were used in between and whenever the background writes finish. *)
Definition C119_read_back_always (d : disk) (h : list fev) : Prop :=
  forall outs s, fruns (fresh d) h outs s -> outs = plain_reads d h.
(** Once nothing is under way the files hold what was written. *)
Definition C119_stored_always (d : disk) (h : list fev) : Prop :=
  forall outs s, fruns (fresh d) h outs s -> quiet s -> forall p, dget (f_disk s) p = dget (plain d h) p.

(** ** at most sixteen files *)
Theorem C119_read_back_partial : forall d h files, length files <= 16 -> incl (used h) files -> C119_read_back_always d h.
Proof.
  intros d h files L U outs s R. destruct (few_run R d L U (fresh_inv d)) as (A & _); auto; cbn; intros; discriminate.
Qed.
Theorem C119_stored_few : forall d h files, length files <= 16 -> incl (used h) files -> C119_stored_always d h.
Proof.
  intros d h files L U outs s R [Q1 Q2] p. destruct (few_run R d L U (fresh_inv d)) as (_ & _ & V); auto; try (cbn; intros; discriminate).
  rewrite <- V. unfold eff. rewrite Q1. auto.
Qed.

(** ** any number of files *)
(** When no byte is written twice, everything is stored in the end; *)
Theorem C119_stored_partial : forall d h, once h -> C119_stored_always d h.
Proof.
  intros d h O outs s R [Q1 Q2] p. destruct (once_pending R O) as [_ S]. rewrite Q1, Q2 in S. apply (S p).
Qed.
(** and until then a file reads as written when no dropped handle is still
    writing to it. *)
Theorem C119_read_once : forall d h outs s p off n s' o, fruns (fresh d) h outs s -> once h ->
  (forall w, ~ In (p, w) (f_orph s)) -> fstep s (VRead p off n) = Some (s', o) -> o = [read_at (dget (plain d h) p) off n].
Proof.
  intros d h outs s p off n s' o R O N E. destruct (once_pending R O) as [I S]. cbn in E. destruct (mhas bytes_eqb p (f_cache s)); [|discriminate].
  destruct n as [|n]; inversion E; subst; clear E.
  - unfold read_at. cbn [Nat.eqb firstn]. destruct (_ <? _); auto.
  - f_equal. f_equal. rewrite <- (S p). destruct (settle_track p s) as (A & D & P). destruct (settle_same p s) as [_ OO].
    destruct (track_run R (fresh_inv d)) as (_ & B & DB & PB).
    assert (F : ForallOrdPairs apart (f_hand s ++ f_orph s)).
    { assert (F : ForallOrdPairs apart (B ++ f_hand s ++ f_orph s)) by (eapply pairs_perm; [symmetry; exact PB|exact O]).
      clear -F. induction B; auto. cbn in F. inversion F. auto. }
    assert (Q : Permutation (f_hand s ++ f_orph s) (A ++ f_hand (settle p s) ++ f_orph s)) by (rewrite app_assoc, P; auto).
    rewrite (apply_perm Q F (f_disk s) p), apply_app, <- D. symmetry. apply apply_none. intros [k w] X K. cbn in K. subst k. apply in_app_or in X as [X|X].
    + apply (in_mget _ bytes_eqb_spec) in X; [|apply (fi_hand (settle_inv p I))]. rewrite settle_hand, bytes_eqb_refl in X by apply I. discriminate.
    + apply (N w X).
Qed.
(** Whatever is under way, and also if bytes are written twice: a file reads as
    with all writes to it done, in some order, except those under way in dropped
    handles. *)
Definition as_write (w : bytes * wreq) : fev := VWrite (fst w) (fst (snd w)) (snd (snd w)).
Definition to_file (p : bytes) (w : bytes * wreq) : bool := bytes_eqb (fst w) p.
Lemma perm_filter : forall A (f : A -> bool) l m, Permutation l m -> Permutation (filter f l) (filter f m).
Proof.
  induction 1; cbn; auto.
  - destruct (f x); auto.
  - destruct (f x), (f y); auto. apply perm_swap.
  - etransitivity; eauto.
Qed.
Lemma plain_as_write : forall l d, plain d (map as_write l) = apply_all l d.
Proof. induction l as [|w l IH]; intro d; cbn; auto. Qed.
Lemma apply_to_file : forall p l a b, dget a p = dget b p -> dget (apply_all l a) p = dget (apply_all (filter (to_file p) l) b) p.
Proof.
  induction l as [|[q [o x]] l IH]; intros a b E; cbn; auto. unfold to_file at 1. cbn [fst]. destruct (bytes_eqb q p) eqn:Q.
  - apply bytes_eqb_eq in Q. subst q. cbn. apply IH. unfold do_write. cbn [fst snd]. rewrite !dget_same, E. auto.
  - apply IH. unfold do_write. cbn [fst snd]. rewrite dget_other; auto. intros ->. rewrite bytes_eqb_refl in Q. discriminate.
Qed.
Theorem C119_exact : forall d h outs s p off n s' o, fruns (fresh d) h outs s -> fstep s (VRead p off n) = Some (s', o) -> 0 < n ->
  exists done, Permutation (done ++ filter (to_file p) (f_orph s)) (filter (to_file p) (written h)) /\
    o = [read_at (dget (plain d (map as_write done)) p) off n].
Proof.
  intros d h outs s p off n s' o R E N. destruct (track_run R (fresh_inv d)) as (I & A & D & P). cbn in D, P. cbn in E.
  destruct (mhas bytes_eqb p (f_cache s)); [|discriminate]. destruct n as [|n]; [lia|]. inversion E; subst; clear E.
  destruct (settle_track p s) as (B & DB & PB). exists (filter (to_file p) (A ++ B)).
  assert (H0 : filter (to_file p) (f_hand (settle p s)) = []).
  { apply filter_false. intros [k w] X. unfold to_file. cbn [fst]. destruct (bytes_eqb k p) eqn:Q; auto. apply bytes_eqb_eq in Q. subst k.
    apply (in_mget _ bytes_eqb_spec) in X; [|apply (fi_hand (settle_inv p I))]. rewrite settle_hand, bytes_eqb_refl in X by apply I. discriminate. }
  split.
  - pose proof (@perm_filter _ (to_file p) _ _ P) as FP. pose proof (@perm_filter _ (to_file p) _ _ PB) as FB. rewrite !filter_app in FP, FB.
    rewrite H0, app_nil_r in FB. eapply Permutation_trans; [|exact FP]. rewrite filter_app, <- app_assoc. apply Permutation_app_head. rewrite filter_app. apply Permutation_app_tail. exact FB.
  - f_equal. f_equal. rewrite plain_as_write, DB, D, <- apply_app. apply apply_to_file. auto.
Qed.
(** The background writes can always finish. *)
Theorem C119_finishes : forall s, exists h s', Forall (fun e => program e = false) h /\ fruns s h [] s' /\ quiet s'.
Proof.
  assert (G : forall n s, length (f_hand s) + length (f_orph s) <= n -> exists h s', Forall (fun e => program e = false) h /\ fruns s h [] s' /\ quiet s').
  { induction n as [|n IH]; intros s L.
    - exists [], s. split; auto. split; [constructor|]. split; apply length_zero_iff_nil; lia.
    - destruct (f_hand s) as [|[p w] t] eqn:H.
      + destruct (f_orph s) as [|w t] eqn:O; [exists [], s; split; auto; split; [constructor|split; auto]|].
        destruct (IH (mk_fstate (do_write (f_disk s) w) (f_cache s) [] t)) as (h & s' & A & B & C). { cbn in *. lia. }
        exists (VOrphan 0 :: h), s'. split; [constructor; auto|]. split; auto. apply (@fr_step s (VOrphan 0) (mk_fstate (do_write (f_disk s) w) (f_cache s) [] t) [] h [] s'); auto.
        cbn. rewrite O, H. reflexivity.
      + destruct (IH (mk_fstate (do_write (f_disk s) (p, w)) (f_cache s) t (f_orph s))) as (h & s' & A & B & C). { cbn in *. lia. }
        exists (VDone p :: h), s'. split; [constructor; auto|]. split; auto.
        apply (@fr_step s (VDone p) (mk_fstate (do_write (f_disk s) (p, w)) (f_cache s) t (f_orph s)) [] h [] s'); auto.
        cbn. unfold settle. rewrite H. cbn. rewrite bytes_eqb_refl. reflexivity. }
  intro s. apply (G (length (f_hand s) + length (f_orph s))). auto.
Qed.

(** ** the storage functions, for torrents of at most sixteen files *)
(** Any writes of pieces, each with the instants at which it used its files, then
    a read; anything may happen in the background at any time. *)
Theorem C119_multi_partial : forall bs i D d ps idx begin n buf nows h outs s, 0 < bs -> 0 < mi_plen i -> length D = total (mi_files i) ->
  NoDup (map (spec_path i) (mi_files i)) -> no_edge_empty bs (mi_plen i) (mi_files i) ->
  Forall (fun f => length (dget d (spec_path i f)) <= tf_len f) (mi_files i) ->
  Forall (fun p => piece_blocks bs (mi_plen i) D (fst (snd p)) (snd (snd p))) ps ->
  idx * mi_plen i + begin + n <= length D -> n <= length buf ->
  (forall x, idx * mi_plen i + begin <= x < idx * mi_plen i + begin + n -> In (x / mi_plen i) (map (fun p => fst (snd p)) ps)) ->
  length (mi_files i) <= 16 -> fruns (fresh d) h outs s ->
  filter program h = flat_map (fun p => m_write_script bs i (fst p) (fst (snd p)) (snd (snd p))) ps ++ m_read_script i nows idx begin n ->
  fill buf (fib (mi_files i) (idx * mi_plen i + begin) (idx * mi_plen i + begin + n)) outs = Val (part D (idx * mi_plen i + begin) n ++ skipn n buf).
Proof.
  intros bs i D d ps idx begin n buf nows h outs s BS P LD ND NE LE FA E LB A FEW R PR.
  destruct (@C36_read_partial bs i D d (map snd ps) idx begin n buf) as (d' & W & RD); auto.
  { apply Forall_map. auto. } { rewrite map_map. auto. }
  assert (WS : same (plain d (flat_map (fun p => m_write_script bs i (fst p) (fst (snd p)) (snd (snd p))) ps)) d' /\
    plain_reads d (flat_map (fun p => m_write_script bs i (fst p) (fst (snd p)) (snd (snd p))) ps) = []).
  { clear -W. revert d W. induction ps as [|[nw [k data]] t IH]; intros d W; cbn [map write_all flat_map fst snd] in *. { inversion W. split; auto. intro. auto. }
    destruct (m_write bs i d k data) as [d1| |] eqn:M; cbn [rbind] in W; try discriminate. destruct (IH _ W) as [I1 I2].
    assert (Q : same (plain d (m_write_script bs i nw k data)) d1) by (apply write_script_plain; auto).
    rewrite plain_app, plain_reads_app. split.
    - intro q. rewrite <- (I1 q). apply plain_same. auto.
    - unfold m_write_script at 1. rewrite (proj1 (write_script_quiet bs i data _ nw d)). cbn [app]. rewrite <- I2. apply plain_reads_same. auto. }
  destruct WS as [S1 S2].
  assert (U : incl (used h) (map (full_path i) (mi_files i))).
  { rewrite <- used_program, PR. unfold used. rewrite flat_map_app. intros x X. apply in_app_or in X as [X|X].
    - clear -X. induction ps as [|[nw [k data]] t IH]; [destruct X|]. cbn [flat_map fst snd] in X. rewrite flat_map_app in X. apply in_app_or in X as [X|X]; auto.
      change (In x (used (m_write_script bs i nw k data))) in X. unfold m_write_script in X. rewrite (proj2 (write_script_quiet bs i data _ nw [])) in X.
      apply in_map_iff in X as (c & <- & C). apply in_map. eapply fib_files; [|exact C]. lia.
    - change (In x (used (m_read_script i nows idx begin n))) in X. unfold m_read_script in X. rewrite read_script_used in X.
      apply in_map_iff in X as (c & <- & C). apply in_map. eapply fib_files; [|exact C]. lia. }
  rewrite (@C119_read_back_partial d h (map (full_path i) (mi_files i)) ltac:(rewrite map_length; auto) U _ _ R).
  rewrite <- (proj2 (plain_program h d)), PR, plain_reads_app, S2. cbn [app].
  rewrite (@plain_reads_same _ _ _ S1). unfold m_read_script. rewrite read_script_reads. exact RD.
Qed.
(** A single-file torrent only ever uses one file. *)
Theorem C119_single : forall bs i D d ps idx begin n now h outs s, 0 < bs -> 0 < si_plen i -> si_len i = length D ->
  si_n i = pieces_of (length D) (si_plen i) -> length (dget d (si_path i)) <= length D ->
  Forall (fun p => fst (snd p) < si_n i /\ piece_blocks bs (si_plen i) D (fst (snd p)) (snd (snd p))) ps ->
  idx * si_plen i + begin + n <= length D ->
  (forall x, idx * si_plen i + begin <= x < idx * si_plen i + begin + n -> In (x / si_plen i) (map (fun p => fst (snd p)) ps) /\
     (length D mod si_plen i <> 0 \/ x / si_plen i < si_n i - 1)) ->
  fruns (fresh d) h outs s ->
  filter program h = flat_map (fun p => s_write_script bs i (fst p) (fst (snd p)) (snd (snd p))) ps ++ s_read_script i now idx begin n ->
  outs = [Val (part D (idx * si_plen i + begin) n)].
Proof.
  intros bs i D d ps idx begin n now h outs s BS P EL EN LE FA E A R PR.
  destruct (@C35_read bs i D d (map snd ps) idx begin n (repeat x00 n)) as (d' & W & RD); auto.
  { apply Forall_map. auto. } { rewrite repeat_length. auto. } { intros x X. rewrite map_map. auto. }
  assert (WS : same (plain d (flat_map (fun p => s_write_script bs i (fst p) (fst (snd p)) (snd (snd p))) ps)) d' /\
    plain_reads d (flat_map (fun p => s_write_script bs i (fst p) (fst (snd p)) (snd (snd p))) ps) = []).
  { clear -W. revert d W. induction ps as [|[nw [k data]] t IH]; intros d W; cbn [map write_all flat_map fst snd] in *. { inversion W. split; auto. intro. auto. }
    destruct (s_write bs i d k data) as [d1| |] eqn:M; cbn [rbind] in W; try discriminate. destruct (IH _ W) as [I1 I2].
    assert (Q : same (plain d (s_write_script bs i nw k data)) d1) by (apply s_write_plain; auto).
    rewrite plain_app, plain_reads_app. split.
    - intro q. rewrite <- (I1 q). apply plain_same. auto.
    - unfold s_write_script at 1. cbn [plain_reads]. rewrite (proj1 (writes_quiet _ _ _ _)). cbn [app]. rewrite <- I2. apply plain_reads_same. auto. }
  destruct WS as [S1 S2].
  assert (U : incl (used h) [si_path i]).
  { rewrite <- used_program, PR. unfold used. rewrite flat_map_app. intros x X. apply in_app_or in X as [X|X].
    - clear -X. induction ps as [|[nw [k data]] t IH]; [destruct X|]. cbn [flat_map fst snd] in X. rewrite flat_map_app in X. apply in_app_or in X as [X|X]; auto.
      unfold s_write_script in X. cbn [flat_map] in X. apply in_app_or in X as [X|X]; auto.
      change (In x (used (writes (si_path i) (k * si_plen i) (if S k <? si_n i then data else last_slices bs (si_len i mod si_plen i) data)))) in X.
      rewrite (proj2 (writes_quiet _ _ _ [])) in X. destruct X.
    - exact X. }
  rewrite (@C119_read_back_partial d h [si_path i] ltac:(cbn; lia) U _ _ R).
  rewrite <- (proj2 (plain_program h d)), PR, plain_reads_app, S2. cbn [app]. rewrite (@plain_reads_same _ _ _ S1). cbn [s_read_script plain_reads].
  unfold s_read in RD. rewrite repeat_length, Nat.ltb_irrefl in RD. destruct (read_at _ _ _) as [x| |]; cbn [rmap rbind] in RD; try discriminate.
  inversion RD as [Q]. f_equal. f_equal. apply app_inv_tail in Q. auto.
Qed.

(** ** with more files *)
(** Using a file that is not cached while the cache is full drops one handle; a
    write it has not finished goes on without it. *)
Theorem C119_dropped : forall d h outs s a now p, fruns (fresh d) h outs s -> length (f_cache s) = 16 -> ~ In p (keys (f_cache s)) ->
  exists v, In v (keys (f_cache s)) /\ ~ In v (keys (f_cache (use_file a now p s))) /\
    (forall k, k <> v -> In k (keys (f_cache s)) -> In k (keys (f_cache (use_file a now p s)))) /\
    (forall w, mget bytes_eqb v (f_hand s) = Some w -> In (v, w) (f_orph (use_file a now p s))) /\
    f_disk (use_file a now p s) = f_disk s.
Proof.
  intros d h outs s a now p R L NP. destruct (track_run R (fresh_inv d)) as (I & _).
  assert (HP : mhas bytes_eqb p (f_cache s) = false). { destruct (mhas bytes_eqb p (f_cache s)) eqn:Q; auto. exfalso. apply NP. apply (mhas_in _ bytes_eqb_spec). auto. }
  destruct (get_entry_spec now true p (fi_cache I)) as (c1 & E & I1 & H & F & S & V). destruct (V HP L) as (v & ev & G & _ & C1).
  assert (VP : v <> p). { intros ->. apply NP. eapply (mget_some_key _ bytes_eqb_spec); eauto. }
  assert (K : forall k, mhas bytes_eqb k (fst (get_file a now true p (f_cache s))) = bytes_eqb k p || mhas bytes_eqb k c1).
  { intro k. unfold get_file. rewrite E. cbn [fst snd]. rewrite H, HP. rewrite (mget_mset_same _ bytes_eqb_spec). cbn [fst]. rewrite !mhas_mset. destruct (bytes_eqb k p); auto. }
  assert (KV : mhas bytes_eqb v (fst (get_file a now true p (f_cache s))) = false).
  { rewrite K. apply orb_false_iff. split. { destruct (bytes_eqb v p) eqn:Q; auto. apply bytes_eqb_eq in Q. congruence. }
    rewrite C1. unfold mhas. rewrite (@mget_mdel_same _ _ _ bytes_eqb_spec); auto. apply (ci_nodup (fi_cache I)). }
  exists v. split; [eapply (mget_some_key _ bytes_eqb_spec); eauto|].
  set (t := mk_fstate (f_disk s) (fst (get_file a now true p (f_cache s))) (filter (fun x : bytes * wreq => mhas bytes_eqb (fst x) (fst (get_file a now true p (f_cache s)))) (f_hand s))
    (f_orph s ++ filter (fun x : bytes * wreq => negb (mhas bytes_eqb (fst x) (fst (get_file a now true p (f_cache s))))) (f_hand s))).
  change (use_file a now p s) with (settle p t). destruct (settle_same p t) as [-> ->]. cbn [f_cache f_orph t]. split; [|split; [|split]].
  - intro X. apply (mhas_in _ bytes_eqb_spec) in X. congruence.
  - intros k KV2 X. apply (mhas_in _ bytes_eqb_spec). rewrite K. apply orb_true_iff. right. rewrite C1. unfold mhas. rewrite (@mget_mdel_other _ _ _ bytes_eqb_spec) by auto.
    apply (mhas_in _ bytes_eqb_spec) in X. auto.
  - intros w W. apply in_or_app. right. apply filter_In. split; [apply (mget_in _ bytes_eqb_spec); auto|]. cbn [fst]. rewrite KV. auto.
  - unfold settle. assert (N : mget bytes_eqb p (f_hand t) = None); [|rewrite N; auto]. apply (mget_none _ bytes_eqb_spec). intro X. cbn [f_hand t] in X. unfold keys in X.
    apply in_map_iff in X as (x & X1 & X2). apply filter_In in X2 as [X2 _]. assert (mhas bytes_eqb p (f_cache s) = true); [|congruence].
    apply (fi_open I). apply (mhas_in _ bytes_eqb_spec). unfold keys. rewrite <- X1. apply in_map. auto.
Qed.
(** Until such a write finishes, the file reads as if it had not been made. *)
Theorem C119_missing_always : forall d h outs s a now p off n, fruns (fresh d) h outs s -> ~ In p (keys (f_cache s)) ->
  exists s', fruns s [VUse a now p; VRead p off n] [read_at (dget (f_disk s) p) off n] s'.
Proof.
  intros d h outs s a now p off n R NP. destruct (track_run R (fresh_inv d)) as (I & _).
  assert (HP : mhas bytes_eqb p (f_hand s) = false). { destruct (mhas bytes_eqb p (f_hand s)) eqn:Q; auto. exfalso. apply NP. apply (mhas_in _ bytes_eqb_spec). apply (fi_open I). auto. }
  destruct (get_file_keys a now p (fi_cache I)) as (c1 & _ & K & _).
  set (t := mk_fstate (f_disk s) (fst (get_file a now true p (f_cache s))) (filter (fun x : bytes * wreq => mhas bytes_eqb (fst x) (fst (get_file a now true p (f_cache s)))) (f_hand s))
    (f_orph s ++ filter (fun x : bytes * wreq => negb (mhas bytes_eqb (fst x) (fst (get_file a now true p (f_cache s))))) (f_hand s))).
  assert (NT : mget bytes_eqb p (f_hand t) = None).
  { apply (mget_none _ bytes_eqb_spec). intro X. cbn [f_hand t] in X. unfold keys in X. apply in_map_iff in X as (x & X1 & X2). apply filter_In in X2 as [X2 _].
    assert (mhas bytes_eqb p (f_hand s) = true); [|congruence]. apply (mhas_in _ bytes_eqb_spec). unfold keys. rewrite <- X1. apply in_map. auto. }
  assert (U : use_file a now p s = t). { change (use_file a now p s) with (settle p t). unfold settle. rewrite NT. auto. }
  exists t. apply (@fr_step s (VUse a now p) t [] [VRead p off n] [read_at (dget (f_disk s) p) off n] t). { cbn. rewrite U. auto. }
  apply (@fr_step t (VRead p off n) t [read_at (dget (f_disk s) p) off n] [] [] t); [|constructor]. cbn [fstep].
  assert (C : mhas bytes_eqb p (f_cache t) = true). { cbn [f_cache t]. rewrite K, bytes_eqb_refl. auto. } rewrite C. destruct n as [|n].
  - unfold read_at. cbn [Nat.eqb firstn]. destruct (_ <? _); auto.
  - unfold settle. rewrite NT. reflexivity.
Qed.
(** Sixteen other files used after a write, with nothing finished in between. *)
Definition others (now : nat) : list fev :=
  map (fun k => VUse Awrite (now + k) [nth k [x10; x11; x12; x13; x14; x15; x16; x17; x18; x19; x1a; x1b; x1c; x1d; x1e; x1f] x00]) (seq 0 16).
Fixpoint frun (s : fstate) (h : list fev) : option (fstate * list (res bytes)) :=
  match h with
  | [] => Some (s, [])
  | e :: t => match fstep s e with
    | Some (s1, o) => match frun s1 t with Some (s2, outs) => Some (s2, o ++ outs) | None => None end
    | None => None
    end
  end.
Lemma frun_runs : forall h s s2 outs, frun s h = Some (s2, outs) -> fruns s h outs s2.
Proof.
  induction h as [|e t IH]; intros s s2 outs E; cbn in E; [inversion E; constructor|].
  destruct (fstep s e) as [[s1 o]|] eqn:F; [|discriminate]. destruct (frun s1 t) as [[s3 os]|] eqn:G; [|discriminate]. inversion E; subst.
  eapply fr_step; eauto.
Qed.
(** A block just written cannot be read: the file ends before it. *)
Theorem C119_read_back_refuted : exists d h outs s, fruns (fresh d) h outs s /\ once h /\ outs = [Fail] /\ plain_reads d h = [Val [x2a]] /\
  ~ C119_read_back_always d h.
Proof.
  set (h := [VUse Awrite 0 [x61]; VWrite [x61] 0 [x2a]] ++ others 1 ++ [VUse Awrite 20 [x61]; VRead [x61] 0 1]).
  destruct (frun (fresh []) h) as [[s outs]|] eqn:E; [|vm_compute in E; discriminate].
  assert (O : outs = [Fail]) by (vm_compute in E; inversion E; auto). apply frun_runs in E.
  assert (P : plain_reads [] h = [Val [x2a]]) by reflexivity.
  exists [], h, outs, s. split; auto. split; [repeat constructor|]. split; auto. split; auto. intro A. specialize (A _ _ E). rewrite O, P in A. discriminate.
Qed.
(** With bytes written twice the older ones can win. *)
Theorem C119_stored_refuted : exists d h outs s, fruns (fresh d) h outs s /\ quiet s /\ dget (f_disk s) [x61] = [x2a] /\ dget (plain d h) [x61] = [x2b] /\
  ~ C119_stored_always d h.
Proof.
  set (h := [VUse Awrite 0 [x61]; VWrite [x61] 0 [x2a]] ++ others 1 ++ [VUse Awrite 20 [x61]; VWrite [x61] 0 [x2b]] ++ others 30 ++ [VOrphan 1; VOrphan 0]).
  destruct (frun (fresh []) h) as [[s outs]|] eqn:E; [|vm_compute in E; discriminate].
  assert (Q : quiet s /\ dget (f_disk s) [x61] = [x2a]) by (vm_compute in E; inversion E; repeat split). destruct Q as [Q1 Q2]. apply frun_runs in E.
  assert (P : dget (plain [] h) [x61] = [x2b]) by reflexivity.
  exists [], h, outs, s. split; auto. split; auto. split; auto. split; auto. intro A. specialize (A _ _ E Q1 [x61]). rewrite Q2, P in A. discriminate.
Qed.

(** ** examples *)
(** A write still under way is waited for by the next read of the same file. *)
Example C119_example_same : exists s, fruns (fresh []) [VUse Awrite 0 [x61]; VWrite [x61] 2 [x2a]; VUse Aread 1 [x61]; VRead [x61] 0 3] [Val [x00; x00; x2a]] s.
Proof. eexists. apply frun_runs. vm_compute. reflexivity. Qed.
(** The dropped write finishes after all. *)
Example C119_example_late : exists s, fruns (fresh []) ([VUse Awrite 0 [x61]; VWrite [x61] 0 [x2a]] ++ others 1 ++ [VOrphan 0; VUse Awrite 20 [x61]; VRead [x61] 0 1]) [Val [x2a]] s /\ quiet s.
Proof. eexists. split; [apply frun_runs; vm_compute; reflexivity|]. split; reflexivity. Qed.
Definition ex_info : minfo := mk_minfo [x74] [mk_tfile [[x61]] 3; mk_tfile [[x63]] 4] 4.
Definition ex_pieces : list ((nat -> nat) * (nat * list bytes)) :=
  [(fun k => k, (1, [[x05; x06]; [x07; xff]])); (fun k => 10 + k, (0, [[x01; x02]; [x03; x04]]))].
(** Two files, two pieces, one background write done early. *)
Example C119_example_multi :
  let D := [x01; x02; x03; x04; x05; x06; x07] in
  let prog := flat_map (fun p => m_write_script 2 ex_info (fst p) (fst (snd p)) (snd (snd p))) ex_pieces ++ m_read_script ex_info (fun k => 20 + k) 0 2 3 in
  let h := firstn 3 prog ++ [VDone (full_path ex_info (mk_tfile [[x63]] 4))] ++ skipn 3 prog in
  no_edge_empty 2 4 (mi_files ex_info) /\ Forall (fun p => piece_blocks 2 4 D (fst (snd p)) (snd (snd p))) ex_pieces /\
  filter program h = prog /\ exists s outs, fruns (fresh []) h outs s /\ outs = [Val [x03]; Val [x04; x05]] /\
  fill [x00; x00; x00] (fib (mi_files ex_info) 2 5) outs = Val [x03; x04; x05].
Proof.
  cbv zeta. split; [|split; [|split]].
  - intros f o H L. cbn in H. destruct H as [H|[H|[]]]; inversion H; subst; cbn in *; lia.
  - constructor; [split; [cbn; auto|cbn; exists [xff]; reflexivity]|constructor; [split; cbn; auto|constructor]].
  - reflexivity.
  - eexists. eexists. split; [apply frun_runs; vm_compute; reflexivity|]. split; reflexivity.
Qed.
Example C119_example_single :
  let i := mk_sinfo [x61] 7 4 2 in let D := [x01; x02; x03; x04; x05; x06; x07] in
  let h := s_write_script 2 i 0 1 [[x05; x06]; [x07; xff]] ++ s_write_script 2 i 1 0 [[x01; x02]; [x03; x04]] ++ s_read_script i 2 0 3 3 in
  exists s, fruns (fresh []) h [Val (part D 3 3)] s.
Proof. eexists. apply frun_runs. vm_compute. reflexivity. Qed.
Example C119_example_dropped : exists s, fruns (fresh []) ([VUse Awrite 0 [x61]; VWrite [x61] 0 [x2a]] ++ firstn 15 (others 1)) [] s /\
  length (f_cache s) = 16 /\ ~ In [x1f] (keys (f_cache s)) /\ f_orph (use_file Awrite 16 [x1f] s) = [([x61], (0, [x2a]))].
Proof.
  eexists. split; [apply frun_runs; vm_compute; reflexivity|]. split; [reflexivity|]. split; [|vm_compute; reflexivity].
  cbn. intuition discriminate.
Qed.

Print Assumptions C119_read_back_partial.
Print Assumptions C119_stored_few.
Print Assumptions C119_stored_partial.
Print Assumptions C119_read_once.
Print Assumptions C119_exact.
Print Assumptions C119_finishes.
Print Assumptions C119_multi_partial.
Print Assumptions C119_single.
Print Assumptions C119_dropped.
Print Assumptions C119_missing_always.
Print Assumptions C119_read_back_refuted.
Print Assumptions C119_stored_refuted.
