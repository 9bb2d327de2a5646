(** Proofs about PendingModel *)
From Coq Require Import List NArith ZArith Lia Bool Arith Permutation.
From Verif Require Import Base Assoc BitmapModel IdModel WireModel PendingModel PendingSpec.
Import ListNotations.
Set Implicit Arguments.

Lemma BS_pos : 0 < BLOCK_SIZE.
Proof. apply Nat.ltb_lt. vm_compute. reflexivity. Qed.
Global Opaque BLOCK_SIZE.

Lemma n_blocks_pos : forall pl, 0 < pl -> 0 < n_blocks pl.
Proof. intros. unfold n_blocks. pose proof BS_pos. apply Nat.div_str_pos. lia. Qed.
Lemma ceil_n_blocks : forall pl, 0 < pl -> unsigned_ceil_div pl BLOCK_SIZE = Val (n_blocks pl).
Proof.
  intros [|m] H; [lia|]. pose proof BS_pos. unfold unsigned_ceil_div, n_blocks. f_equal.
  replace (S m + (BLOCK_SIZE - 1)) with (m + 1 * BLOCK_SIZE) by lia. rewrite Nat.div_add by lia. lia.
Qed.
(** Facts about the last block. *)
Lemma n_blocks_bounds : forall pl, 0 < pl ->
  (n_blocks pl - 1) * BLOCK_SIZE < pl <= n_blocks pl * BLOCK_SIZE.
Proof.
  intros pl H. pose proof BS_pos as HB. pose proof (n_blocks_pos H) as HP.
  unfold n_blocks in *. pose proof (Nat.div_mod (pl + (BLOCK_SIZE - 1)) BLOCK_SIZE ltac:(lia)) as E.
  pose proof (Nat.mod_upper_bound (pl + (BLOCK_SIZE - 1)) BLOCK_SIZE ltac:(lia)).
  set (q := (pl + (BLOCK_SIZE - 1)) / BLOCK_SIZE) in *. set (r := (pl + (BLOCK_SIZE - 1)) mod BLOCK_SIZE) in *.
  set (B := BLOCK_SIZE) in *. rewrite Nat.mul_sub_distr_r. nia.
Qed.
Lemma block_len_full : forall pl b, 0 < pl -> b + 1 < n_blocks pl -> block_len pl b = BLOCK_SIZE.
Proof.
  intros pl b H Hb. pose proof (n_blocks_bounds H). unfold block_len.
  assert ((b + 1) * BLOCK_SIZE <= (n_blocks pl - 1) * BLOCK_SIZE) by (apply Nat.mul_le_mono_r; lia). lia.
Qed.
Lemma block_len_last : forall pl b, 0 < pl -> b + 1 = n_blocks pl -> pl mod BLOCK_SIZE <> 0 ->
  block_len pl b = pl mod BLOCK_SIZE.
Proof.
  intros pl b H Hb Hm. pose proof (n_blocks_bounds H) as [L U]. pose proof BS_pos. unfold block_len.
  rewrite <- Hb in *. replace (b + 1 - 1) with b in L by lia.
  pose proof (Nat.div_mod pl BLOCK_SIZE ltac:(lia)) as E. pose proof (Nat.mod_upper_bound pl BLOCK_SIZE ltac:(lia)).
  assert (pl / BLOCK_SIZE = b) as Q.
  { apply Nat.le_antisymm.
    - apply Nat.lt_succ_r, Nat.div_lt_upper_bound; [lia|].
      destruct (Nat.eq_dec pl ((b + 1) * BLOCK_SIZE)) as [X|X]; [|lia].
      exfalso. apply Hm. rewrite X. apply Nat.mod_mul. lia.
    - apply Nat.div_le_lower_bound; lia. }
  rewrite Q in E. lia.
Qed.
Lemma block_len_last_mult : forall pl b, 0 < pl -> b + 1 = n_blocks pl -> pl mod BLOCK_SIZE = 0 ->
  block_len pl b = BLOCK_SIZE.
Proof.
  intros pl b H Hb Hm. pose proof (n_blocks_bounds H) as [L U]. pose proof BS_pos. unfold block_len.
  rewrite <- Hb in *. replace (b + 1 - 1) with b in L by lia.
  pose proof (Nat.div_mod pl BLOCK_SIZE ltac:(lia)) as E. rewrite Hm in E.
  assert (b < pl / BLOCK_SIZE) by (apply Nat.mul_lt_mono_pos_l with BLOCK_SIZE; lia).
  assert (BLOCK_SIZE * (b + 1) <= BLOCK_SIZE * (pl / BLOCK_SIZE)) by (apply Nat.mul_le_mono_l; lia). lia.
Qed.

Lemma check_bounds_spec : forall s b d, wf_pp s ->
  pp_piece_length s mod BLOCK_SIZE <> 0 \/ b + 1 <> n_blocks (pp_piece_length s) ->
  pp_check_bounds s b d = true <-> b < n_blocks (pp_piece_length s) /\ length d = block_len (pp_piece_length s) b.
Proof.
  intros s b d (H1 & H2 & _) Hm. unfold pp_check_bounds. rewrite H2.
  destruct (Nat.leb_spec (n_blocks (pp_piece_length s)) b) as [L|L]; [split; [discriminate|lia]|].
  destruct (Nat.eqb_spec (b + 1) (n_blocks (pp_piece_length s))) as [E|E]; cbn [negb].
  - destruct Hm as [Hm|Hm]; [|contradiction]. rewrite (@block_len_last _ b H1 E Hm), Nat.eqb_eq. tauto.
  - rewrite (@block_len_full _ b H1) by lia. rewrite Nat.eqb_eq. tauto.
Qed.

Lemma check_bounds_mult : forall s b d, wf_pp s -> pp_piece_length s mod BLOCK_SIZE = 0 ->
  b + 1 = n_blocks (pp_piece_length s) -> pp_check_bounds s b d = true <-> d = [].
Proof.
  intros s b d (H1 & H2 & _) Hm E. unfold pp_check_bounds. rewrite H2.
  destruct (Nat.leb_spec (n_blocks (pp_piece_length s)) b); [lia|].
  replace (b + 1 =? n_blocks (pp_piece_length s)) with true by (symmetry; apply Nat.eqb_eq; auto).
  rewrite Hm, Nat.eqb_eq. split; [apply length_zero_iff_nil|intros ->; reflexivity].
Qed.

(** *** Assoc lemmas specialised *)
Lemma neqb_spec : forall a b, Nat.eqb a b = true <-> a = b.
Proof. apply Nat.eqb_eq. Qed.
Lemma pmget_keys : forall k m, In k (map fst m) <-> exists p, pmget k m = Some p.
Proof.
  intros. split.
  - apply (key_mget _ neqb_spec).
  - intros [p H]. eapply (mget_some_key _ neqb_spec); eauto.
Qed.
Lemma in_flight_get : forall s k, in_flight s k <-> exists p, pmget k (pp_data s) = Some p.
Proof. intros. apply pmget_keys. Qed.
Lemma pmget_none : forall k m, pmget k m = None <-> ~ In k (map fst m).
Proof. intros. apply (mget_none _ neqb_spec). Qed.

Lemma wf_get : forall s k p, wf_pp s -> pmget k (pp_data s) = Some p -> length (pc_data p) = pp_bpp s.
Proof.
  intros s k p (_ & _ & _ & _ & H) G. apply (mget_in _ neqb_spec) in G. rewrite Forall_forall in H. apply (H _ G).
Qed.
Lemma Forall_mset : forall (P : nat * pc -> Prop) k v m, Forall P m -> P (k, v) -> Forall P (pmset k v m).
Proof.
  intros P k v m H Hv. unfold pmset. induction m as [|[k' v'] t IH]; cbn; auto.
  inversion H; subst. destruct (Nat.eqb_spec k k'); [subst; constructor; auto|constructor; auto].
Qed.
Lemma Forall_mdel : forall (P : nat * pc -> Prop) k m, Forall P m -> Forall P (pmdel k m).
Proof.
  intros P k m H. rewrite Forall_forall in *. intros x Hx. apply H. eapply mdel_incl; eauto.
Qed.

(** *** add_piece *)
Lemma add_piece_known : forall s k, in_flight s k -> pp_add_piece s k = Val s.
Proof. intros s k H. apply in_flight_get in H as [p H]. unfold pp_add_piece. rewrite H. reflexivity. Qed.
Lemma add_piece_full : forall s k, ~ in_flight s k -> 10 <= n_in_flight s -> pp_add_piece s k = Fail.
Proof.
  intros s k H L. unfold pp_add_piece. apply pmget_none in H. rewrite H.
  change MAX_PIECES_DOWNLOADING with 10. unfold n_in_flight in L. apply Nat.leb_le in L. rewrite L. reflexivity.
Qed.
Lemma add_piece_new : forall s k, wf_pp s -> ~ in_flight s k -> n_in_flight s < 10 ->
  pp_add_piece s k = Val (pp_with s (pmset k (mk_pc 0 0 (repeat Unbegun (pp_bpp s))) (pp_data s))).
Proof.
  intros s k (H1 & H2 & _) H L. unfold pp_add_piece. apply pmget_none in H. rewrite H.
  change MAX_PIECES_DOWNLOADING with 10. unfold n_in_flight in L. apply Nat.leb_gt in L. rewrite L.
  unfold pc_new. rewrite ceil_n_blocks by auto. cbn [rbind]. rewrite H2. reflexivity.
Qed.
Lemma wf_add : forall s k p, wf_pp s -> length (pc_data p) = pp_bpp s ->
  (in_flight s k \/ n_in_flight s < 10) -> wf_pp (pp_with s (pmset k p (pp_data s))).
Proof.
  intros s k p (H1 & H2 & H3 & H4 & H5) Hp Hl. unfold wf_pp, pp_with. cbn [pp_piece_length pp_bpp pp_data].
  split; auto. split; auto. split; [apply (NoDup_mset _ neqb_spec); auto|]. split.
  - unfold pmset. rewrite length_mset. destruct (mhas Nat.eqb k (pp_data s)) eqn:E; auto.
    destruct Hl as [Hl|Hl]; [|exact Hl]. apply (mhas_in _ neqb_spec) in Hl. congruence.
  - apply Forall_mset; auto.
Qed.
Lemma wf_add_piece : forall s k s', wf_pp s -> pp_add_piece s k = Val s' -> wf_pp s'.
Proof.
  intros s k s' W H. destruct (in_dec Nat.eq_dec k (map fst (pp_data s))) as [I|I].
  - rewrite add_piece_known in H by auto. congruence.
  - destruct (Nat.lt_ge_cases (n_in_flight s) 10) as [L|L].
    + rewrite add_piece_new in H by auto. injection H as <-. apply wf_add; auto. cbn. apply repeat_length.
    + rewrite add_piece_full in H by auto. discriminate.
Qed.

(** *** add_block *)
Lemma usize_dec_unchecked : forall n, exists m, usize_dec false n = Val m.
Proof. intro n. unfold usize_dec. destruct (n =? 0)%N; eauto. Qed.
Lemma add_block_refused : forall c s k b d, pp_check_bounds s b d = false \/ ~ in_flight s k ->
  pp_add_block c s k b d = Val (s, ARFailed).
Proof.
  intros c s k b d H. unfold pp_add_block. destruct (pp_check_bounds s b d) eqn:E; auto. cbn [negb].
  destruct H as [H|H]; [discriminate|]. apply pmget_none in H. rewrite H. reflexivity.
Qed.
Lemma add_block_some : forall c s k b d p, wf_pp s -> pp_check_bounds s b d = true -> pmget k (pp_data s) = Some p ->
  pp_add_block c s k b d =
    rbind (usize_dec c (pc_pending p)) (fun pend =>
      let bl := upd (pc_data p) b (Downloaded d) in
      if pp_bpp s =? pc_downloaded p + 1 then
        rbind (blocks_data bl) (fun ds => Val (pp_with s (pmdel k (pp_data s)), ARLast k ds))
      else Val (pp_with s (pmset k (mk_pc pend (pc_downloaded p + 1) bl) (pp_data s)), ARAdded)).
Proof.
  intros c s k b d p W E G. unfold pp_add_block. rewrite E, G. cbn [negb].
  assert (b < pp_bpp s).
  { unfold pp_check_bounds in E. destruct (Nat.leb_spec (pp_bpp s) b); [discriminate|auto]. }
  rewrite (wf_get _ W G). replace (pp_bpp s <=? b) with false by (symmetry; apply Nat.leb_gt; auto). reflexivity.
Qed.
Lemma check_bounds_lt : forall s b d, pp_check_bounds s b d = true -> b < pp_bpp s.
Proof. intros s b d E. unfold pp_check_bounds in E. destruct (Nat.leb_spec (pp_bpp s) b); [discriminate|auto]. Qed.
Lemma wf_add_block : forall c s k b d s' r, wf_pp s -> pp_add_block c s k b d = Val (s', r) -> wf_pp s'.
Proof.
  intros c s k b d s' r W H. destruct (pp_check_bounds s b d) eqn:E.
  2:{ rewrite add_block_refused in H by auto. injection H as <- <-. auto. }
  destruct (pmget k (pp_data s)) as [p|] eqn:G.
  2:{ rewrite add_block_refused in H. injection H as <- <-. auto. right. apply pmget_none. auto. }
  rewrite (@add_block_some c s k b d p W E G) in H.
  destruct (usize_dec c (pc_pending p)) as [pend| |]; cbn [rbind] in H; try discriminate. cbv zeta in H.
  pose proof (wf_get _ W G) as LW.
  destruct (pp_bpp s =? pc_downloaded p + 1).
  - destruct (blocks_data _) as [ds| |]; cbn [rbind] in H; try discriminate. injection H as <- <-.
    destruct W as (H1 & H2 & H3 & H4 & H5). unfold wf_pp, pp_with. cbn [pp_piece_length pp_bpp pp_data].
    repeat split; auto.
    + apply (NoDup_mdel _); auto.
    + unfold pmdel. rewrite length_mdel. destruct (mhas _ _ _); lia.
    + apply Forall_mdel; auto.
  - injection H as <- <-. apply wf_add; auto.
    + cbn. rewrite upd_length. auto.
    + left. apply in_flight_get. eauto.
Qed.

(** *** cancel / take *)
Definition cancel_blocks (from : addr) (l : list block) : list block :=
  map (fun b => if is_expected_from from b then Unbegun else b) l.
Lemma cancel_get : forall s from k, pmget k (pp_data (pp_cancel_pending s from)) =
  option_map (fun p => mk_pc (pc_pending p) (pc_downloaded p) (cancel_blocks from (pc_data p))) (pmget k (pp_data s)).
Proof.
  intros. unfold pp_cancel_pending, pp_with, pmget. cbn [pp_data].
  apply (mget_map_snd _ neqb_spec (fun _ p => mk_pc (pc_pending p) (pc_downloaded p) (cancel_blocks from (pc_data p)))).
Qed.
Lemma wf_map : forall s (f : nat -> pc -> pc), wf_pp s ->
  (forall k p, length (pc_data (f k p)) = length (pc_data p)) ->
  wf_pp (pp_with s (map (fun kp => (fst kp, f (fst kp) (snd kp))) (pp_data s))).
Proof.
  intros s f (H1 & H2 & H3 & H4 & H5) Hf. unfold wf_pp, pp_with. cbn [pp_piece_length pp_bpp pp_data].
  repeat split; auto.
  - rewrite map_map. cbn [fst]. exact H3.
  - rewrite map_length. auto.
  - rewrite Forall_forall in *. intros x Hx. apply in_map_iff in Hx as (y & <- & Hy). cbn [snd].
    rewrite Hf. auto.
Qed.
Lemma wf_cancel : forall s a, wf_pp s -> wf_pp (pp_cancel_pending s a).
Proof.
  intros s a W. unfold pp_cancel_pending.
  apply (wf_map (fun _ p => mk_pc (pc_pending p) (pc_downloaded p) (map (fun b => if is_expected_from a b then Unbegun else b) (pc_data p))) W).
  intros. cbn. apply map_length.
Qed.

Fixpoint idxs (f : block -> bool) (i : nat) (l : list block) : list nat :=
  match l with
  | [] => []
  | b :: t => if f b then i :: idxs f (S i) t else idxs f (S i) t
  end.
Lemma in_idxs : forall f l i j, In j (idxs f i l) <-> i <= j /\ exists b, nth_error l (j - i) = Some b /\ f b = true.
Proof.
  intros f l. induction l as [|x t IH]; intros i j; cbn [idxs].
  - split; [contradiction|]. intros (_ & b & H & _). destruct (j - i); discriminate.
  - assert (STEP : S i <= j /\ (exists b, nth_error t (j - S i) = Some b /\ f b = true) <->
                   i < j /\ exists b, nth_error (x :: t) (j - i) = Some b /\ f b = true).
    { split; intros [L (b & Hb & Hf)]; (split; [lia|]); exists b; split; auto.
      - replace (j - i) with (S (j - S i)) by lia. auto.
      - replace (j - i) with (S (j - S i)) in Hb by lia. auto. }
    destruct (f x) eqn:E; cbn [In]; rewrite IH, STEP.
    + split.
      * intros [->|H]; [|destruct H as [? H]; split; auto; lia].
        split; auto. exists x. rewrite Nat.sub_diag. auto.
      * intros [L H]. destruct (Nat.eq_dec i j); auto. right. split; auto. lia.
    + split; intros [L H]; split; auto; try lia.
      destruct (Nat.eq_dec i j) as [->|]; [|lia]. destruct H as (b & Hb & Hf).
      rewrite Nat.sub_diag in Hb. cbn in Hb. congruence.
Qed.
Lemma NoDup_idxs : forall f l i, NoDup (idxs f i l).
Proof.
  intros f l. induction l as [|x t IH]; intro i; cbn [idxs]; [constructor|].
  destruct (f x); auto. constructor; auto. rewrite in_idxs. lia.
Qed.
Definition mark (f : block -> bool) (o : addr) (now : nat) (l : list block) : list block :=
  map (fun b => if f b then Pending o now else b) l.
Lemma take_blocks_spec : forall f o now k l i,
  take_blocks f (Some o) now k i l = Val (mark f o now l, map (block_addr_new k) (idxs f i l)).
Proof.
  intros f o now k l. induction l as [|b t IH]; intro i; cbn [take_blocks idxs mark map]; auto.
  rewrite IH. destruct (f b); reflexivity.
Qed.
Definition mem (k : nat) (ps : list nat) : bool := existsb (Nat.eqb k) ps.
Lemma mem_In : forall k ps, mem k ps = true <-> In k ps.
Proof.
  intros. unfold mem. rewrite existsb_exists. split.
  - intros (x & H & E). apply Nat.eqb_eq in E. congruence.
  - intro H. exists k. rewrite Nat.eqb_refl. auto.
Qed.
Definition mark_pc (f : block -> bool) (o : addr) (now : nat) (ps : list nat) (k : nat) (p : pc) : pc :=
  if mem k ps then mk_pc (pc_pending p) (pc_downloaded p) (mark f o now (pc_data p)) else p.
Definition taken (f : block -> bool) (ps : list nat) (m : list (nat * pc)) : list block_addr :=
  flat_map (fun kp => if mem (fst kp) ps then map (block_addr_new (fst kp)) (idxs f 0 (pc_data (snd kp))) else []) m.
Lemma take_pass_spec : forall f o now ps m,
  take_pass f (Some o) now ps m = Val (map (fun kp => (fst kp, mark_pc f o now ps (fst kp) (snd kp))) m, taken f ps m).
Proof.
  intros f o now ps m. induction m as [|[k p] t IH]; cbn [take_pass map taken flat_map fst snd]; auto.
  unfold mark_pc at 1. fold (mem k ps). rewrite IH. fold (taken f ps t). destruct (mem k ps); [|reflexivity].
  rewrite take_blocks_spec. reflexivity.
Qed.
Lemma in_taken : forall f ps m a, NoDup (map fst m) ->
  (In a (taken f ps m) <-> ba_status a = Queued /\ In (ba_piece a) ps /\
     exists p b, pmget (ba_piece a) m = Some p /\ nth_error (pc_data p) (ba_block a) = Some b /\ f b = true).
Proof.
  intros f ps m a N. unfold taken. rewrite in_flat_map. split.
  - intros ([k p] & Hin & H). cbn [fst snd] in H. destruct (mem k ps) eqn:E; [|contradiction].
    apply in_map_iff in H as (j & <- & H). apply in_idxs in H as (_ & b & Hb & Hf). cbn.
    split; auto. split; [apply mem_In; auto|]. exists p, b. rewrite Nat.sub_0_r in Hb. split; auto.
    apply (in_mget _ neqb_spec); auto.
  - intros (Hs & Hp & p & b & G & Hb & Hf). exists (ba_piece a, p). split; [apply (mget_in _ neqb_spec); auto|].
    cbn [fst snd]. apply mem_In in Hp. rewrite Hp. apply in_map_iff. exists (ba_block a). split.
    + destruct a as [x y z]. cbn in Hs. subst z. reflexivity.
    + apply in_idxs. split; [lia|]. exists b. rewrite Nat.sub_0_r. auto.
Qed.
Lemma NoDup_taken : forall f ps m, NoDup (map fst m) -> NoDup (taken f ps m).
Proof.
  intros f ps m N. induction m as [|[k p] t IH]; cbn [taken flat_map]; [constructor|].
  cbn [map fst] in N. inversion N; subst. cbn [fst snd]. fold (taken f ps t).
  destruct (mem k ps); auto. cbn [app].
  assert (A : NoDup (map (block_addr_new k) (idxs f 0 (pc_data p)))).
  { apply FinFun.Injective_map_NoDup; [|apply NoDup_idxs]. intros x y H. injection H as ->. auto. }
  assert (B : forall a, In a (map (block_addr_new k) (idxs f 0 (pc_data p))) -> ~ In a (taken f ps t)).
  { intros a Ha Ha2. apply in_map_iff in Ha as (j & <- & _). apply in_taken in Ha2; auto.
    destruct Ha2 as (_ & _ & q & b & G & _). cbn in G. apply (mget_some_key _ neqb_spec) in G. contradiction. }
  revert A B. generalize (map (block_addr_new k) (idxs f 0 (pc_data p))). intros l A B.
  induction l as [|x l IHl]; cbn; auto. inversion A; subst. constructor.
  - rewrite in_app_iff. intros [H|H]; [contradiction|]. apply (B x); cbn; auto.
  - apply IHl; auto. intros. apply B. cbn. auto.
Qed.

Definition mark_map (f : block -> bool) (o : addr) (now : nat) (ps : list nat) (m : list (nat * pc)) :=
  map (fun kp => (fst kp, mark_pc f o now ps (fst kp) (snd kp))) m.
Lemma mark_map_get : forall f o now ps k m, pmget k (mark_map f o now ps m) = option_map (mark_pc f o now ps k) (pmget k m).
Proof. intros. apply (mget_map_snd _ neqb_spec (mark_pc f o now ps)). Qed.
Lemma mark_map_keys : forall f o now ps m, map fst (mark_map f o now ps m) = map fst m.
Proof. intros. unfold mark_map. rewrite map_map. reflexivity. Qed.
Lemma mark_pc_len : forall f o now ps k p, length (pc_data (mark_pc f o now ps k p)) = length (pc_data p).
Proof. intros. unfold mark_pc. destruct (mem k ps); auto. cbn. apply map_length. Qed.

Lemma pp_take_spec : forall s o now ps buf cap, pp_owner s = Some o ->
  let m1 := mark_map is_unbegun o now ps (pp_data s) in
  let t1 := taken is_unbegun ps (pp_data s) in
  let cap1 := vec_extend_cap cap (length buf) (length t1) in
  pp_take s now ps buf cap =
    if cap1 =? length (buf ++ t1) then Val (pp_with s m1, buf ++ t1, cap1)
    else Val (pp_with s (mark_map (is_expired now) o now ps m1), (buf ++ t1) ++ taken (is_expired now) ps m1,
              vec_extend_cap cap1 (length (buf ++ t1)) (length (taken (is_expired now) ps m1))).
Proof.
  intros s o now ps buf cap H. cbv zeta. unfold pp_take. rewrite H, take_pass_spec. cbn [rbind fst snd].
  destruct (_ =? _); auto. fold (mark_map is_unbegun o now ps (pp_data s)). rewrite take_pass_spec. reflexivity.
Qed.
Lemma take_blocks_none : forall f now k l i r, take_blocks f None now k i l = Val r -> r = (l, []).
Proof.
  intros f now k l. induction l as [|b t IH]; intros i r; cbn [take_blocks].
  - congruence.
  - destruct (f b); [discriminate|]. destruct (take_blocks f None now k (S i) t) as [q| |] eqn:E; try discriminate.
    apply IH in E. subst q. cbn. congruence.
Qed.
Lemma take_pass_none : forall f now ps m r, take_pass f None now ps m = Val r -> r = (m, []).
Proof.
  intros f now ps m. induction m as [|[k p] t IH]; intro r; cbn [take_pass]; [congruence|].
  destruct (existsb _ _).
  - destruct (take_blocks f None now k 0 (pc_data p)) as [q| |] eqn:E; cbn [rbind]; try discriminate.
    apply take_blocks_none in E. subst q. destruct (take_pass f None now ps t) as [q| |]; try discriminate.
    rewrite (IH q eq_refl). destruct p. cbn. congruence.
  - destruct (take_pass f None now ps t) as [q| |]; try discriminate. rewrite (IH q eq_refl). cbn. congruence.
Qed.
Lemma take_blocks_none_panic : forall f now k l i j b, nth_error l j = Some b -> f b = true ->
  take_blocks f None now k i l = Panic.
Proof.
  intros f now k l. induction l as [|x t IH]; intros i j b H Hf; [destruct j; discriminate|].
  cbn [take_blocks]. destruct (f x) eqn:E; auto. destruct j as [|j]; [cbn in H; congruence|].
  rewrite (IH (S i) j b); auto.
Qed.
Lemma take_pass_none_total : forall f now ps m, take_pass f None now ps m <> Fail.
Proof.
  assert (TB : forall f now k l i, take_blocks f None now k i l <> Fail).
  { intros f now k l. induction l as [|x t IH]; intro i; cbn [take_blocks]; [discriminate|].
    destruct (f x); [discriminate|]. specialize (IH (S i)). destruct (take_blocks f None now k (S i) t); try discriminate. congruence. }
  intros f now ps m. induction m as [|[k p] t IH]; cbn [take_pass]; [discriminate|].
  destruct (existsb _ _).
  - specialize (TB f now k (pc_data p) 0). destruct (take_blocks f None now k 0 (pc_data p)); cbn [rbind]; try discriminate; try congruence.
    destruct (take_pass f None now ps t); try discriminate; congruence.
  - destruct (take_pass f None now ps t); try discriminate; congruence.
Qed.
Lemma take_pass_none_panic : forall f now ps m k p j b, pmget k m = Some p -> In k ps ->
  nth_error (pc_data p) j = Some b -> f b = true -> take_pass f None now ps m = Panic.
Proof.
  intros f now ps m. induction m as [|[k' p'] t IH]; intros k p j b G Hk Hj Hf; [discriminate|].
  cbn [take_pass]. unfold pmget in G. cbn [mget] in G. destruct (Nat.eqb_spec k k') as [->|Hn].
  - injection G as ->. apply mem_In in Hk. unfold mem in Hk. rewrite Hk.
    erewrite take_blocks_none_panic by eauto. reflexivity.
  - pose proof (IH k p j b G Hk Hj Hf) as E. rewrite E. cbn [rmap].
    destruct (existsb _ _); auto.
    destruct (take_blocks f None now k' 0 (pc_data p')) as [r| |] eqn:E2; auto.
    exfalso. clear - E2. revert E2. generalize 0. induction (pc_data p') as [|x t2 IH2]; intro i; cbn [take_blocks]; [discriminate|].
    destruct (f x); [discriminate|]. specialize (IH2 (S i)). destruct (take_blocks f None now k' (S i) t2); try discriminate. auto.
Qed.
Lemma wf_take : forall s now ps buf cap r, wf_pp s -> pp_take s now ps buf cap = Val r -> wf_pp (fst (fst r)).
Proof.
  intros s now ps buf cap r W H. destruct (pp_owner s) as [o|] eqn:EO.
  - rewrite (pp_take_spec s now ps buf cap EO) in H. cbv zeta in H.
    assert (W1 : wf_pp (pp_with s (mark_map is_unbegun o now ps (pp_data s)))).
    { apply (wf_map (mark_pc is_unbegun o now ps)); auto. intros. apply mark_pc_len. }
    destruct (_ =? _); injection H as <-; cbn [fst]; auto.
    apply (wf_map (mark_pc (is_expired now) o now ps)) in W1.
    + exact W1.
    + intros. apply mark_pc_len.
  - unfold pp_take in H. rewrite EO in H.
    destruct (take_pass is_unbegun None now ps (pp_data s)) as [r1| |] eqn:E1; cbn [rbind] in H; try discriminate.
    apply take_pass_none in E1. subst r1. cbn [fst snd] in H.
    assert (W1 : wf_pp (pp_with s (pp_data s))) by (destruct s; exact W).
    destruct (_ =? _); [injection H as <-; exact W1|].
    destruct (take_pass (is_expired now) None now ps (pp_data s)) as [r2| |] eqn:E2; cbn [rbind] in H; try discriminate.
    apply take_pass_none in E2. subst r2. injection H as <-. exact W1.
Qed.

Lemma wf_step : forall c s o s' out, wf_pp s -> pp_step c s o = Val (s', out) -> wf_pp s'.
Proof.
  intros c s [k|k b d|now ps buf cap|a] s' out W H; cbn [pp_step] in H.
  - destruct (pp_add_piece s k) as [s1| |] eqn:E; try discriminate; injection H as <- <-; auto.
    eapply wf_add_piece; eauto.
  - destruct (pp_add_block c s k b d) as [[s1 r]| |] eqn:E; try discriminate. injection H as <- <-.
    eapply wf_add_block; eauto.
  - destruct (pp_take s now ps buf cap) as [r| |] eqn:E; try discriminate. injection H as <- <-.
    eapply wf_take; eauto.
  - injection H as <- <-. apply wf_cancel; auto.
Qed.
Lemma preach_wf : forall c s, preach c s -> wf_pp s.
Proof.
  intros c s H. induction H as [pl s E|s a H W|s o s' out H W E|s d H W P].
  - unfold pp_new in E. destruct pl as [|pl]; [discriminate|]. rewrite ceil_n_blocks in E by lia.
    injection E as <-. unfold wf_pp. cbn. repeat split; auto; try lia; constructor.
  - exact W.
  - eapply wf_step; eauto.
  - destruct W as (H1 & H2 & H3 & H4 & H5). unfold wf_pp, pp_with. cbn [pp_piece_length pp_bpp pp_data].
    repeat split; auto.
    + eapply Permutation_NoDup; [apply Permutation_map|]; eauto.
    + rewrite <- (Permutation_length P). auto.
    + eapply Permutation_Forall; eauto.
Qed.

(** *** blocks_data *)
Lemma blocks_data_spec : forall l, (forall b, b < length l -> exists d, nth_error l b = Some (Downloaded d)) ->
  exists ds, blocks_data l = Val ds /\ length ds = length l /\
    forall b d, nth_error l b = Some (Downloaded d) <-> nth_error ds b = Some d.
Proof.
  induction l as [|x t IH]; intro H.
  - exists []. cbn. repeat split; auto; destruct b; discriminate.
  - destruct (H 0) as [d Hd]; [cbn; lia|]. cbn in Hd. injection Hd as ->.
    destruct IH as (ds & E & L & S).
    { intros b Hb. apply (H (S b)). cbn. lia. }
    exists (d :: ds). cbn [blocks_data]. rewrite E. cbn. repeat split; auto.
    + intro G. destruct b; cbn in *; [congruence|]. apply S. auto.
    + intro G. destruct b; cbn in *; [congruence|]. apply S. auto.
Qed.
Lemma blocks_data_not : forall l b x, nth_error l b = Some x -> is_downloaded x = false -> blocks_data l = Panic.
Proof.
  induction l as [|y t IH]; intros b x H Hd; [destruct b; discriminate|].
  destruct b as [|b]; cbn in H.
  - injection H as ->. destruct x; cbn in *; auto; discriminate.
  - cbn. destruct y; auto. erewrite IH by eauto. reflexivity.
Qed.
Lemma blocks_data_inv : forall l ds, blocks_data l = Val ds ->
  length ds = length l /\ forall b d, nth_error l b = Some (Downloaded d) <-> nth_error ds b = Some d.
Proof.
  induction l as [|x t IH]; intros ds H; cbn in H.
  - injection H as <-. split; auto. intros [|b] d; split; discriminate.
  - destruct x as [| |d0]; try discriminate. destruct (blocks_data t) as [u| |]; try discriminate. injection H as <-.
    destruct (IH u eq_refl) as [L S]. cbn. split; auto. intros [|b] d; cbn; [|apply S]. split; congruence.
Qed.
Lemma blocks_data_no_fail : forall l, blocks_data l <> Fail.
Proof. induction l as [|[| |] t IH]; cbn; try discriminate. destruct (blocks_data t); try discriminate; auto. Qed.

(** *** completion *)
Lemma NoDup_app_l : forall A (l l' : list A), NoDup (l ++ l') -> NoDup l.
Proof. intros A l l' H. induction l; cbn in H; constructor; inversion H; subst; auto. intro. apply H2. apply in_or_app. auto. Qed.
Section Completion.
  Variables (k : nat).
  Definition holds (s : pp) (l : list (nat * bytes)) : Prop :=
    exists p, pmget k (pp_data s) = Some p /\ pc_downloaded p = length l /\
      forall b d, nth_error (pc_data p) b = Some (Downloaded d) <-> In (b, d) l.

  Lemma pigeon : forall n (l : list nat), NoDup l -> (forall x, In x l -> x < n) -> length l <= n /\
    (length l = n -> forall x, x < n -> In x l).
  Proof.
    intros n l N H. assert (I : incl l (seq 0 n)) by (intros x Hx; apply in_seq; specialize (H x Hx); lia).
    split.
    - rewrite <- (seq_length n 0). apply NoDup_incl_length; auto.
    - intros E x Hx. apply (NoDup_length_incl N) in I.
      + apply I. apply in_seq. lia.
      + rewrite seq_length. lia.
  Qed.

  Lemma holds_other : forall s s' l, holds s l -> pmget k (pp_data s') = pmget k (pp_data s) -> holds s' l.
  Proof. intros s s' l (p & G & H) E. exists p. rewrite E. auto. Qed.
  Lemma holds_map : forall s s' l (f : pc -> pc), holds s l ->
    pmget k (pp_data s') = option_map f (pmget k (pp_data s)) ->
    (forall p, pc_downloaded (f p) = pc_downloaded p) ->
    (forall p b d, nth_error (pc_data (f p)) b = Some (Downloaded d) <-> nth_error (pc_data p) b = Some (Downloaded d)) ->
    holds s' l.
  Proof.
    intros s s' l f (p & G & H1 & H2) E F1 F2. exists (f p). rewrite E, G. split; auto. rewrite F1. split; auto.
    intros. rewrite F2. auto.
  Qed.
  Lemma map_downloaded : forall (g : block -> bool) x (l : list block) b d,
    (forall y, g y = true -> is_downloaded y = false) -> is_downloaded x = false ->
    nth_error (map (fun y => if g y then x else y) l) b = Some (Downloaded d) <-> nth_error l b = Some (Downloaded d).
  Proof.
    intros g x l b d Hg Hx. rewrite nth_error_map. destruct (nth_error l b) as [y|]; cbn; [|split; discriminate].
    destruct (g y) eqn:E; [|tauto]. apply Hg in E. split; intro H; injection H as H.
    - rewrite H in Hx. discriminate.
    - rewrite H in E. discriminate.
  Qed.
  Lemma mark_pc_downloaded : forall f o now ps q p, pc_downloaded (mark_pc f o now ps q p) = pc_downloaded p.
  Proof. intros. unfold mark_pc. destruct (mem q ps); auto. Qed.
  Lemma mark_pc_data : forall f o now ps q p b d, (forall y, f y = true -> is_downloaded y = false) ->
    nth_error (pc_data (mark_pc f o now ps q p)) b = Some (Downloaded d) <-> nth_error (pc_data p) b = Some (Downloaded d).
  Proof.
    intros. unfold mark_pc. destruct (mem q ps); [|tauto]. cbn [pc_data]. unfold mark. apply map_downloaded; auto.
  Qed.
  Lemma unbegun_nd : forall y, is_unbegun y = true -> is_downloaded y = false.
  Proof. intros [| |]; cbn; congruence. Qed.
  Lemma expired_nd : forall now y, is_expired now y = true -> is_downloaded y = false.
  Proof. intros now [| |]; cbn; congruence. Qed.
  Lemma expected_nd : forall a y, is_expected_from a y = true -> is_downloaded y = false.
  Proof. intros a [| |]; cbn; congruence. Qed.

  Lemma holds_take : forall s now ps buf cap r l, holds s l -> pp_take s now ps buf cap = Val r -> holds (fst (fst r)) l.
  Proof.
    intros s now ps buf cap r l Hh H. destruct (pp_owner s) as [o|] eqn:EO.
    - rewrite (pp_take_spec s now ps buf cap EO) in H. cbv zeta in H.
      assert (H1 : holds (pp_with s (mark_map is_unbegun o now ps (pp_data s))) l).
      { eapply holds_map; eauto.
        - cbn [pp_data pp_with]. apply mark_map_get.
        - intros. apply mark_pc_downloaded.
        - intros. apply mark_pc_data. apply unbegun_nd. }
      destruct (_ =? _); injection H as <-; cbn [fst]; auto.
      eapply holds_map.
      + apply H1.
      + cbn [pp_data pp_with]. apply mark_map_get.
      + intros. apply mark_pc_downloaded.
      + intros. apply mark_pc_data. apply expired_nd.
    - unfold pp_take in H. rewrite EO in H.
      destruct (take_pass is_unbegun None now ps (pp_data s)) as [r1| |] eqn:E1; cbn [rbind] in H; try discriminate.
      apply take_pass_none in E1. subst r1. cbn [fst snd] in H.
      destruct (_ =? _); [injection H as <-; exact Hh|].
      destruct (take_pass (is_expired now) None now ps (pp_data s)) as [r2| |] eqn:E2; cbn [rbind] in H; try discriminate.
      apply take_pass_none in E2. subst r2. injection H as <-. exact Hh.
  Qed.
  Lemma step_const : forall c s o s' out, pp_step c s o = Val (s', out) ->
    pp_piece_length s' = pp_piece_length s /\ pp_bpp s' = pp_bpp s.
  Proof.
    intros c s [q|q b d|now ps buf cap|a] s' out H; cbn [pp_step] in H.
    - unfold pp_add_piece in H. destruct (pmget q (pp_data s)); [injection H as <- <-; auto|].
      destruct (_ <=? _); [injection H as <- <-; auto|].
      destruct (pc_new _); cbn [rbind] in H; try discriminate; injection H as <- <-; auto.
    - unfold pp_add_block in H. destruct (negb _); [injection H as <- <-; auto|].
      destruct (pmget q (pp_data s)) as [p|]; [|injection H as <- <-; auto].
      destruct (_ <=? _); [discriminate|]. destruct (usize_dec _ _); cbn [rbind] in H; try discriminate.
      cbn zeta in H. destruct (pp_bpp s =? _); [destruct (blocks_data _)|]; cbn [rbind rmap] in H; try discriminate;
        injection H as <- <-; auto.
    - unfold pp_take in H. destruct (take_pass _ _ _ _ _) as [r1| |]; cbn [rbind] in H; try discriminate.
      destruct (_ =? _); [injection H as <- <-; auto|].
      destruct (take_pass _ _ _ _ (fst r1)) as [r2| |]; cbn [rbind rmap] in H; try discriminate. injection H as <- <-; auto.
    - injection H as <- <-. auto.
  Qed.
  (** Operations that do not deliver a block of [k] keep [holds]. *)
  Lemma holds_step_other : forall c s o s' out l, wf_pp s -> holds s l -> pp_step c s o = Val (s', out) ->
    arrivals k [o] = [] -> holds s' l.
  Proof.
    intros c s [q|q b d|now ps buf cap|a] s' out l W Hh H A; cbn [pp_step] in H.
    - destruct (pp_add_piece s q) as [s1| |] eqn:E; try discriminate; injection H as <- <-; auto.
      destruct (in_dec Nat.eq_dec q (map fst (pp_data s))) as [I|I].
      + rewrite add_piece_known in E by auto. congruence.
      + destruct (Nat.lt_ge_cases (n_in_flight s) 10) as [L|L].
        * rewrite add_piece_new in E by auto. injection E as <-. eapply holds_other; eauto. cbn [pp_data pp_with].
          apply (mget_mset_other _ neqb_spec). destruct Hh as (p & G & _). intros ->. apply I.
          apply (mget_some_key _ neqb_spec) in G. exact G.
        * rewrite add_piece_full in E by auto. discriminate.
    - cbn in A. destruct (Nat.eqb_spec q k) as [->|Hn]; [discriminate|].
      destruct (pp_add_block c s q b d) as [[s1 r]| |] eqn:E; try discriminate. injection H as <- <-.
      destruct (pp_check_bounds s b d) eqn:EC.
      2:{ rewrite add_block_refused in E by auto. injection E as <- <-. auto. }
      destruct (pmget q (pp_data s)) as [p|] eqn:G.
      2:{ rewrite add_block_refused in E. injection E as <- <-. auto. right. apply pmget_none. auto. }
      rewrite (@add_block_some c s q b d p W EC G) in E.
      destruct (usize_dec c (pc_pending p)) as [pend| |]; cbn [rbind] in E; try discriminate. cbv zeta in E.
      destruct (pp_bpp s =? pc_downloaded p + 1).
      + destruct (blocks_data _) as [ds| |]; cbn [rbind] in E; try discriminate. injection E as <- <-.
        eapply holds_other; eauto. cbn [pp_data pp_with fst]. apply (mget_mdel_other _ neqb_spec). auto.
      + injection E as <- <-. eapply holds_other; eauto. cbn [pp_data pp_with fst]. apply (mget_mset_other _ neqb_spec). auto.
    - destruct (pp_take s now ps buf cap) as [r| |] eqn:E; try discriminate. injection H as <- <-.
      eapply holds_take; eauto.
    - injection H as <- <-. eapply holds_map; eauto.
      + apply cancel_get.
      + reflexivity.
      + intros. cbn [pc_data]. unfold cancel_blocks. apply map_downloaded; auto. apply expected_nd.
  Qed.
  (** Delivering a new block of [k]. *)
  Lemma holds_deliver : forall s l b d, wf_pp s -> pp_piece_length s mod BLOCK_SIZE <> 0 -> holds s l ->
    NoDup (map fst l) -> (forall x, In x (map fst l) -> x < pp_bpp s) -> ~ In b (map fst l) ->
    b < n_blocks (pp_piece_length s) -> length d = block_len (pp_piece_length s) b ->
    (S (length l) < pp_bpp s ->
       exists s', pp_add_block false s k b d = Val (s', ARAdded) /\ holds s' (l ++ [(b, d)])) /\
    (S (length l) = pp_bpp s ->
       exists s' ds, pp_add_block false s k b d = Val (s', ARLast k ds) /\ ~ in_flight s' k /\ length ds = pp_bpp s /\
         forall b' d', In (b', d') (l ++ [(b, d)]) <-> nth_error ds b' = Some d').
  Proof.
    intros s l b d W Hm (p & G & C & S) N Hl Hb HB HD.
    assert (EC : pp_check_bounds s b d = true) by (apply check_bounds_spec; auto).
    pose proof (wf_get _ W G) as LW. pose proof (check_bounds_lt _ _ _ EC) as Hlt.
    rewrite (@add_block_some false s k b d p W EC G). destruct (usize_dec_unchecked (pc_pending p)) as [pend ->].
    cbn [rbind]. cbv zeta.
    assert (SU : forall b' d', nth_error (upd (pc_data p) b (Downloaded d)) b' = Some (Downloaded d') <-> In (b', d') (l ++ [(b, d)])).
    { intros b' d'. rewrite in_app_iff. cbn [In]. destruct (Nat.eq_dec b' b) as [->|Hn].
      - rewrite nth_error_upd_same by lia. split.
        + intro H. injection H as ->. auto.
        + intros [H|[H|[]]]; [|congruence]. exfalso. apply Hb. apply (in_map fst) in H. exact H.
      - rewrite nth_error_upd_other by auto. rewrite S. split; auto. intros [H|[H|[]]]; auto. congruence. }
    split; intro HL.
    - replace (pp_bpp s =? pc_downloaded p + 1) with false by (symmetry; apply Nat.eqb_neq; lia).
      eexists. split; [reflexivity|]. eexists. cbn [pp_data pp_with]. split; [apply (mget_mset_same _ neqb_spec)|].
      cbn [pc_downloaded pc_data]. rewrite app_length. cbn. split; [lia|]. auto.
    - replace (pp_bpp s =? pc_downloaded p + 1) with true by (symmetry; apply Nat.eqb_eq; lia).
      assert (ALL : forall x, x < pp_bpp s -> In x (map fst (l ++ [(b, d)]))).
      { apply pigeon.
        - rewrite map_app. cbn. apply Permutation_NoDup with (b :: map fst l); [apply Permutation_cons_append|]. constructor; auto.
        - intros x Hx. rewrite map_app, in_app_iff in Hx. cbn in Hx. destruct Hx as [Hx|[<-|[]]]; auto.
        - rewrite map_length, app_length. cbn. lia. }
      destruct (@blocks_data_spec (upd (pc_data p) b (Downloaded d))) as (ds & E & L & R).
      { rewrite upd_length, LW. intros x Hx. apply ALL in Hx. apply in_map_iff in Hx as ([x' d'] & <- & Hx).
        exists d'. apply SU. auto. }
      rewrite E. cbn [rbind]. eexists. exists ds. split; [reflexivity|]. split.
      + rewrite in_flight_get. intros [q Hq]. cbn [pp_data pp_with] in Hq. unfold pmget, pmdel in Hq.
        rewrite (mget_mdel_same _ neqb_spec) in Hq; [discriminate|]. apply W.
      + rewrite upd_length in L. split; [lia|]. intros. rewrite <- SU. auto.
  Qed.

  Lemma replies_none : forall ops outs, arrivals k ops = [] -> replies k ops outs = [].
  Proof.
    induction ops as [|o t IH]; intros outs H; [destruct outs; auto|].
    destruct o as [q|q b d|now ps buf cap|a]; cbn in H; destruct outs as [|x u]; cbn; auto.
    - destruct x; auto. destruct (q =? k); [discriminate|]. auto. destruct (q =? k); [discriminate|]. auto.
      destruct (q =? k); [discriminate|]. auto. destruct (q =? k); [discriminate|]. auto.
  Qed.
  Lemma arrivals_cons : forall o t, arrivals k (o :: t) = arrivals k [o] ++ arrivals k t.
  Proof. intros. unfold arrivals. cbn [flat_map]. rewrite app_nil_r. reflexivity. Qed.

  Lemma completion : forall ops s s' outs l, wf_pp s -> pp_piece_length s mod BLOCK_SIZE <> 0 -> holds s l ->
    length l < pp_bpp s ->
    (forall b d, In (b, d) (l ++ arrivals k ops) -> b < n_blocks (pp_piece_length s) /\ length d = block_len (pp_piece_length s) b) ->
    NoDup (map fst (l ++ arrivals k ops)) -> pp_run false s ops = Val (s', outs) ->
    (length (l ++ arrivals k ops) < pp_bpp s -> replies k ops outs = repeat ARAdded (length (arrivals k ops)) /\ holds s' (l ++ arrivals k ops)) /\
    (length (l ++ arrivals k ops) = pp_bpp s -> exists ds,
       replies k ops outs = repeat ARAdded (length (arrivals k ops) - 1) ++ [ARLast k ds] /\ length ds = pp_bpp s /\
       forall b d, In (b, d) (l ++ arrivals k ops) <-> nth_error ds b = Some d).
  Proof.
    induction ops as [|o t IH]; intros s s' outs l W Hm Hh HL Hv N R.
    - cbn in R. injection R as <- <-. cbn [arrivals flat_map] in *. rewrite app_nil_r in *. split.
      + intros _. split; auto.
      + intro E. lia.
    - cbn [pp_run] in R. destruct (pp_step false s o) as [[s1 out]| |] eqn:E; cbn [rbind fst snd] in R; try discriminate.
      destruct (pp_run false s1 t) as [[s2 outs2]| |] eqn:R2; try discriminate. cbn in R. injection R as <- <-.
      pose proof (@wf_step _ _ _ _ _ W E) as W1. pose proof (@step_const _ _ _ _ _ E) as [K1 K2].
      rewrite arrivals_cons in *. destruct (arrivals k [o]) as [|[b d] [|? ?]] eqn:EA.
      + (* not about k *)
        cbn [app] in *. pose proof (@holds_step_other _ _ _ _ _ _ W Hh E EA) as H1.
        destruct (IH s1 s2 outs2 l W1) as [A B]; auto; try (rewrite ?K1, ?K2; auto).
        assert (RR : replies k (o :: t) (out :: outs2) = replies k t outs2).
        { destruct o as [q|q b d|now ps buf cap|a]; try reflexivity. cbn [replies]. cbn in EA. destruct out; try reflexivity.
          destruct (q =? k); [discriminate|auto]. }
        rewrite RR, K2 in *. auto.
      + (* delivers block b of k *)
        destruct o as [q|q b0 d0|now ps buf cap|a]; cbn in EA; try discriminate.
        destruct (Nat.eqb_spec q k) as [->|]; [|discriminate]. injection EA as <- <-.
        assert (NN : NoDup (map fst l) /\ ~ In b0 (map fst l)).
        { rewrite map_app in N. cbn in N. apply NoDup_remove in N as [N1 N2]. split.
          - eapply NoDup_app_l; eauto.
          - intro. apply N2. apply in_or_app. auto. }
        destruct NN as [N1 N2].
        destruct (Hv b0 d0) as [V1 V2]; [apply in_or_app; right; left; auto|].
        assert (HLb : forall x, In x (map fst l) -> x < pp_bpp s).
        { intros x Hx. apply in_map_iff in Hx as ([x' y] & <- & Hx). destruct W as (_ & -> & _). apply (Hv x' y). apply in_or_app. auto. }
        destruct (@holds_deliver _ _ b0 d0 W Hm Hh N1 HLb N2 V1 V2) as [D1 D2].
        cbn [pp_step] in E.
        assert (AS : l ++ [(b0, d0)] ++ arrivals k t = (l ++ [(b0, d0)]) ++ arrivals k t) by apply app_assoc.
        destruct (Nat.lt_ge_cases (S (length l)) (pp_bpp s)) as [G|G].
        * destruct (D1 G) as (s3 & E3 & H3). rewrite E3 in E. cbn in E. injection E as <- <-.
          cbn [replies]. rewrite Nat.eqb_refl. rewrite AS in *.
          destruct (IH s3 s2 outs2 (l ++ [(b0, d0)]) W1) as [A B]; auto; try (rewrite ?K1, ?K2; auto).
          { rewrite app_length. cbn. lia. }
          rewrite K2 in *. split; intro HH.
          -- destruct (A HH) as [-> A2]. split; auto. 
          -- destruct (B HH) as (ds & -> & B2 & B3). exists ds. split; auto.
             rewrite app_length in HH. rewrite app_length in HH. cbn [length] in HH.
             change ([(b0, d0)] ++ arrivals k t) with ((b0, d0) :: arrivals k t). cbn [length].
             replace (S (length (arrivals k t)) - 1) with (S (length (arrivals k t) - 1)) by lia. reflexivity.
        * assert (S (length l) = pp_bpp s) as G2 by lia.
          destruct (D2 G2) as (s3 & ds & E3 & NF & DL & DS). rewrite E3 in E. cbn in E. injection E as <- <-.
          assert (AT : arrivals k t = []).
          { destruct (arrivals k t) as [|z zs] eqn:EZ; auto. exfalso.
            assert (P := @pigeon (pp_bpp s) (map fst (l ++ [(b0, d0)] ++ z :: zs)) N).
            destruct P as [P _].
            { intros x Hx. apply in_map_iff in Hx as ([x' y] & <- & Hx). destruct W as (_ & -> & _). apply (Hv x' y). auto. }
            rewrite map_length, !app_length in P. cbn in P. lia. }
          rewrite AT in *. cbn [replies]. rewrite Nat.eqb_refl. rewrite (replies_none _ _ AT). rewrite app_nil_r in *.
          split; intro HH.
          -- rewrite app_length in HH. cbn in HH. lia.
          -- exists ds. cbn. auto.
      + exfalso. destruct o as [q|q b0 d0|now ps buf cap|a]; cbn in EA; try discriminate. destruct (q =? k); discriminate.
  Qed.
End Completion.

(** *** counters *)
Lemma filter_upd : forall l b d x, nth_error l b = Some x -> is_downloaded x = false ->
  length (filter is_downloaded (upd l b (Downloaded d))) = S (length (filter is_downloaded l)).
Proof.
  induction l as [|y t IH]; intros b d x H Hx; [destruct b; discriminate|]. destruct b as [|b]; cbn in H |- *.
  - injection H as ->. rewrite Hx. reflexivity.
  - destruct (is_downloaded y); cbn; rewrite (IH b d x) by auto; reflexivity.
Qed.
Lemma filter_all : forall l, length (filter is_downloaded l) = length l -> forall b, b < length l -> exists d, nth_error l b = Some (Downloaded d).
Proof.
  induction l as [|y t IH]; intros H b Hb; cbn in *; [lia|].
  assert (F : length (filter is_downloaded t) <= length t).
  { clear. induction t as [|z u IHu]; cbn; auto. destruct (is_downloaded z); cbn; lia. }
  destruct y as [|a0 b0|d0]; cbn in H; try lia. destruct b as [|b]; cbn; eauto. apply IH; lia.
Qed.
Lemma filter_map_same : forall (g : block -> block) l, (forall y, is_downloaded (g y) = is_downloaded y) ->
  length (filter is_downloaded (map g l)) = length (filter is_downloaded l).
Proof. intros g l H. induction l as [|y t IH]; cbn; auto. rewrite H. destruct (is_downloaded y); cbn; auto. Qed.
Lemma counted_map : forall s (f : nat -> pc -> pc), counted s ->
  (forall k p, pc_downloaded (f k p) = pc_downloaded p /\
     length (filter is_downloaded (pc_data (f k p))) = length (filter is_downloaded (pc_data p))) ->
  counted (pp_with s (map (fun kp => (fst kp, f (fst kp) (snd kp))) (pp_data s))).
Proof.
  intros s f H Hf. unfold counted, pp_with in *. cbn [pp_data pp_bpp]. rewrite Forall_forall in *.
  intros x Hx. apply in_map_iff in Hx as (y & <- & Hy). cbn [snd]. destruct (Hf (fst y) (snd y)) as [-> ->]. auto.
Qed.
Lemma mark_pc_counts : forall f o now ps k p, (forall y, f y = true -> is_downloaded y = false) ->
  pc_downloaded (mark_pc f o now ps k p) = pc_downloaded p /\
  length (filter is_downloaded (pc_data (mark_pc f o now ps k p))) = length (filter is_downloaded (pc_data p)).
Proof.
  intros f o now ps k p H. unfold mark_pc. destruct (mem k ps); auto. cbn. split; auto.
  apply filter_map_same. intro y. destruct (f y) eqn:E; auto. apply H in E. auto.
Qed.
Lemma counted_step : forall s o, wf_pp s -> counted s -> pp_owner s <> None ->
  (forall k b d, o = OBlock k b d -> forall d', block_at s k b <> Some (Downloaded d')) ->
  exists s' out, pp_step false s o = Val (s', out) /\ counted s' /\ pp_owner s' <> None.
Proof.
  intros s o W C HO HB. destruct o as [k|k b d|now ps buf cap|a]; cbn [pp_step].
  - destruct (in_dec Nat.eq_dec k (map fst (pp_data s))) as [I|I].
    + rewrite add_piece_known by auto. eauto.
    + destruct (Nat.lt_ge_cases (n_in_flight s) 10) as [L|L].
      * rewrite add_piece_new by auto. do 2 eexists. split; [reflexivity|]. split; auto.
        unfold counted, pp_with. cbn [pp_data pp_bpp]. apply Forall_mset; auto. cbn [snd pc_downloaded pc_data].
        split.
        -- clear. induction (pp_bpp s); cbn; auto.
        -- destruct W as (W1 & -> & _). apply n_blocks_pos. auto.
      * rewrite add_piece_full by auto. eauto.
  - destruct (pp_check_bounds s b d) eqn:EC.
    2:{ rewrite add_block_refused by auto. cbn. eauto. }
    destruct (pmget k (pp_data s)) as [p|] eqn:G.
    2:{ rewrite add_block_refused by (right; apply pmget_none; auto). cbn. eauto. }
    rewrite (@add_block_some false s k b d p W EC G). destruct (usize_dec_unchecked (pc_pending p)) as [pend ->].
    cbn [rbind]. cbv zeta. pose proof (wf_get _ W G) as LW. pose proof (check_bounds_lt _ _ _ EC) as Hlt.
    assert (CP : pc_downloaded p = length (filter is_downloaded (pc_data p)) /\ pc_downloaded p < pp_bpp s).
    { apply (mget_in _ neqb_spec) in G. unfold counted in C. rewrite Forall_forall in C. apply (C _ G). }
    destruct (nth_error (pc_data p) b) as [x|] eqn:EX; [|apply nth_error_None in EX; lia].
    assert (NX : is_downloaded x = false).
    { destruct x as [| |d0]; auto. exfalso. apply (HB k b d eq_refl d0). unfold block_at. rewrite G. auto. }
    pose proof (@filter_upd _ _ d _ EX NX) as FU.
    destruct (Nat.eqb_spec (pp_bpp s) (pc_downloaded p + 1)) as [E|E].
    + destruct (@blocks_data_spec (upd (pc_data p) b (Downloaded d))) as (ds & ED & _).
      { apply filter_all. rewrite upd_length. lia. }
      rewrite ED. cbn. do 2 eexists. split; [reflexivity|]. split; auto.
      unfold counted, pp_with. cbn [pp_data pp_bpp]. apply Forall_mdel. exact C.
    + cbn. do 2 eexists. split; [reflexivity|]. split; auto.
      unfold counted, pp_with. cbn [pp_data pp_bpp]. apply Forall_mset; [exact C|]. cbn. lia.
  - destruct (pp_owner s) as [ow|] eqn:EO; [|congruence].
    rewrite (pp_take_spec s now ps buf cap EO). cbv zeta.
    assert (C1 : counted (pp_with s (mark_map is_unbegun ow now ps (pp_data s)))).
    { apply (counted_map (mark_pc is_unbegun ow now ps)); auto. intros. apply mark_pc_counts. apply unbegun_nd. }
    destruct (_ =? _); cbn; do 2 eexists; (split; [reflexivity|]); (split; [|cbn; congruence]); auto.
    apply (counted_map (mark_pc (is_expired now) ow now ps)) in C1; auto.
    intros. apply mark_pc_counts. apply expired_nd.
  - do 2 eexists. split; [reflexivity|]. split; auto.
    unfold pp_cancel_pending.
    apply (counted_map (fun _ p => mk_pc (pc_pending p) (pc_downloaded p) (map (fun b => if is_expected_from a b then Unbegun else b) (pc_data p)))); auto.
    intros. cbn. split; auto. apply filter_map_same. intro y. destruct (is_expected_from a y) eqn:E; auto.
    apply expected_nd in E. auto.
Qed.

(** *** vector capacities *)
Lemma vec_room : forall n cap len, len + n <= cap -> vec_extend_cap cap len n = cap.
Proof.
  induction n as [|n IH]; intros cap len H; cbn; auto.
  unfold vec_grow. replace (cap =? len) with false by (symmetry; apply Nat.eqb_neq; lia). apply IH. lia.
Qed.

(** *** checked arithmetic: the counter is always 0 *)
Definition zero_pending (s : pp) : Prop := Forall (fun kp => pc_pending (snd kp) = 0%N) (pp_data s).
Lemma zero_map : forall s (f : nat -> pc -> pc), zero_pending s -> (forall k p, pc_pending (f k p) = pc_pending p) ->
  zero_pending (pp_with s (map (fun kp => (fst kp, f (fst kp) (snd kp))) (pp_data s))).
Proof.
  intros s f H Hf. unfold zero_pending, pp_with in *. cbn [pp_data]. rewrite Forall_forall in *.
  intros x Hx. apply in_map_iff in Hx as (y & <- & Hy). cbn [snd]. rewrite Hf. auto.
Qed.
Lemma checked_accept_panics : forall s k b d, zero_pending s -> wf_pp s -> in_flight s k -> pp_check_bounds s b d = true ->
  pp_add_block true s k b d = Panic.
Proof.
  intros s k b d Z W I E. apply in_flight_get in I as [p G]. rewrite (@add_block_some true s k b d p W E G).
  apply (mget_in _ neqb_spec) in G. unfold zero_pending in Z. rewrite Forall_forall in Z. apply Z in G. cbn in G.
  rewrite G. reflexivity.
Qed.
Lemma zero_step : forall s o s' out, wf_pp s -> zero_pending s -> pp_step true s o = Val (s', out) -> zero_pending s'.
Proof.
  intros s [k|k b d|now ps buf cap|a] s' out W Z H; cbn [pp_step] in H.
  - destruct (in_dec Nat.eq_dec k (map fst (pp_data s))) as [I|I].
    + rewrite add_piece_known in H by auto. injection H as <- <-. auto.
    + destruct (Nat.lt_ge_cases (n_in_flight s) 10) as [L|L].
      * rewrite add_piece_new in H by auto. injection H as <- <-. unfold zero_pending. cbn [pp_data pp_with].
        apply Forall_mset; auto.
      * rewrite add_piece_full in H by auto. injection H as <- <-. auto.
  - destruct (pp_check_bounds s b d) eqn:EC.
    2:{ rewrite add_block_refused in H by auto. injection H as <- <-. auto. }
    destruct (in_dec Nat.eq_dec k (map fst (pp_data s))) as [I|I].
    + rewrite checked_accept_panics in H by auto. discriminate.
    + rewrite add_block_refused in H by auto. injection H as <- <-. auto.
  - destruct (pp_owner s) as [ow|] eqn:EO.
    + rewrite (pp_take_spec s now ps buf cap EO) in H. cbv zeta in H.
      assert (MP : forall f k p, pc_pending (mark_pc f ow now ps k p) = pc_pending p).
      { intros. unfold mark_pc. destruct (mem k ps); auto. }
      assert (C1 : zero_pending (pp_with s (mark_map is_unbegun ow now ps (pp_data s)))).
      { apply (zero_map (mark_pc is_unbegun ow now ps)); auto. }
      destruct (_ =? _); injection H as <- <-; auto.
      apply (zero_map (mark_pc (is_expired now) ow now ps)) in C1; auto.
    + destruct (pp_take s now ps buf cap) as [r| |] eqn:E; try discriminate. injection H as <- <-.
      unfold pp_take in E. rewrite EO in E.
      destruct (take_pass is_unbegun None now ps (pp_data s)) as [r1| |] eqn:E1; cbn [rbind] in E; try discriminate.
      apply take_pass_none in E1. subst r1. cbn [fst snd] in E.
      destruct (_ =? _); [injection E as <-; exact Z|].
      destruct (take_pass (is_expired now) None now ps (pp_data s)) as [r2| |] eqn:E2; cbn [rbind] in E; try discriminate.
      apply take_pass_none in E2. subst r2. injection E as <-. exact Z.
  - injection H as <- <-. unfold pp_cancel_pending.
    apply (zero_map (fun _ p => mk_pc (pc_pending p) (pc_downloaded p) (map (fun b => if is_expected_from a b then Unbegun else b) (pc_data p)))); auto.
Qed.
Lemma preach_zero : forall s, preach true s -> zero_pending s.
Proof.
  intros s H. induction H as [pl s E|s a H Z|s o s' out H Z E|s d H Z P].
  - unfold pp_new in E. destruct (unsigned_ceil_div pl BLOCK_SIZE); try discriminate. injection E as <-. constructor.
  - exact Z.
  - eapply zero_step; eauto. eapply preach_wf; eauto.
  - unfold zero_pending in *. cbn [pp_data pp_with]. eapply Permutation_Forall; eauto.
Qed.
