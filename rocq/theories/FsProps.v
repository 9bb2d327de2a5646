(** C34-C36, C68: block storage. Every statement holds for all block sizes,
    in particular for [BLOCK_SIZE]. *)
From Coq Require Import List NArith ZArith Lia Bool Arith.
From Coq Require Import Init.Byte.
From Verif Require Import Base Assoc FsModel FsSpec FsProofs.
Import ListNotations.
Set Implicit Arguments.

(** ** C34 *)
(** The bytes of the chunks, in order, are exactly the bytes [s, e) of the
    torrent; the chunks tile [0, e - s) and the files; files come in order. *)
Theorem C34_chunks : forall files s e, s <= e ->
  flat_map chunk_pos (fib files s e) = firstn (e - s) (skipn s (all_pos files)) /\
  chained 0 (fib files s e) /\
  Forall (fun c => fc_before c + (fc_end c - fc_start c) + fc_after c = tf_len (fc_file c)) (fib files s e) /\
  exists a b, files = a ++ map fc_file (fib files s e) ++ b.
Proof.
  intros files s e L. rewrite fib_cuts. split; [|split; [|split]].
  - rewrite cuts_pos by auto. rewrite Nat.max_0_r, Nat.sub_0_r. reflexivity.
  - apply cuts_chained; auto. lia.
  - apply Forall_forall. intros c H. apply cuts_in in H as (f & o & _ & T & ->). cbn [cut fc_before fc_end fc_start fc_after fc_file].
    unfold touches in T. bools; try discriminate; lia.
  - apply cuts_sublist. auto.
Qed.
(** Nothing of the range is left out when it lies inside the torrent. *)
Theorem C34_covers : forall files s e, s <= e -> e <= total files -> length (flat_map chunk_pos (fib files s e)) = e - s.
Proof.
  intros files s e L E. rewrite (proj1 (C34_chunks files L)). rewrite firstn_length, skipn_length, all_pos_length. lia.
Qed.
Definition tf (n : byte) (len : nat) : tfile := mk_tfile [[n]] len.
Example C34_example :
  fib [tf x61 3; tf x62 0; tf x63 4; tf x64 5] 2 9 =
    [mk_fchunk (tf x61 3) 0 1 2 0; mk_fchunk (tf x62 0) 1 1 0 0; mk_fchunk (tf x63 4) 1 5 0 0; mk_fchunk (tf x64 5) 5 7 0 3].
Proof. reflexivity. Qed.

(** ** C35 *)
(** Writing all pieces, in any order, possibly repeatedly, over a file that is
    not longer than the torrent. *)
Definition C35_single_always (bs : nat) (i : sinfo) (D : bytes) (d : disk) (ps : list (nat * list bytes)) : Prop :=
  0 < bs -> 0 < si_plen i -> si_len i = length D -> si_n i = pieces_of (length D) (si_plen i) ->
  length (dget d (si_path i)) <= length D ->
  Forall (fun p => fst p < si_n i /\ piece_blocks bs (si_plen i) D (fst p) (snd p)) ps ->
  (forall k, k < si_n i -> In k (map fst ps)) ->
  exists d', write_all (s_write bs i) d ps = Val d' /\ dget d' (si_path i) = D /\ forall p, p <> si_path i -> dget d' p = dget d p.
Lemma finv_nil : forall pl D o len c, length c <= len -> finv pl D [] o len c.
Proof. intros. split; auto. intros x _ []. Qed.
(** It holds when the length is not a multiple of the piece length. *)
Theorem C35_single_partial : forall bs i D d ps, length D mod si_plen i <> 0 -> C35_single_always bs i D d ps.
Proof.
  intros bs i D d ps NM BS P EL EN LE FA ALL.
  destruct (@s_write_all bs i D ps [] d) as (d' & W & E & F & IW & O); auto. { apply finv_nil. auto. }
  exists d'. split; auto. split; auto. transitivity (part D 0 (length D)).
  - apply (@finv_done (si_plen i) D W); auto. intros x X. apply IW. right. rewrite Nat.add_0_l. split.
    + apply ALL. rewrite EN. apply pieces_of_lt; auto.
    + unfold stored. destruct (Nat.eqb_spec (length D mod si_plen i) 0); [lia|reflexivity].
  - unfold part. cbn [skipn]. apply firstn_all.
Qed.
(** It fails for every block size when the length is a multiple: writing the
    only piece of a one-piece torrent reports success and writes nothing. *)
Theorem C35_single_refuted : forall bs, 0 < bs -> exists i D d ps,
  si_len i = length D /\ si_plen i = length D /\ ~ C35_single_always bs i D d ps /\
  exists d', write_all (s_write bs i) d ps = Val d' /\ dget d' (si_path i) = [].
Proof.
  intros bs BS. set (D := repeat x01 bs). assert (LD : length D = bs) by apply repeat_length.
  assert (ONE : pieces_of bs bs = 1). { unfold pieces_of. symmetry. apply (Nat.div_unique _ _ _ (bs - 1)); lia. }
  set (i := mk_sinfo [x61] bs bs 1).
  assert (W : write_all (s_write bs i) [] [(0, [D])] = Val [([x61], [])]).
  { cbn [write_all]. unfold s_write, i. cbn [si_n Nat.ltb Nat.leb Nat.eqb]. unfold s_write_last. cbn [si_plen si_len si_path].
    destruct (Nat.eqb_spec bs 0); [lia|]. rewrite Nat.mod_same by lia. reflexivity. }
  exists i, D, [], [(0, [D])]. cbn [i si_len si_plen]. rewrite LD. split; auto. split; auto. split.
  - intro H. destruct H as (d' & E & F & _); auto.
    + rewrite LD. cbn [i si_n si_plen]. auto.
    + cbn. lia.
    + constructor; auto. cbn [fst snd]. split; [cbn; lia|]. split. { cbn [blocked]. lia. }
      cbn [i si_plen]. rewrite LD. replace ((0 + 1) * bs) with bs by lia. rewrite Nat.leb_refl. cbn [concat]. rewrite app_nil_r.
      unfold part. cbn [Nat.mul skipn]. rewrite firstn_all2; auto. lia.
    + intros k K. cbn in *. left. lia.
    + rewrite W in E. inversion E. subst d'. cbn in F. rewrite <- F in LD. cbn in LD. lia.
  - exists [([x61], [])]. split; auto.
Qed.
(** Whatever the length: after any writes, a range that lies inside stored
    pieces reads back; the rest of the buffer is left alone. *)
Theorem C35_read : forall bs i D d ps idx begin n buf, 0 < bs -> 0 < si_plen i -> si_len i = length D ->
  si_n i = pieces_of (length D) (si_plen i) -> length (dget d (si_path i)) <= length D ->
  Forall (fun p => fst p < si_n i /\ piece_blocks bs (si_plen i) D (fst p) (snd p)) ps ->
  idx * si_plen i + begin + n <= length D -> n <= length buf ->
  (forall x, idx * si_plen i + begin <= x < idx * si_plen i + begin + n -> In (x / si_plen i) (map fst ps) /\
     (length D mod si_plen i <> 0 \/ x / si_plen i < si_n i - 1)) ->
  exists d', write_all (s_write bs i) d ps = Val d' /\
    s_read i d' idx begin n buf = Val (part D (idx * si_plen i + begin) n ++ skipn n buf).
Proof.
  intros bs i D d ps idx begin n buf BS P EL EN LE FA E LB A.
  destruct (@s_write_all bs i D ps [] d) as (d' & W & EE & F & IW & O); auto. { apply finv_nil. auto. }
  exists d'. split; auto. unfold s_read. destruct (Nat.ltb_spec (length buf) n); [lia|].
  rewrite (@finv_read (si_plen i) D W 0 (length D)); auto; try lia.
  intros x X. destruct (A x X) as [A1 A2]. apply IW. right. split; auto. unfold stored. apply negb_true_iff.
  rewrite Nat.add_0_l. destruct A2 as [A2|A2]; bools; auto; lia.
Qed.
Example C35_example :
  let D := [x01; x02; x03; x04; x05; x06; x07] in let i := mk_sinfo [x61] 7 4 2 in
  piece_blocks 2 4 D 0 [[x01; x02]; [x03; x04]] /\ piece_blocks 2 4 D 1 [[x05; x06]; [x07; xff]] /\
  write_all (s_write 2 i) [] [(1, [[x05; x06]; [x07; xff]]); (0, [[x01; x02]; [x03; x04]])] = Val [([x61], D)] /\
  s_read i [([x61], D)] 1 1 2 [x00; x00; x00] = Val [x06; x07; x00].
Proof.
  cbv zeta. split; [|split; [|split; reflexivity]].
  - split; cbn; auto.
  - split; [cbn; auto|]. cbn. exists [xff]. reflexivity.
Qed.

(** ** C36 *)
Lemma full_path_spec : forall i f, full_path i f = spec_path i f.
Proof.
  intros i f. unfold full_path, spec_path. f_equal. destruct (tf_path f) as [|c p]; [reflexivity|]. cbn [app].
  revert c. induction p as [|d p IH]; intro c; cbn [join flat_map app]. rewrite app_nil_r. reflexivity.
  f_equal. f_equal. exact (IH d).
Qed.
Lemma map_path_spec : forall i l, map (full_path i) l = map (spec_path i) l.
Proof. intros. apply map_ext. apply full_path_spec. Qed.
(** All files exist afterwards and hold their slice of the torrent. *)
Definition C36_multi_always (bs : nat) (i : minfo) (D : bytes) (d : disk) (ps : list (nat * list bytes)) : Prop :=
  0 < bs -> 0 < mi_plen i -> length D = total (mi_files i) -> NoDup (map (spec_path i) (mi_files i)) ->
  Forall (fun f => length (dget d (spec_path i f)) <= tf_len f) (mi_files i) ->
  Forall (fun p => piece_blocks bs (mi_plen i) D (fst p) (snd p)) ps ->
  (forall k, k < pieces_of (length D) (mi_plen i) -> In k (map fst ps)) ->
  exists d', write_all (m_write bs i) d ps = Val d' /\
    (forall f o, In (f, o) (offsets 0 (mi_files i)) -> mget bytes_eqb (spec_path i f) d' = Some (part D o (tf_len f))) /\
    (forall p, ~ In p (map (spec_path i) (mi_files i)) -> dget d' p = dget d p).
Lemma held_nil : forall pl D i d, Forall (fun f => length (dget d (spec_path i f)) <= tf_len f) (mi_files i) -> held pl D [] i d.
Proof.
  intros pl D i d FA f o H. split; [|intros j []]. apply finv_nil. rewrite Forall_forall in FA. rewrite full_path_spec. apply FA. apply (offsets_in _ _ _ _ H).
Qed.
(** It holds unless an empty file starts at a block boundary of a piece. *)
Theorem C36_multi_partial : forall bs i D d ps, no_edge_empty bs (mi_plen i) (mi_files i) -> C36_multi_always bs i D d ps.
Proof.
  intros bs i D d ps NE BS P LD ND LE FA ALL. rewrite <- map_path_spec in ND |- *.
  destruct (@m_write_all bs i D ps [] d) as (d' & E & H & O); auto. { apply held_nil. auto. }
  exists d'. split; auto. split; auto. intros f o IN. rewrite <- full_path_spec. destruct (H f o IN) as [F T]. rewrite app_nil_r in *.
  pose proof (offsets_in _ _ _ _ IN) as (I1 & I2 & I3).
  assert (AW : forall k, k < pieces_of (length D) (mi_plen i) -> In k (rev (map fst ps))). { intros. apply in_rev. rewrite rev_involutive. auto. }
  rewrite mhas_dget.
  - f_equal. eapply finv_done; eauto; [lia|]. intros x X. apply AW. apply pieces_of_lt; auto. lia.
  - pose proof (Nat.div_mod o (mi_plen i) ltac:(lia)) as DM. pose proof (Nat.mod_upper_bound o (mi_plen i) ltac:(lia)) as MU.
    apply (T (o / mi_plen i)).
    + apply AW. destruct (Nat.eq_dec (tf_len f) 0) as [Z|Z].
      * assert (o mod mi_plen i <> 0). { intro Q. apply (NE f o IN Z). rewrite Q. apply Nat.mod_0_l. lia. }
        rewrite <- (Nat.div_mul (o / mi_plen i) (mi_plen i)) by lia. apply pieces_of_lt; auto. lia.
      * apply pieces_of_lt; auto. lia.
    + unfold touches. bools; auto; lia.
Qed.
(** An empty file at the start of a piece: the writer panics. *)
Theorem C36_multi_refuted : forall bs, 0 < bs -> exists i D ps,
  ~ C36_multi_always bs i D [] ps /\ write_all (m_write bs i) [] ps = Panic.
Proof.
  intros bs BS. set (i := mk_minfo [x74] [tf x61 0; tf x62 1] bs). exists i, [x01], [(0, [[x01]])].
  assert (E : write_all (m_write bs i) [] [(0, [[x01]])] = Panic).
  { destruct bs as [|b]; [lia|]. cbn [write_all]. unfold m_write. rewrite fib_cuts. cbn [mi_plen mi_files i Nat.mul Nat.add].
    cbn [cuts]. unfold touches. cbn [tf tf_len Nat.ltb Nat.leb Nat.eqb andb orb Nat.add app write_chunks cut fc_file fc_start fc_end fc_before].
    rewrite Nat.min_0_r. cbn [Nat.sub chunk_write Nat.ltb Nat.leb Nat.eqb]. reflexivity. }
  split; auto. intro H. destruct H as (d' & W & _); [lia|cbn; lia|reflexivity| | | | |].
  - repeat constructor; cbn; intuition discriminate.
  - repeat constructor; cbn; lia.
  - constructor; auto. split; [cbn; lia|]. cbn [fst snd mi_plen i concat app]. unfold part. cbn [Nat.mul skipn length].
    destruct bs as [|[|b]]; [lia|reflexivity|]. cbn. exists []. reflexivity.
  - intros k K. left. cbn [fst]. cbn [mi_plen i length] in K. assert (pieces_of 1 bs = 1). { symmetry. apply (Nat.div_unique _ _ _ 0); lia. } lia.
  - rewrite E in W. discriminate.
Qed.
(** An empty file at an inner block boundary: the write is refused. *)
Theorem C36_boundary_refuted : forall bs, 0 < bs -> exists i D ps,
  ~ C36_multi_always bs i D [] ps /\ write_all (m_write bs i) [] ps = Fail.
Proof.
  intros bs BS. set (D := repeat x01 bs). assert (LD : length D = bs) by apply repeat_length.
  set (i := mk_minfo [x74] [tf x61 bs; tf x62 0; tf x63 1] (2 * bs)). exists i, (D ++ [x01]), [(0, [D; [x01]])].
  assert (E : write_all (m_write bs i) [] [(0, [D; [x01]])] = Fail).
  { cbn [write_all]. unfold m_write. rewrite fib_cuts. cbn [mi_plen mi_files i]. rewrite Nat.mul_0_l, Nat.add_0_l, Nat.mul_1_l.
    cbn [cuts]. rewrite Nat.add_0_l. cbn [tf tf_len]. rewrite Nat.add_0_r.
    assert (T1 : touches 0 (2 * bs) 0 bs = true) by (unfold touches; bools; auto; lia).
    assert (T2 : touches 0 (2 * bs) bs 0 = true) by (unfold touches; bools; auto; lia).
    rewrite T1, T2. cbn [app write_chunks cut fc_file fc_start fc_end fc_before tf tf_len].
    rewrite (@chunk_write_spec bs); auto; try lia.
    2: { cbn [blocked]. cbn. lia. }
    2: { cbn [concat]. rewrite !app_length, LD. lia. }
    cbn [rbind]. unfold chunk_write.
    replace (Nat.max 0 bs - 0) with bs by lia. replace (Nat.min (2 * bs) (bs + 0) - 0) with bs by lia.
    destruct (Nat.ltb_spec bs bs); [lia|]. destruct (Nat.eqb_spec bs 0); [lia|].
    rewrite Nat.div_same by lia. rewrite (Nat.div_small (bs - 1) bs) by lia. cbn [Nat.add Nat.ltb Nat.leb length orb Nat.sub firstn skipn].
    reflexivity. }
  split; auto. intro H. destruct H as (d' & W & _); [lia|cbn; lia| | | | | |].
  - rewrite app_length, LD. cbn. lia.
  - repeat constructor; cbn; intuition discriminate.
  - repeat constructor; cbn; lia.
  - constructor; auto. split; [cbn; lia|]. cbn [fst snd mi_plen i concat app]. rewrite app_length, LD. cbn [length].
    unfold part. rewrite Nat.mul_0_l. cbn [skipn]. rewrite !firstn_all2 by (rewrite app_length, LD; cbn; lia).
    destruct (_ <=? _); [reflexivity|]. exists []. rewrite app_nil_r. reflexivity.
  - intros k K. left. cbn [fst]. cbn [mi_plen i] in K. rewrite app_length, LD in K. cbn [length] in K.
    assert (pieces_of (bs + 1) (2 * bs) = 1). { symmetry. apply (Nat.div_unique _ _ _ (bs + 1 + 2 * bs - 1 - 2 * bs)); lia. } lia.
  - rewrite E in W. discriminate.
Qed.
(** A trailing empty file may never come into existence. *)
Theorem C36_trailing_refuted : forall bs, 0 < bs -> exists i D ps d',
  ~ C36_multi_always bs i D [] ps /\ write_all (m_write bs i) [] ps = Val d' /\
  exists f, In f (mi_files i) /\ mget bytes_eqb (spec_path i f) d' = None.
Proof.
  intros bs BS. set (D := repeat x01 bs). assert (LD : length D = bs) by apply repeat_length.
  set (i := mk_minfo [x74] [tf x61 bs; tf x62 0] bs).
  assert (E : write_all (m_write bs i) [] [(0, [D])] = Val [([x74; x2f; x61], D)]).
  { cbn [write_all]. unfold m_write. rewrite fib_cuts. cbn [mi_plen mi_files i]. rewrite Nat.mul_0_l, Nat.add_0_l, Nat.mul_1_l.
    cbn [cuts]. rewrite Nat.add_0_l. cbn [tf tf_len].
    assert (T1 : touches 0 bs 0 bs = true) by (unfold touches; bools; auto; lia).
    assert (T2 : touches 0 bs bs 0 = false) by (unfold touches; destruct (Nat.ltb_spec bs bs); [lia|reflexivity]).
    rewrite T1, T2. cbn [app write_chunks cut fc_file fc_start fc_end fc_before tf tf_len].
    rewrite (@chunk_write_spec bs); auto; try lia.
    2: { cbn [blocked]. lia. }
    2: { cbn [concat]. rewrite !app_length, LD. lia. }
    assert (PD : forall k m, k = 0 -> m = bs -> part (concat [D]) k m = D).
    { intros k m -> ->. unfold part. cbn [concat skipn]. rewrite app_nil_r. apply firstn_all2. lia. }
    rewrite PD by lia. cbn [rbind write_chunks]. rewrite Nat.max_0_l, Nat.sub_diag.
    assert (WD : write_at [] 0 D = D). { unfold write_at. destruct D; auto. cbn [firstn Nat.sub repeat app]. rewrite skipn_nil, app_nil_r. reflexivity. }
    unfold dput, full_path, dget. cbn [mi_name tf_path join app mset mget i]. rewrite WD. reflexivity. }
  exists i, D, [(0, [D])]. exists [([x74; x2f; x61], D)]. split; [|split; [exact E|]].
  - intro H. destruct H as (d' & W & A & _); [lia|cbn; lia| | | | | |].
    + rewrite LD. cbn. lia.
    + repeat constructor; cbn; intuition discriminate.
    + repeat constructor; cbn; lia.
    + constructor; auto. split; [cbn; lia|]. cbn [fst snd mi_plen i concat app]. rewrite LD. replace ((0 + 1) * bs) with bs by lia.
      rewrite Nat.leb_refl, app_nil_r. unfold part. rewrite Nat.mul_0_l. cbn [skipn]. rewrite firstn_all2; auto. lia.
    + intros k K. left. cbn [fst]. cbn [mi_plen i] in K. rewrite LD in K.
      assert (pieces_of bs bs = 1). { symmetry. apply (Nat.div_unique _ _ _ (bs - 1)); lia. } lia.
    + rewrite E in W. inversion W. subst d'. specialize (A (tf x62 0) bs). cbn [mi_files i offsets] in A.
      specialize (A (or_intror (or_introl eq_refl))). cbn in A. discriminate.
  - exists (tf x62 0). split; [right; left; auto|reflexivity].
Qed.
(** After any writes, a range inside written pieces reads back. *)
Theorem C36_read_partial : forall bs i D d ps idx begin n buf, 0 < bs -> 0 < mi_plen i -> length D = total (mi_files i) ->
  NoDup (map (spec_path i) (mi_files i)) -> no_edge_empty bs (mi_plen i) (mi_files i) ->
  Forall (fun f => length (dget d (spec_path i f)) <= tf_len f) (mi_files i) ->
  Forall (fun p => piece_blocks bs (mi_plen i) D (fst p) (snd p)) ps ->
  idx * mi_plen i + begin + n <= length D -> n <= length buf ->
  (forall x, idx * mi_plen i + begin <= x < idx * mi_plen i + begin + n -> In (x / mi_plen i) (map fst ps)) ->
  exists d', write_all (m_write bs i) d ps = Val d' /\
    m_read i d' idx begin n buf = Val (part D (idx * mi_plen i + begin) n ++ skipn n buf).
Proof.
  intros bs i D d ps idx begin n buf BS P LD ND NE LE FA E LB A. rewrite <- map_path_spec in ND.
  destruct (@m_write_all bs i D ps [] d) as (d' & EE & H & O); auto. { apply held_nil. auto. }
  exists d'. split; auto. eapply m_read_spec; eauto. intros x X. rewrite app_nil_r. apply in_rev. rewrite rev_involutive. auto.
Qed.
Example C36_example :
  let D := [x01; x02; x03; x04; x05; x06; x07] in let i := mk_minfo [x74] [tf x61 3; tf x62 0; tf x63 4] 4 in
  no_edge_empty 2 4 (mi_files i) /\ NoDup (map (spec_path i) (mi_files i)) /\
  piece_blocks 2 4 D 1 [[x05; x06]; [x07; xff]] /\ piece_blocks 2 4 D 0 [[x01; x02]; [x03; x04]] /\
  exists d, write_all (m_write 2 i) [] [(1, [[x05; x06]; [x07; xff]]); (0, [[x01; x02]; [x03; x04]])] = Val d /\
    map (fun f => mget bytes_eqb (spec_path i f) d) (mi_files i) = [Some [x01; x02; x03]; Some []; Some [x04; x05; x06; x07]] /\
    m_read i d 0 2 3 [x00; x00; x00] = Val [x03; x04; x05].
Proof.
  cbv zeta. split; [|split; [|split; [|split]]].
  - intros f o H L. cbn in H. destruct H as [H|[H|[H|[]]]]; inversion H; subst; cbn in *; lia.
  - repeat constructor; cbn; intuition discriminate.
  - split; [cbn; auto|]. cbn. exists [xff]. reflexivity.
  - split; cbn; auto.
  - eexists. split; [reflexivity|]. split; reflexivity.
Qed.

(** ** C68 *)
(** A read that reaches beyond the end is an error (single file). *)
Theorem C68_single : forall i d idx begin n buf, length (dget d (si_path i)) <= si_len i -> 0 < n -> n <= length buf ->
  si_len i < idx * si_plen i + begin + n -> s_read i d idx begin n buf = Fail.
Proof.
  intros i d idx begin n buf L N B P. unfold s_read. destruct (Nat.ltb_spec (length buf) n); [lia|]. unfold read_at.
  destruct (Nat.ltb_spec (length (dget d (si_path i))) (idx * si_plen i + begin + n)); [|lia].
  destruct (Nat.eqb_spec n 0); [lia|]. reflexivity.
Qed.
Definition C68_multi_always (i : minfo) (d : disk) (idx begin n : nat) (buf : bytes) : Prop :=
  Forall (fun f => length (dget d (spec_path i f)) <= tf_len f) (mi_files i) -> 0 < n -> n <= length buf ->
  total (mi_files i) < idx * mi_plen i + begin + n -> m_read i d idx begin n buf = Fail.
(** With several files it succeeds and returns what was in the buffer. *)
Theorem C68_multi_refuted : exists i d idx begin n buf, ~ C68_multi_always i d idx begin n buf /\ m_read i d idx begin n buf = Val buf.
Proof.
  exists (mk_minfo [x74] [tf x61 3] 4), [([x74; x2f; x61], [x01; x02; x03])], 1, 0, 2, [xaa; xbb].
  assert (E : m_read (mk_minfo [x74] [tf x61 3] 4) [([x74; x2f; x61], [x01; x02; x03])] 1 0 2 [xaa; xbb] = Val [xaa; xbb]) by reflexivity.
  split; auto. intro H. rewrite H in E; [discriminate|repeat constructor|lia|cbn; lia|cbn; lia].
Qed.
(** In general: whatever lies beyond the end leaves the buffer as it was. *)
Theorem C68_multi_beyond : forall i d idx begin n buf, total (mi_files i) <= idx * mi_plen i + begin -> 0 < begin + idx * mi_plen i ->
  Forall (fun f => 0 < tf_len f) (mi_files i) -> m_read i d idx begin n buf = Val buf.
Proof.
  intros i d idx begin n buf T Z PZ. unfold m_read. rewrite fib_cuts. set (s := idx * mi_plen i + begin) in *.
  assert (G : forall files cur, Forall (fun f => 0 < tf_len f) files -> cur + total files <= s -> cuts s (s + n) cur files = []).
  { induction files as [|f t IH]; intros cur FA H; auto. change (total (f :: t)) with (tf_len f + total t) in H. inversion FA; subst.
    cbn [cuts]. rewrite IH by (auto; lia). unfold touches. bools; auto; lia. }
  rewrite G; auto.
Qed.
Print Assumptions C36_multi_partial.
