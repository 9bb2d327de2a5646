(** C35, C36 and C68 continued: what is missing from a single file whose length is a
    multiple of the piece length, which empty files cannot be stored, and what reading past the end of a multi-file
    torrent gives. *)
From Coq Require Import List NArith ZArith Lia Bool Arith.
From Coq Require Import Init.Byte.
From Verif Require Import Base Assoc FsModel FsSpec FsProofs FsProps.
Import ListNotations.
Set Implicit Arguments.

(** ** C35 *)
Lemma s_write_edge : forall bs i D d x b k d', 0 < si_plen i -> si_len i = length D -> length D mod si_plen i = 0 -> si_n i = S k ->
  length D = (k + 1) * si_plen i -> x < si_n i -> piece_blocks bs (si_plen i) D x b -> s_write bs i d x b = Val d' ->
  forall y, k * si_plen i <= y -> nth_error (dget d (si_path i)) y = None -> nth_error (dget d' (si_path i)) y = None.
Proof.
  intros bs i D d x b k d' P EL M N LD X [_ B] W y Y H. unfold s_write in W. rewrite N in *. destruct (Nat.ltb_spec x k) as [L|L].
  - injection W as <-. rewrite dget_same, write_at_nth. assert (XP : (x + 1) * si_plen i <= k * si_plen i) by (apply Nat.mul_le_mono_r; lia).
    assert (L2 : (x + 1) * si_plen i <= length D) by lia.
    apply Nat.leb_le in L2. rewrite L2 in B. rewrite B, part_length.
    apply nth_error_None in H. bools; auto; lia.
  - destruct (Nat.eqb_spec x k) as [->|]; [|lia]. unfold s_write_last in W. destruct (Nat.eqb_spec (si_plen i) 0); [lia|].
    rewrite EL, M in W. assert (E : last_bytes bs 0 b = Val []) by (destruct b; reflexivity). rewrite E in W. cbn [rbind] in W. injection W as <-.
    rewrite dget_same. exact H.
Qed.
Lemma write_all_edge : forall bs i D k ps d d', 0 < si_plen i -> si_len i = length D -> length D mod si_plen i = 0 -> si_n i = S k ->
  length D = (k + 1) * si_plen i -> Forall (fun p => fst p < si_n i /\ piece_blocks bs (si_plen i) D (fst p) (snd p)) ps ->
  write_all (s_write bs i) d ps = Val d' ->
  forall y, k * si_plen i <= y -> nth_error (dget d (si_path i)) y = None -> nth_error (dget d' (si_path i)) y = None.
Proof.
  induction ps as [|[x b] t IH]; intros d d' P EL M N LD FA W y Y H; cbn [write_all] in W.
  - injection W as <-. auto.
  - inversion FA as [|? ? [A1 A2] FA']; subst. cbn [fst snd] in *. destruct (s_write bs i d x b) as [d1| |] eqn:E; cbn [rbind] in W; try discriminate.
    apply (IH d1 d' P EL M N LD FA' W y Y). eapply s_write_edge; eauto.
Qed.
(** Every single-file torrent whose length is a multiple of the piece length:
    all pieces are reported written and the last one is not there. *)
Theorem C35_last_piece_always : forall bs i D d ps, 0 < bs -> 0 < si_plen i -> si_len i = length D ->
  si_n i = pieces_of (length D) (si_plen i) -> D <> [] -> length D mod si_plen i = 0 -> dget d (si_path i) = [] ->
  Forall (fun p => fst p < si_n i /\ piece_blocks bs (si_plen i) D (fst p) (snd p)) ps ->
  (forall k, k < si_n i -> In k (map fst ps)) ->
  exists d', write_all (s_write bs i) d ps = Val d' /\ dget d' (si_path i) = firstn (length D - si_plen i) D.
Proof.
  intros bs i D d ps BS P EL EN NE M EM FA ALL.
  destruct (@s_write_all bs i D ps [] d) as (d' & W & E & F & IW & O); auto. { apply finv_nil. rewrite EM. cbn. lia. }
  exists d'. split; auto. destruct (si_n i) as [|k] eqn:N.
  { exfalso. assert (Q : 0 < length D) by (destruct D; [congruence|cbn; lia]). pose proof (@pieces_of_lt (length D) (si_plen i) 0 P Q) as Q2. rewrite <- EN in Q2. inversion Q2. }
  symmetry in EN. apply pieces_of_S in EN as [K1 K2]; auto.
  assert (LD : length D = (k + 1) * si_plen i).
  { pose proof (Nat.div_mod (length D) (si_plen i) ltac:(lia)) as DM. rewrite M in DM.
    assert (length D / si_plen i = k + 1); [|nia]. set (q := length D / si_plen i) in *. nia. }
  replace (length D - si_plen i) with (k * si_plen i) by lia.
  destruct F as [F1 F2]. apply list_ext. intro y. rewrite nth_error_firstn. destruct (Nat.ltb_spec y (k * si_plen i)) as [L|L].
  - rewrite F2; [f_equal; lia|lia|]. apply IW. right. cbn [Nat.add].
    assert (y / si_plen i < k) by (apply Nat.div_lt_upper_bound; lia). split.
    + apply ALL. lia.
    + unfold stored. apply negb_true_iff. rewrite N. destruct (Nat.eqb_spec (y / si_plen i) (S k - 1)); [lia|]. apply andb_false_r.
  - assert (X : Forall (fun p => fst p < si_n i /\ piece_blocks bs (si_plen i) D (fst p) (snd p)) ps) by (rewrite N; exact FA).
    eapply write_all_edge; eauto. rewrite EM. destruct y; reflexivity.
Qed.
Example C35_last_piece_example :
  let D := [x01; x02; x03; x04] in let i := mk_sinfo [x61] 4 2 2 in
  piece_blocks 2 2 D 0 [[x01; x02]] /\ piece_blocks 2 2 D 1 [[x03; x04]] /\ length D mod 2 = 0 /\ si_n i = pieces_of (length D) 2 /\
  write_all (s_write 2 i) [] [(1, [[x03; x04]]); (0, [[x01; x02]])] = Val [([x61], [x01; x02])].
Proof. cbv zeta. repeat split; cbn; auto. Qed.

(** So a new file ends up right exactly if the length is not a multiple of the
    piece length, or there is nothing to store. *)
Theorem C35_exact : forall bs i D d ps, 0 < bs -> 0 < si_plen i -> si_len i = length D ->
  si_n i = pieces_of (length D) (si_plen i) -> dget d (si_path i) = [] ->
  Forall (fun p => fst p < si_n i /\ piece_blocks bs (si_plen i) D (fst p) (snd p)) ps ->
  (forall k, k < si_n i -> In k (map fst ps)) ->
  exists d', write_all (s_write bs i) d ps = Val d' /\
    (dget d' (si_path i) = D <-> D = [] \/ length D mod si_plen i <> 0) /\ forall p, p <> si_path i -> dget d' p = dget d p.
Proof.
  intros bs i D d ps BS P EL EN EM FA ALL. destruct (Nat.eq_dec (length D mod si_plen i) 0) as [M|M].
  - destruct (@s_write_all bs i D ps [] d) as (d' & W & E & F & IW & O); auto. { apply finv_nil. rewrite EM. cbn. lia. }
    exists d'. split; auto. split; auto. destruct D as [|x D].
    + split; auto. intros _. destruct F as [F _]. cbn in F. destruct (dget d' (si_path i)); [reflexivity|cbn in F; lia].
    + destruct (@C35_last_piece_always bs i (x :: D) d ps BS P EL EN ltac:(discriminate) M EM FA ALL) as (d2 & W2 & G).
      assert (X : Val d' = Val d2) by congruence. injection X as <-. rewrite G. split; [|intros [?|?]; [discriminate|contradiction]].
      intro Y. apply (f_equal (@length _)) in Y. rewrite firstn_length in Y. cbn [length] in Y. lia.
  - destruct (@C35_single_partial bs i D d ps M BS P EL EN ltac:(rewrite EM; cbn; lia) FA ALL) as (d' & W & E & O).
    exists d'. split; auto. split; auto. split; auto.
Qed.
Example C35_exact_example :
  let D := [x01; x02; x03] in let i := mk_sinfo [x61] 3 2 2 in
  piece_blocks 2 2 D 0 [[x01; x02]] /\ piece_blocks 2 2 D 1 [[x03; x00]] /\ length D mod 2 <> 0 /\ si_n i = pieces_of (length D) 2 /\
  write_all (s_write 2 i) [] [(1, [[x03; x00]]); (0, [[x01; x02]])] = Val [([x61], [x01; x02; x03])].
Proof. cbv zeta. repeat split; try (cbn; auto; fail); [exists [x00]; reflexivity|cbn; lia]. Qed.

(** ** C68 *)
Lemma read_at_length : forall f off n x, read_at f off n = Val x -> length x = n.
Proof.
  intros f off n x H. unfold read_at in H. destruct (Nat.ltb_spec (length f) (off + n)).
  - destruct (Nat.eqb_spec n 0); [|discriminate]. injection H as <-. auto.
  - injection H as <-. rewrite firstn_length, skipn_length. lia.
Qed.
Lemma clip_end : forall i d s e T, s <= T -> T <= e -> forall files cur buf, cur + total files = T -> e - s <= length buf ->
  read_chunks i d buf (cuts s e cur files) = read_chunks i d buf (cuts s T cur files).
Proof.
  intros i d s e T ST TE. induction files as [|f t IH]; intros cur buf C LB; [reflexivity|].
  change (total (f :: t)) with (tf_len f + total t) in C. cbn [cuts].
  destruct (Nat.lt_ge_cases cur T) as [L|L].
  - assert (TT : touches s e cur (tf_len f) = touches s T cur (tf_len f)) by (unfold touches; bools; auto; lia).
    rewrite TT. destruct (touches s T cur (tf_len f)); cbn [app]; [|apply IH; lia].
    assert (CC : cut s e cur f = cut s T cur f) by (unfold cut; f_equal; lia). rewrite CC.
    cbn [read_chunks]. set (c := cut s T cur f). destruct (Nat.ltb_spec (fc_end c) (fc_start c)); cbn [orb]; auto.
    destruct (Nat.ltb_spec (length buf) (fc_end c)); auto.
    destruct (read_at _ _ _) as [x| |] eqn:E; cbn [rbind]; auto. apply read_at_length in E. apply IH; [lia|].
    rewrite !app_length, firstn_length, skipn_length. lia.
  - assert (Z : tf_len f = 0 /\ total t = 0 /\ cur = T) by lia. destruct Z as (Z1 & Z2 & ->).
    assert (T2 : touches s T T (tf_len f) = false) by (unfold touches; destruct (Nat.ltb_spec T T); [lia|reflexivity]).
    rewrite T2. cbn [app]. destruct (touches s e T (tf_len f)); cbn [app]; [|apply IH; lia].
    cbn [read_chunks]. unfold cut. cbn [fc_end fc_start fc_before fc_file]. rewrite Z1.
    replace (Nat.max s T) with T by lia. replace (Nat.min e (T + 0)) with T by lia.
    destruct (Nat.ltb_spec (T - s) (T - s)); [lia|]. cbn [orb]. destruct (Nat.ltb_spec (length buf) (T - s)); [lia|].
    rewrite !Nat.sub_diag. unfold read_at at 1. cbn [Nat.eqb firstn skipn rbind].
    assert (X : firstn (T - s) buf ++ skipn (T - s) buf = buf) by apply firstn_skipn.
    destruct (_ <? _); cbn [rbind app]; rewrite ?X; apply IH; lia.
Qed.
Lemma cuts_beyond : forall s e files cur, cur + total files < s -> cuts s e cur files = [].
Proof.
  induction files as [|f t IH]; intros cur H; auto. change (total (f :: t)) with (tf_len f + total t) in H.
  cbn [cuts]. rewrite IH by lia. unfold touches. bools; auto; lia.
Qed.
(** Reading past the end is reading up to the end: what lies beyond is not
    touched and no error is reported for it. *)
Theorem C68_multi_clipped_always : forall i d idx begin n buf, n <= length buf ->
  m_read i d idx begin n buf = m_read i d idx begin (Nat.min n (total (mi_files i) - (idx * mi_plen i + begin))) buf.
Proof.
  intros i d idx begin n buf LB. unfold m_read. set (s := idx * mi_plen i + begin). rewrite !fib_cuts.
  destruct (Nat.le_gt_cases (s + n) (total (mi_files i))) as [L|L]; [f_equal; f_equal; lia|].
  destruct (Nat.le_gt_cases s (total (mi_files i))) as [L2|L2].
  - replace (s + Nat.min n (total (mi_files i) - s)) with (total (mi_files i)) by lia. apply clip_end; auto; lia.
  - rewrite !cuts_beyond by (cbn; lia). reflexivity.
Qed.
(** So a stored torrent answers a read past its end with the bytes it has, and
    the rest of the buffer as it was. *)
Theorem C68_multi_data_always : forall bs i D d ps idx begin n buf, 0 < bs -> 0 < mi_plen i -> length D = total (mi_files i) ->
  NoDup (map (spec_path i) (mi_files i)) -> no_edge_empty bs (mi_plen i) (mi_files i) ->
  Forall (fun f => length (dget d (spec_path i f)) <= tf_len f) (mi_files i) ->
  Forall (fun p => piece_blocks bs (mi_plen i) D (fst p) (snd p)) ps ->
  (forall k, k < pieces_of (length D) (mi_plen i) -> In k (map fst ps)) ->
  idx * mi_plen i + begin <= length D -> length D < idx * mi_plen i + begin + n -> n <= length buf ->
  exists d', write_all (m_write bs i) d ps = Val d' /\
    m_read i d' idx begin n buf = Val (skipn (idx * mi_plen i + begin) D ++ skipn (length D - (idx * mi_plen i + begin)) buf).
Proof.
  intros bs i D d ps idx begin n buf BS P LD ND NE LE FA ALL S1 S2 LB. set (s := idx * mi_plen i + begin) in *.
  destruct (@C36_read_partial bs i D d ps idx begin (length D - s) buf) as (d' & W & R); auto; try (fold s; lia).
  { fold s. intros x X. apply ALL. apply pieces_of_lt; auto. lia. }
  exists d'. split; auto. rewrite C68_multi_clipped_always by auto. fold s. rewrite <- LD. replace (Nat.min n (length D - s)) with (length D - s) by lia.
  rewrite R. f_equal. fold s. f_equal. unfold part. apply firstn_all2. rewrite skipn_length. lia.
Qed.
Example C68_multi_data_example :
  let i := mk_minfo [x74] [tf x61 3] 4 in let D := [x01; x02; x03] in
  no_edge_empty 4 4 (mi_files i) /\ piece_blocks 4 4 D 0 [D] /\
  m_read i [([x74; x2f; x61], D)] 0 1 4 [xaa; xbb; xcc; xdd] = Val [x02; x03; xcc; xdd].
Proof.
  cbv zeta. split; [|split; [|reflexivity]].
  - intros f o [X|[]] Z. injection X as <- <-. discriminate.
  - split; [cbn; lia|]. cbn. exists []. reflexivity.
Qed.
(** ** C36 *)
Lemma chunk_write_edge : forall bs f data before s c, 0 < bs -> s mod bs = 0 -> chunk_write bs f data before s s <> Val c.
Proof.
  intros bs f data before s c BS M H. unfold chunk_write in H. destruct (Nat.ltb_spec s s); [lia|]. destruct (Nat.eqb_spec s 0); [discriminate|].
  assert (E : (s - 1) / bs + 1 = s / bs).
  { pose proof (Nat.div_mod s bs ltac:(lia)) as DM. rewrite M, Nat.add_0_r in DM. set (q := s / bs) in *.
    assert ((s - 1) / bs = q - 1); [|destruct q; lia]. symmetry. apply (Nat.div_unique _ _ _ (bs - 1)); [lia|].
    destruct q; [lia|]. replace (S q - 1) with q by lia. rewrite DM. lia. }
  rewrite E, Nat.sub_diag in H. cbn [firstn] in H. destruct (_ || _); discriminate.
Qed.
Lemma write_chunks_each : forall bs i data cs d d', write_chunks bs i d data cs = Val d' ->
  forall c, In c cs -> exists f x, chunk_write bs f data (fc_before c) (fc_start c) (fc_end c) = Val x.
Proof.
  induction cs as [|c0 t IH]; intros d d' H c I; [destruct I|]. cbn [write_chunks] in H.
  destruct (chunk_write bs _ data (fc_before c0) (fc_start c0) (fc_end c0)) as [x| |] eqn:E; cbn [rbind] in H; try discriminate.
  destruct I as [<-|I]; [eauto|]. eapply IH; eauto.
Qed.
Lemma cuts_has : forall s e files cur f o, In (f, o) (offsets cur files) -> touches s e o (tf_len f) = true -> In (cut s e o f) (cuts s e cur files).
Proof.
  induction files as [|g t IH]; intros cur f o I T; [destruct I|]. cbn [offsets cuts] in *. apply in_or_app. destruct I as [X|I].
  - injection X as <- <-. rewrite T. left. left. reflexivity.
  - right. auto.
Qed.
(** A piece that holds an empty file at a block boundary is never written. *)
Theorem C36_edge_always : forall bs i d idx data f o d', 0 < bs -> In (f, o) (offsets 0 (mi_files i)) -> tf_len f = 0 ->
  idx * mi_plen i <= o < (idx + 1) * mi_plen i -> (o - idx * mi_plen i) mod bs = 0 -> m_write bs i d idx data <> Val d'.
Proof.
  intros bs i d idx data f o d' BS I Z R M H. unfold m_write in H. rewrite fib_cuts in H.
  assert (T : touches (idx * mi_plen i) ((idx + 1) * mi_plen i) o (tf_len f) = true) by (unfold touches; bools; auto; lia).
  destruct (@write_chunks_each _ _ _ _ _ _ H _ (@cuts_has _ _ _ _ _ _ I T)) as (c & x & E). unfold cut in E. cbn [fc_before fc_start fc_end] in E.
  rewrite Z, Nat.add_0_r in E. replace (Nat.max (idx * mi_plen i) o) with o in E by lia. replace (Nat.min ((idx + 1) * mi_plen i) o) with o in E by lia.
  apply chunk_write_edge in E; auto.
Qed.
Lemma write_chunks_new : forall bs i data cs d d' p, write_chunks bs i d data cs = Val d' -> mget bytes_eqb p d = None ->
  (forall c, In c cs -> full_path i (fc_file c) <> p) -> mget bytes_eqb p d' = None.
Proof.
  induction cs as [|c0 t IH]; intros d d' p H N A; cbn [write_chunks] in H; [injection H as <-; auto|].
  destruct (chunk_write _ _ _ _ _ _) as [x| |]; cbn [rbind] in H; try discriminate. apply (IH _ _ p H).
  - unfold dput. rewrite (@mget_mset_other _ _ _ bytes_eqb_spec); auto. intro X. apply (A c0); [left; auto|auto].
  - intros c I. apply A. right. auto.
Qed.
Lemma offsets_path : forall (i : minfo) files cur f o g o', NoDup (map (spec_path i) files) -> In (f, o) (offsets cur files) -> In (g, o') (offsets cur files) ->
  spec_path i f = spec_path i g -> o = o'.
Proof.
  assert (IN : forall files cur f o, In (f, o) (offsets cur files) -> In f files).
  { induction files as [|g t IH]; intros cur f o I; [destruct I|]. destruct I as [X|I]; [injection X as <- <-; left; auto|right; eauto]. }
  induction files as [|h t IH]; intros cur f o g o' ND I J E; [destruct I|]. cbn [offsets map] in *. inversion ND as [|? ? NI ND']; subst.
  destruct I as [X|I], J as [Y|J].
  - congruence.
  - injection X as <- <-. exfalso. apply NI. rewrite E. apply in_map. eapply IN; eauto.
  - injection Y as <- <-. exfalso. apply NI. rewrite <- E. apply in_map. eapply IN; eauto.
  - eapply IH; eauto.
Qed.
Lemma write_all_each : forall w ps d d', write_all w d ps = Val d' -> forall k, In k (map fst ps) -> exists d1 b d2, w d1 k b = Val d2.
Proof.
  induction ps as [|[x b] t IH]; intros d d' H k I; [destruct I|]. cbn [write_all map fst] in *.
  destruct (w d x b) as [d1| |] eqn:E; cbn [rbind] in H; try discriminate. destruct I as [<-|I]; [eauto|]. eapply IH; eauto.
Qed.
(** Writing all pieces of a multi-file torrent to an empty disk stores it if and
    only if no empty file lies at a block boundary of a piece. *)
Theorem C36_exact : forall bs i D ps, 0 < bs -> 0 < mi_plen i -> length D = total (mi_files i) -> NoDup (map (spec_path i) (mi_files i)) ->
  Forall (fun p => fst p < pieces_of (length D) (mi_plen i) /\ piece_blocks bs (mi_plen i) D (fst p) (snd p)) ps ->
  (forall k, k < pieces_of (length D) (mi_plen i) -> In k (map fst ps)) ->
  (exists d', write_all (m_write bs i) [] ps = Val d' /\
     forall f o, In (f, o) (offsets 0 (mi_files i)) -> mget bytes_eqb (spec_path i f) d' = Some (part D o (tf_len f))) <->
  (forall f o, In (f, o) (offsets 0 (mi_files i)) -> tf_len f = 0 -> (o mod mi_plen i) mod bs <> 0).
Proof.
  intros bs i D ps BS P LD ND FA ALL. split.
  - intros (d' & W & A) f o IN Z M. pose proof (Nat.div_mod o (mi_plen i) ltac:(lia)) as DM. pose proof (Nat.mod_upper_bound o (mi_plen i) ltac:(lia)) as MU.
    destruct (Nat.lt_ge_cases (o / mi_plen i) (pieces_of (length D) (mi_plen i))) as [L|L].
    + destruct (@write_all_each _ _ _ _ W _ (ALL _ L)) as (d1 & b & d2 & E). eapply C36_edge_always; [exact BS|exact IN|exact Z| | |exact E]; [lia|].
      replace (o - o / mi_plen i * mi_plen i) with (o mod mi_plen i) by lia. exact M.
    + specialize (A f o IN).
      assert (NN : forall ps d d', Forall (fun p : nat * list bytes => fst p < pieces_of (length D) (mi_plen i)) ps -> write_all (m_write bs i) d ps = Val d' ->
        mget bytes_eqb (spec_path i f) d = None -> mget bytes_eqb (spec_path i f) d' = None).
      { clear - IN ND L P DM MU Z. induction ps as [|[x b] t IH]; intros d d' FA W N; cbn [write_all] in W; [injection W as <-; auto|].
        inversion FA; subst. cbn [fst] in *. destruct (m_write bs i d x b) as [d1| |] eqn:E; cbn [rbind] in W; try discriminate.
        apply (IH d1 d'); auto. unfold m_write in E. rewrite fib_cuts in E. eapply write_chunks_new; eauto.
        intros c IC X. rewrite full_path_spec in X. apply cuts_in in IC as (g & o' & IG & T & ->). cbn [cut fc_file] in X.
        pose proof (@offsets_path i _ _ _ _ _ _ ND IG IN X) as ->. unfold touches in T. rewrite andb_true_iff in T. destruct T as [T _]. apply Nat.ltb_lt in T.
        assert ((x + 1) * mi_plen i <= o / mi_plen i * mi_plen i) by (apply Nat.mul_le_mono_r; lia). lia. }
      rewrite (NN ps [] d') in A; [discriminate| |exact W|reflexivity]. eapply Forall_impl; [|exact FA]. cbn. tauto.
  - intro NE. destruct (@C36_multi_partial bs i D [] ps) as (d' & W & A & _); auto.
    + apply Forall_forall. intros f I. cbn. lia.
    + eapply Forall_impl; [|exact FA]. cbn. tauto.
    + exists d'. auto.
Qed.
Example C36_exact_example :
  let i := mk_minfo [x74] [tf x61 1; tf x62 0; tf x63 2] 4 in let D := [x01; x02; x03] in
  length D = total (mi_files i) /\ piece_blocks 2 4 D 0 [[x01; x02]; [x03]] /\ pieces_of (length D) 4 = 1 /\
  offsets 0 (mi_files i) = [(tf x61 1, 0); (tf x62 0, 1); (tf x63 2, 1)] /\ (1 mod 4) mod 2 <> 0.
Proof.
  cbv zeta. split; [reflexivity|]. split; [split; [cbn; auto|]; cbn; exists []; reflexivity|]. split; [reflexivity|]. split; [reflexivity|]. cbn. discriminate.
Qed.
Print Assumptions C36_edge_always.
Print Assumptions C36_exact.
Print Assumptions C35_last_piece_always.
Print Assumptions C68_multi_clipped_always.
Print Assumptions C68_multi_data_always.
Print Assumptions C35_exact.
