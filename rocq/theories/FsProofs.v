(** Proofs about block storage. *)
From Coq Require Import List NArith ZArith Lia Bool Arith.
From Coq Require Import Init.Byte.
From Verif Require Import Base Assoc FsModel FsSpec.
Import ListNotations.
Set Implicit Arguments.

(** ** file ranges *)
(** A file of [len] bytes starting at [cur] meets the range [s, e). *)
Definition touches (s e cur len : nat) : bool := (cur <? e) && ((s <? cur + len) || ((len =? 0) && (s <=? cur))).
Definition cut (s e cur : nat) (f : tfile) : fchunk :=
  mk_fchunk f (Nat.max s cur - s) (Nat.min e (cur + tf_len f) - s) (Nat.max s cur - cur) (cur + tf_len f - Nat.min e (cur + tf_len f)).
Fixpoint cuts (s e cur : nat) (files : list tfile) : list fchunk :=
  match files with
  | [] => []
  | f :: t => (if touches s e cur (tf_len f) then [cut s e cur f] else []) ++ cuts s e (cur + tf_len f) t
  end.
Ltac bools := repeat match goal with
  | H : context [?a <? ?b] |- _ => destruct (Nat.ltb_spec a b)
  | H : context [?a <=? ?b] |- _ => destruct (Nat.leb_spec a b)
  | H : context [?a =? ?b] |- _ => destruct (Nat.eqb_spec a b)
  | |- context [?a <? ?b] => destruct (Nat.ltb_spec a b)
  | |- context [?a <=? ?b] => destruct (Nat.leb_spec a b)
  | |- context [?a =? ?b] => destruct (Nat.eqb_spec a b)
  end; cbn [andb orb negb] in *.
Lemma skip_cond : forall s e cur len,
  (cur <? e) && ((s <? cur + len) || ((len =? 0) && (s <=? cur + len))) = touches s e cur len.
Proof. intros. unfold touches. bools; auto; lia. Qed.
Lemma take_cond : forall s e cur len,
  (e <=? cur) || ((cur + len <=? s) && (0 <? len)) || ((cur + len <? s) && (len =? 0)) = negb (touches s e cur len).
Proof. intros. unfold touches. bools; auto; lia. Qed.
Lemma cuts_past : forall s e files cur, e <= cur -> cuts s e cur files = [].
Proof.
  induction files as [|f t IH]; intros cur H; cbn [cuts]; auto. rewrite IH by lia.
  unfold touches. destruct (Nat.ltb_spec cur e); [lia|]. reflexivity.
Qed.
Lemma take_cuts : forall s e files cur, s <= cur -> fib_take s e cur files = cuts s e cur files.
Proof.
  induction files as [|f t IH]; intros cur H; cbn [fib_take cuts]; auto. rewrite take_cond.
  destruct (touches s e cur (tf_len f)) eqn:T; cbn [negb app].
  - rewrite IH by lia. reflexivity.
  - symmetry. apply cuts_past. unfold touches in T. bools; try discriminate; lia.
Qed.
Lemma take_cuts_first : forall s e cur f t, touches s e cur (tf_len f) = true -> fib_take s e cur (f :: t) = cuts s e cur (f :: t).
Proof.
  intros s e cur f t T. cbn [fib_take cuts]. rewrite take_cond, T. cbn [negb app]. f_equal. apply take_cuts.
  unfold touches in T. bools; try discriminate; lia.
Qed.
Lemma fib_cuts : forall files s e, fib files s e = cuts s e 0 files.
Proof.
  intros files s e. unfold fib. generalize 0. induction files as [|f t IH]; intro cur; cbn [fib_skip fst snd]; auto.
  rewrite skip_cond. destruct (touches s e cur (tf_len f)) eqn:T; cbn [fst snd].
  - apply take_cuts_first. auto.
  - rewrite IH. cbn [cuts]. rewrite T. reflexivity.
Qed.

Lemma skipn_all_le : forall A (l : list A) n, length l <= n -> skipn n l = [].
Proof. intros. apply skipn_all2. auto. Qed.
Lemma skipn_add : forall A n m (l : list A), skipn n (skipn m l) = skipn (m + n) l.
Proof. intros A n m. revert n. induction m; intros n l; cbn [Nat.add skipn]; auto. destruct l; [destruct n; reflexivity|]. apply IHm. Qed.
Lemma firstn_min : forall A (l : list A) n, firstn n l = firstn (Nat.min n (length l)) l.
Proof. intros. destruct (Nat.le_ge_cases n (length l)). rewrite Nat.min_l; auto. rewrite Nat.min_r by auto. rewrite firstn_all2, firstn_all; auto. Qed.
Lemma firstn_skipn_seq : forall n a b k, b + n <= k -> firstn n (skipn b (seq a k)) = seq (a + b) n.
Proof.
  intros n a b k H. replace k with (b + (n + (k - b - n))) by lia. rewrite !seq_app.
  rewrite skipn_app, skipn_all_le by (rewrite seq_length; lia). rewrite seq_length, Nat.sub_diag. cbn [skipn app].
  rewrite firstn_app, firstn_all2 by (rewrite seq_length; lia). rewrite seq_length, Nat.sub_diag. cbn. apply app_nil_r.
Qed.
Lemma seq_map_add : forall n a, map (fun j => a + j) (seq 0 n) = seq a n.
Proof.
  intros n a. revert a. induction n; intro a; cbn; auto. f_equal. lia. rewrite <- (IHn (S a)). rewrite <- seq_shift, map_map. apply map_ext. intro. lia.
Qed.
Lemma cut_pos : forall s e cur f, touches s e cur (tf_len f) = true -> s <= e ->
  chunk_pos (cut s e cur f) = firstn (e - Nat.max s cur) (skipn (s - cur) (map (pair f) (seq 0 (tf_len f)))).
Proof.
  intros s e cur f T L. unfold chunk_pos, cut. cbn [fc_file fc_before fc_start fc_end].
  assert (B : cur < e /\ (s < cur + tf_len f \/ tf_len f = 0 /\ s <= cur)). { unfold touches in T. bools; try discriminate; split; auto; lia. }
  set (n := Nat.min e (cur + tf_len f) - s - (Nat.max s cur - s)).
  rewrite skipn_map, firstn_map. rewrite firstn_min, skipn_length, seq_length.
  replace (Nat.min (e - Nat.max s cur) (tf_len f - (s - cur))) with n by (subst n; lia).
  rewrite firstn_skipn_seq by (subst n; lia). rewrite Nat.add_0_l.
  replace (Nat.max s cur - cur) with (s - cur) by lia.
  rewrite <- (seq_map_add n (s - cur)), map_map. reflexivity.
Qed.
Lemma all_pos_length : forall files, length (all_pos files) = total files.
Proof. induction files; auto. cbn [all_pos total flat_map fold_right]. rewrite app_length, map_length, seq_length. unfold all_pos, total in *. lia. Qed.
Lemma cuts_pos : forall s e files cur, s <= e -> flat_map chunk_pos (cuts s e cur files) = firstn (e - Nat.max s cur) (skipn (s - cur) (all_pos files)).
Proof.
  induction files as [|f t IH]; intros cur L; cbn [cuts].
  - cbn. rewrite skipn_nil, firstn_nil. reflexivity.
  - rewrite flat_map_app, IH by auto. change (all_pos (f :: t)) with (map (pair f) (seq 0 (tf_len f)) ++ all_pos t).
    rewrite skipn_app, firstn_app, map_length, seq_length, skipn_length, map_length, seq_length.
    destruct (touches s e cur (tf_len f)) eqn:T.
    + cbn [flat_map]. rewrite app_nil_r, cut_pos by auto. f_equal.
      unfold touches in T. replace (s - (cur + tf_len f)) with (s - cur - tf_len f) by lia. f_equal. bools; try discriminate; lia.
    + cbn [flat_map app]. unfold touches in T.
      assert (B : e <= cur \/ (cur + tf_len f <= s)). { bools; try discriminate; lia. }
      destruct B as [B|B].
      * replace (e - Nat.max s (cur + tf_len f)) with 0 by lia. replace (e - Nat.max s cur) with 0 by lia. reflexivity.
      * rewrite (skipn_all_le (map (pair f) (seq 0 (tf_len f)))) by (rewrite map_length, seq_length; lia). rewrite firstn_nil. cbn [app].
        replace (s - (cur + tf_len f)) with (s - cur - tf_len f) by lia. f_equal. lia.
Qed.
Lemma cuts_chained : forall s e files cur k, s <= e -> k = Nat.min e (Nat.max s cur) - s -> chained k (cuts s e cur files).
Proof.
  induction files as [|f t IH]; intros cur k L K; cbn [cuts]; [exact I|].
  destruct (touches s e cur (tf_len f)) eqn:T; cbn [app].
  - assert (B : cur < e /\ (s < cur + tf_len f \/ tf_len f = 0 /\ s <= cur)). { unfold touches in T. bools; try discriminate; split; auto; lia. }
    cbn [chained cut fc_start fc_end]. split; [lia|]. split; [lia|]. apply IH; auto. lia.
  - destruct (Nat.le_gt_cases e (cur + tf_len f)) as [P|P]; [rewrite cuts_past by auto; exact I|].
    apply IH; auto. unfold touches in T. bools; try discriminate; lia.
Qed.
Lemma cuts_in : forall s e files cur c, In c (cuts s e cur files) -> exists f o, In (f, o) (offsets cur files) /\ touches s e o (tf_len f) = true /\ c = cut s e o f.
Proof.
  induction files as [|f t IH]; intros cur c H; cbn [cuts offsets] in *; [destruct H|]. apply in_app_or in H as [H|H].
  - destruct (touches s e cur (tf_len f)) eqn:T; [|destruct H]. destruct H as [<-|[]]. exists f, cur. split; [left; auto|auto].
  - destruct (IH _ _ H) as (g & o & A & B). exists g, o. split; auto. right; auto.
Qed.
Lemma cuts_sublist : forall s e files cur, s <= e -> exists a b, files = a ++ map fc_file (cuts s e cur files) ++ b.
Proof.
  assert (G : forall s e files cur, s <= e -> s <= cur -> exists b, files = map fc_file (cuts s e cur files) ++ b).
  { induction files as [|f t IH]; intros cur L C; cbn [cuts]; [exists []; auto|]. destruct (touches s e cur (tf_len f)) eqn:T.
    - destruct (IH (cur + tf_len f) L ltac:(lia)) as [b E]. exists b. cbn. f_equal. exact E.
    - rewrite cuts_past; [exists (f :: t); auto|]. unfold touches in T. bools; try discriminate; lia. }
  induction files as [|f t IH]; intros cur L; cbn [cuts]; [exists [], []; auto|]. destruct (touches s e cur (tf_len f)) eqn:T.
  - destruct (G s e t (cur + tf_len f) L) as [b E]. { unfold touches in T. bools; try discriminate; lia. }
    exists [], b. cbn. f_equal. exact E.
  - destruct (IH (cur + tf_len f) L) as (a & b & E). exists (f :: a), b. cbn. f_equal. exact E.
Qed.

(** ** files *)
Lemma bytes_eqb_spec : forall a b, bytes_eqb a b = true <-> a = b.
Proof. intros. split. apply bytes_eqb_eq. intros ->. apply bytes_eqb_refl. Qed.
Lemma dget_same : forall d p c, dget (dput d p c) p = c.
Proof. intros. unfold dget, dput. rewrite (mget_mset_same _ bytes_eqb_spec). auto. Qed.
Lemma dget_other : forall d p q c, q <> p -> dget (dput d p c) q = dget d q.
Proof. intros. unfold dget, dput. rewrite (@mget_mset_other _ _ _ bytes_eqb_spec); auto. Qed.
Lemma nth_error_skipn : forall A (l : list A) n i, nth_error (skipn n l) i = nth_error l (n + i).
Proof. induction l; destruct n; simpl; intros; auto. destruct i; reflexivity. Qed.
Lemma nth_error_firstn : forall A (l : list A) n i, nth_error (firstn n l) i = if i <? n then nth_error l i else None.
Proof.
  induction l; intros n i. { rewrite firstn_nil. destruct i, (_ <? n); auto. }
  destruct n, i; cbn [firstn nth_error]; auto. rewrite IHl. reflexivity.
Qed.
Lemma write_at_nth : forall f off d x, nth_error (write_at f off d) x =
  if (off <=? x) && (x <? off + length d) then nth_error d (x - off)
  else if x <? length f then nth_error f x
  else if (x <? off) && (0 <? length d) then Some x00 else None.
Proof.
  intros f off d x. unfold write_at. destruct d as [|a d].
  - cbn [length]. bools; try lia; auto; apply nth_error_None; lia.
  - remember (a :: d) as e eqn:E. assert (P : 0 < length e) by (rewrite E; cbn; lia). clear E a d.
    assert (L1 : length (firstn off f ++ repeat x00 (off - length f)) = off) by (rewrite app_length, firstn_length, repeat_length; lia).
    rewrite (app_assoc (firstn off f)). destruct (Nat.leb_spec off x).
    + rewrite nth_error_app2 by lia. rewrite L1. destruct (Nat.ltb_spec x (off + length e)); cbn [andb].
      * rewrite nth_error_app1 by lia. auto.
      * rewrite nth_error_app2 by lia. rewrite nth_error_skipn. replace (off + length e + (x - off - length e)) with x by lia.
        bools; try lia; auto. apply nth_error_None. lia.
    + cbn [andb]. rewrite nth_error_app1 by lia. destruct (Nat.ltb_spec x (length f)).
      * rewrite nth_error_app1 by (rewrite firstn_length; lia). rewrite nth_error_firstn. bools; auto; lia.
      * rewrite nth_error_app2 by (rewrite firstn_length; lia). rewrite firstn_length. bools; try lia.
        apply nth_error_repeat. lia.
Qed.
Lemma write_at_length : forall f off d, length (write_at f off d) = match d with [] => length f | _ => Nat.max (length f) (off + length d) end.
Proof. intros. unfold write_at. destruct d as [|a d]; auto. rewrite !app_length, firstn_length, repeat_length, skipn_length. lia. Qed.
Lemma part_nth : forall D s n x, nth_error (part D s n) x = if x <? n then nth_error D (s + x) else None.
Proof. intros. unfold part. rewrite nth_error_firstn, nth_error_skipn. reflexivity. Qed.
Lemma part_length : forall D s n, length (part D s n) = Nat.min n (length D - s).
Proof. intros. unfold part. rewrite firstn_length, skipn_length. reflexivity. Qed.
Lemma read_at_part : forall f off n, off + n <= length f -> read_at f off n = Val (part f off n).
Proof. intros. unfold read_at. destruct (Nat.ltb_spec (length f) (off + n)); [lia|]. reflexivity. Qed.

(** ** blocks *)
Lemma blocked_tail : forall bs b t, blocked bs (b :: t) -> blocked bs t.
Proof. intros bs b [|c t] H; cbn in *; tauto. Qed.
Lemma blocked_skip : forall bs data k, blocked bs data -> concat (skipn k data) = skipn (k * bs) (concat data).
Proof.
  intros bs data. induction data as [|b t IH]; intros k H. { rewrite skipn_nil. cbn. rewrite skipn_nil. auto. }
  destruct k as [|k]; [reflexivity|]. cbn [skipn concat]. rewrite IH by (eapply blocked_tail; eauto).
  destruct t as [|c t].
  - cbn in *. rewrite app_nil_r, skipn_nil. rewrite skipn_all_le; auto. lia.
  - destruct H as [H _]. rewrite skipn_app, (skipn_all_le b) by lia. cbn [app]. f_equal. lia.
Qed.
Lemma blocked_first : forall bs data k, blocked bs data -> concat (firstn k data) = firstn (k * bs) (concat data).
Proof.
  intros bs data. induction data as [|b t IH]; intros k H. { rewrite firstn_nil. cbn. rewrite firstn_nil. auto. }
  destruct k as [|k]; [reflexivity|]. cbn [firstn concat]. rewrite IH by (eapply blocked_tail; eauto).
  destruct t as [|c t].
  - cbn in *. rewrite firstn_nil, !app_nil_r. rewrite firstn_all2; auto. lia.
  - destruct H as [H _]. rewrite firstn_app, (firstn_all2 b) by lia. f_equal. f_equal. lia.
Qed.
Lemma blocked_skipn : forall bs data k, blocked bs data -> blocked bs (skipn k data).
Proof. induction data as [|b t IH]; intros k H; destruct k; cbn [skipn]; auto. apply IH. eapply blocked_tail; eauto. Qed.
Lemma blocked_firstn : forall bs data k, blocked bs data -> blocked bs (firstn k data).
Proof.
  induction data as [|b t IH]; intros k H; destruct k as [|k]; cbn [firstn]; try exact I; auto.
  pose proof (IH k (@blocked_tail _ _ _ H)) as R. destruct t as [|c t]; [rewrite firstn_nil in *; auto|].
  destruct H as [H _]. destruct k; cbn [firstn] in *; [cbn; lia|]. split; auto.
Qed.
Lemma blocked_length : forall bs data, blocked bs data -> length (concat data) <= length data * bs /\ (length data - 1) * bs <= length (concat data).
Proof.
  induction data as [|b t IH]; intro H; [cbn; lia|]. specialize (IH (@blocked_tail _ _ _ H)). cbn [concat length]. rewrite app_length.
  destruct t as [|c t].
  - cbn in *. lia.
  - destruct H as [H _]. cbn [length] in *. lia.
Qed.
Lemma blocked_last : forall bs b t, blocked bs (b :: t) -> t <> [] ->
  length b = bs /\ length (concat (removelast t)) = (length t - 1) * bs /\ concat t = concat (removelast t) ++ last t [].
Proof.
  intros bs b t. revert b. induction t as [|c t IH]; intros b H N; [congruence|]. destruct H as [H1 H2]. split; auto. clear N H1.
  destruct t as [|d t]; [cbn; rewrite app_nil_r; auto|]. destruct (IH c H2) as (A & B & C); [congruence|].
  change (removelast (c :: d :: t)) with (c :: removelast (d :: t)). change (last (c :: d :: t) []) with (last (d :: t) []).
  cbn [concat]. rewrite app_length, B. split; [cbn [length]; lia|]. rewrite <- app_assoc. f_equal. exact C.
Qed.

(** Writing one chunk writes exactly the bytes [s, e) of the piece. *)
Lemma chunk_write_spec : forall bs f data before s e, 0 < bs -> blocked bs data -> s <= e -> e <= length (concat data) ->
  (s = e -> s mod bs <> 0) ->
  chunk_write bs f data before s e = Val (write_at f before (part (concat data) s (e - s))).
Proof.
  intros bs f data before s e BS BL SE EL NE.
  assert (E0 : 0 < e). { destruct (Nat.eq_dec e 0) as [->|]; [|lia]. replace s with 0 in * by lia. exfalso. apply NE; auto. apply Nat.mod_0_l. lia. }
  unfold chunk_write. destruct (Nat.ltb_spec e s); [lia|]. destruct (Nat.eqb_spec e 0); [lia|].
  set (sb := s / bs). set (eb := (e - 1) / bs + 1). set (sw := s mod bs).
  pose proof (Nat.div_mod s bs ltac:(lia)) as DS. pose proof (Nat.mod_upper_bound s bs ltac:(lia)) as MS. fold sb sw in DS, MS.
  pose proof (Nat.div_mod (e - 1) bs ltac:(lia)) as DE. pose proof (Nat.mod_upper_bound (e - 1) bs ltac:(lia)) as ME.
  assert (EB : eb * bs = bs * ((e - 1) / bs) + bs) by (subst eb; lia).
  set (ew := if e mod bs =? 0 then bs else e mod bs).
  assert (EW : ew = e - (eb - 1) * bs /\ 0 < ew <= bs).
  { subst ew. replace ((eb - 1) * bs) with (bs * ((e - 1) / bs)) by (subst eb; rewrite Nat.add_sub; lia).
    set (q := (e - 1) / bs) in *. set (r := (e - 1) mod bs) in *. assert (EQ : e = bs * q + (r + 1)) by lia. clearbody q r.
    destruct (Nat.eq_dec (r + 1) bs) as [F|F].
    - assert (M : e mod bs = 0). { replace e with (0 + (q + 1) * bs) by lia. rewrite Nat.mod_add by lia. apply Nat.mod_0_l. lia. }
      rewrite M. cbn [Nat.eqb]. lia.
    - assert (M : e mod bs = r + 1). { rewrite EQ. rewrite Nat.add_comm, Nat.mul_comm, Nat.mod_add by lia. apply Nat.mod_small. lia. }
      rewrite M. destruct (Nat.eqb_spec (r + 1) 0); lia. }
  assert (EBE : e <= eb * bs) by lia. assert (EBE1 : (eb - 1) * bs < e) by lia.
  clearbody ew. assert (SE1 : sb < eb).
  { destruct (Nat.le_gt_cases eb sb) as [G|G]; [|auto]. exfalso.
    assert (eb * bs <= sb * bs) by (apply Nat.mul_le_mono_r; auto).
    assert (s = e) by lia. apply NE; auto. fold sw. lia. }
  clear DE ME EB NE. clearbody sb eb sw.
  assert (LD : eb <= length data).
  { destruct (@blocked_length _ _ BL) as [B1 B2]. destruct (Nat.le_gt_cases eb (length data)); auto. exfalso.
    assert (length data * bs <= (eb - 1) * bs) by (apply Nat.mul_le_mono_r; lia). lia. }
  destruct (Nat.ltb_spec eb sb); [lia|]. destruct (Nat.ltb_spec (length data) eb); [lia|]. cbn [orb].
  set (d := firstn (eb - sb) (skipn sb data)).
  assert (LdL : length d = eb - sb) by (subst d; rewrite firstn_length, skipn_length; lia).
  assert (Bd : blocked bs d) by (subst d; apply blocked_firstn, blocked_skipn; auto).
  assert (Cd : concat d = firstn ((eb - sb) * bs) (skipn (sb * bs) (concat data))).
  { subst d. rewrite (@blocked_first bs) by (apply blocked_skipn; auto). rewrite (@blocked_skip bs); auto. }
  assert (PART : part (concat data) s (e - s) = firstn (e - s) (skipn sw (concat d))).
  { rewrite Cd. unfold part. rewrite skipn_firstn_comm, firstn_firstn, skipn_add.
    replace (sb * bs + sw) with s by lia. f_equal. rewrite Nat.min_l; auto. rewrite Nat.mul_sub_distr_r. lia. }
  assert (LCd : e - sb * bs <= length (concat d)).
  { rewrite Cd, firstn_length, skipn_length. rewrite Nat.mul_sub_distr_r. lia. }
  rewrite PART. destruct d as [|b t] eqn:Ed; [cbn in LdL; lia|]. destruct t as [|c t].
  - cbn [concat] in *. rewrite app_nil_r in *. destruct (Nat.ltb_spec (length b) (sw + (e - s))); [lia|]. reflexivity.
  - destruct (@blocked_last bs b (c :: t) Bd) as (A & B & C); [congruence|].
    remember (c :: t) as u eqn:Eu. assert (Lu : length u = eb - sb - 1) by (cbn [length] in LdL; lia).
    change (concat (b :: u)) with (b ++ concat u) in *. rewrite C in *.
    assert (AR : (length u - 1) * bs = (eb - 1) * bs - sb * bs - bs).
    { rewrite Lu. rewrite !Nat.mul_sub_distr_r. clear. lia. }
    assert (GE : sb * bs + bs <= (eb - 1) * bs).
    { replace (sb * bs + bs) with ((sb + 1) * bs) by lia. apply Nat.mul_le_mono_r. subst u. cbn [length] in Lu. lia. }
    rewrite !app_length, A, B in LCd.
    assert (LL : ew <= length (last u [])) by lia.
    destruct (Nat.ltb_spec (length b) sw); [lia|]. destruct (Nat.ltb_spec (length (last u [])) ew); [lia|]. cbn [orb].
    do 2 f_equal. rewrite skipn_app. replace (sw - length b) with 0 by lia. cbn [skipn].
    rewrite firstn_app, skipn_length. rewrite (firstn_all2 (skipn sw b)) by (rewrite skipn_length; lia). f_equal.
    rewrite firstn_app, (firstn_all2 (concat (removelast u))) by (rewrite B, AR; clear -EW GE EBE1 DS MS A; lia). f_equal. f_equal. rewrite B, AR.
    clear -EW GE EBE1 DS MS A SE. lia.
Qed.

(** ** storage invariant *)
(** Contents [c] of a file of [len] bytes at offset [o] when the pieces of
    [W] have been written. *)
Definition finv (pl : nat) (D : bytes) (W : list nat) (o len : nat) (c : bytes) : Prop :=
  length c <= len /\ forall x, x < len -> In ((o + x) / pl) W -> nth_error c x = nth_error D (o + x).
Lemma div_range : forall x pl i, 0 < pl -> x / pl = i <-> i * pl <= x < (i + 1) * pl.
Proof.
  intros x pl i P. split; intro H.
  - subst i. pose proof (Nat.div_mod x pl ltac:(lia)). pose proof (Nat.mod_upper_bound x pl ltac:(lia)). lia.
  - symmetry. apply (Nat.div_unique x pl i (x - i * pl)); lia.
Qed.
Lemma finv_write : forall pl D W o len c idx a b, 0 < pl -> o + len <= length D -> finv pl D W o len c ->
  a = Nat.max (idx * pl) o -> b = Nat.min ((idx + 1) * pl) (o + len) -> a <= b ->
  finv pl D (idx :: W) o len (write_at c (a - o) (part D a (b - a))).
Proof.
  intros pl D W o len c idx a b P LD [F1 F2] A B AB. split.
  - rewrite write_at_length. destruct (part D a (b - a)) as [|y t] eqn:E; auto. rewrite <- E, part_length. lia.
  - intros x X IN. rewrite write_at_nth, part_length. rewrite Nat.min_l by lia.
    destruct (Nat.leb_spec (a - o) x) as [G|G]; destruct (Nat.ltb_spec x (a - o + (b - a))) as [G2|G2]; cbn [andb].
    1: { rewrite part_nth. destruct (Nat.ltb_spec (x - (a - o)) (b - a)); [|lia]. f_equal. lia. }
    all: destruct IN as [IN|IN]; [symmetry in IN; apply div_range in IN; auto; lia|];
      specialize (F2 x X IN); destruct (Nat.ltb_spec x (length c)); auto;
      exfalso; apply nth_error_None in H; rewrite H in F2; symmetry in F2; apply nth_error_None in F2; lia.
Qed.
Lemma finv_skip : forall pl D W o len c idx, 0 < pl -> finv pl D W o len c -> touches (idx * pl) ((idx + 1) * pl) o len = false ->
  finv pl D (idx :: W) o len c.
Proof.
  intros pl D W o len c idx P [F1 F2] T. split; auto. intros x X [E|IN]; auto. symmetry in E. apply div_range in E; auto.
  exfalso. unfold touches in T. bools; try discriminate; lia.
Qed.
Lemma finv_done : forall pl D W o len c, o + len <= length D -> finv pl D W o len c -> (forall x, x < len -> In ((o + x) / pl) W) ->
  c = part D o len.
Proof.
  intros pl D W o len c LD [F1 F2] A. apply list_ext. intro x. rewrite part_nth. destruct (Nat.ltb_spec x len).
  - apply F2; auto.
  - apply nth_error_None. lia.
Qed.
Lemma finv_read : forall pl D W o len c a n, o + len <= length D -> finv pl D W o len c -> a + n <= len ->
  (forall x, a <= x < a + n -> In ((o + x) / pl) W) -> read_at c a n = Val (part D (o + a) n).
Proof.
  intros pl D W o len c a n LD [F1 F2] AN A.
  assert (G : forall x, a <= x < a + n -> nth_error c x = nth_error D (o + x)) by (intros; apply F2; auto; lia).
  destruct n as [|n].
  - unfold read_at, part. cbn [Nat.eqb firstn]. destruct (length c <? a + 0); auto.
  - assert (L : a + n < length c). { apply nth_error_Some. rewrite G by lia. apply nth_error_Some. lia. }
    rewrite read_at_part by lia. f_equal. apply list_ext. intro x. rewrite !part_nth. destruct (Nat.ltb_spec x (S n)); auto.
    rewrite G by lia. f_equal. lia.
Qed.

(** ** single file *)
Lemma last_bytes_spec : forall bs data rem, 0 < bs -> blocked bs data -> rem <= length (concat data) ->
  last_bytes bs rem data = Val (firstn rem (concat data)).
Proof.
  induction data as [|b t IH]; intros rem BS BL R; cbn [last_bytes].
  - cbn in R. replace rem with 0 by lia. reflexivity.
  - destruct (Nat.eqb_spec rem 0) as [->|NE]; [reflexivity|]. cbn [concat] in *. rewrite app_length in R.
    destruct t as [|c t].
    + cbn [concat length blocked] in *. rewrite app_nil_r. assert (rem <= length b) by lia. rewrite Nat.min_l by lia.
      destruct (Nat.ltb_spec (length b) rem); [lia|]. rewrite Nat.sub_diag. cbn [last_bytes Nat.eqb rmap]. rewrite app_nil_r. reflexivity.
    + destruct BL as [B1 B2]. destruct (Nat.ltb_spec (length b) (Nat.min rem bs)); [lia|].
      rewrite IH by (auto; lia). cbn [rmap]. f_equal. rewrite firstn_app. f_equal.
      * destruct (Nat.le_ge_cases rem bs). rewrite Nat.min_l; auto. rewrite Nat.min_r by auto. rewrite !firstn_all2 by lia. auto.
      * f_equal. lia.
Qed.
Lemma pieces_of_S : forall L pl k, 0 < pl -> pieces_of L pl = S k -> k * pl < L /\ L <= (k + 1) * pl.
Proof.
  intros L pl k P E. unfold pieces_of in E. apply div_range in E; auto. lia.
Qed.
Lemma pieces_of_lt : forall L pl x, 0 < pl -> x < L -> x / pl < pieces_of L pl.
Proof.
  intros L pl x P X. destruct (pieces_of L pl) as [|k] eqn:E.
  - unfold pieces_of in E. apply div_range in E; auto. lia.
  - apply pieces_of_S in E; auto. apply Nat.div_lt_upper_bound; lia.
Qed.
Lemma s_write_spec : forall bs i D W d idx data, 0 < bs -> 0 < si_plen i ->
  si_len i = length D -> si_n i = pieces_of (length D) (si_plen i) ->
  idx < si_n i -> piece_blocks bs (si_plen i) D idx data ->
  finv (si_plen i) D W 0 (length D) (dget d (si_path i)) ->
  exists d', s_write bs i d idx data = Val d' /\
    finv (si_plen i) D (if (length D mod si_plen i =? 0) && (idx =? si_n i - 1) then W else idx :: W) 0 (length D) (dget d' (si_path i)) /\
    forall p, p <> si_path i -> dget d' p = dget d p.
Proof.
  intros bs i D W d idx data BS P EL EN LT [BL PB] F. unfold s_write.
  destruct (si_n i) as [|k] eqn:N; [lia|]. symmetry in EN. apply pieces_of_S in EN; auto. destruct EN as [K1 K2].
  replace (S k - 1) with k by lia. set (pl := si_plen i) in *. set (L := length D) in *.
  assert (G : forall x, x = part D (idx * pl) (Nat.min ((idx + 1) * pl) L - idx * pl) -> let d' := dput d (si_path i) (write_at (dget d (si_path i)) (idx * pl) x) in
    finv pl D (idx :: W) 0 L (dget d' (si_path i)) /\ forall p, p <> si_path i -> dget d' p = dget d p).
  { intros x -> d'. subst d'. rewrite dget_same. split; [|intros; apply dget_other; auto].
    pose proof (@finv_write pl D W 0 L (dget d (si_path i)) idx (idx * pl) (Nat.min ((idx + 1) * pl) L) P (le_n _) F) as W1.
    rewrite Nat.sub_0_r in W1. apply W1; auto; try lia. assert (idx * pl <= k * pl) by (apply Nat.mul_le_mono_r; lia). lia. }
  destruct (Nat.ltb_spec idx k) as [I|I].
  - destruct (Nat.eqb_spec idx k); [lia|]. rewrite andb_false_r.
    eexists. split; [reflexivity|]. apply G. assert ((idx + 1) * pl <= k * pl) by (apply Nat.mul_le_mono_r; lia).
    destruct (Nat.leb_spec ((idx + 1) * pl) L); [|lia]. rewrite PB. f_equal. lia.
  - assert (idx = k) by lia. subst idx. rewrite Nat.eqb_refl. unfold s_write_last. fold pl. destruct (Nat.eqb_spec pl 0); [lia|].
    rewrite EL. destruct (Nat.eqb_spec (L mod pl) 0) as [Z|NM]; cbn [andb].
    { rewrite Z. assert (Q : last_bytes bs 0 data = Val []) by (destruct data; reflexivity). rewrite Q. cbn [rbind write_at].
      eexists. split; [reflexivity|]. rewrite dget_same. split; auto. intros. apply dget_other. auto. }
    assert (NK : L <> (k + 1) * pl). { intro Q. apply NM. rewrite Q. apply Nat.mod_mul. lia. }
    assert (M : L mod pl = L - k * pl). { symmetry. apply (Nat.mod_unique L pl k); lia. }
    rewrite M. destruct (Nat.leb_spec ((k + 1) * pl) L); [lia|]. destruct PB as [pad PB].
    assert (LP : length (part D (k * pl) pl) = L - k * pl) by (rewrite part_length; fold L; lia).
    rewrite last_bytes_spec; auto; [|rewrite PB, app_length, LP; lia]. cbn [rbind].
    eexists. split; [reflexivity|]. apply G. rewrite PB, firstn_app, LP, Nat.sub_diag. cbn [firstn]. rewrite app_nil_r.
    rewrite firstn_all2 by lia. unfold part. rewrite Nat.min_r by lia. rewrite !firstn_all2; auto; rewrite skipn_length; fold L; lia.
Qed.
(** The pieces that a write really stores. *)
Definition stored (i : sinfo) (D : bytes) (k : nat) : bool := negb ((length D mod si_plen i =? 0) && (k =? si_n i - 1)).
Lemma s_write_all : forall bs i D ps W d, 0 < bs -> 0 < si_plen i ->
  si_len i = length D -> si_n i = pieces_of (length D) (si_plen i) ->
  Forall (fun p => fst p < si_n i /\ piece_blocks bs (si_plen i) D (fst p) (snd p)) ps ->
  finv (si_plen i) D W 0 (length D) (dget d (si_path i)) ->
  exists d' W', write_all (s_write bs i) d ps = Val d' /\ finv (si_plen i) D W' 0 (length D) (dget d' (si_path i)) /\
    (forall k, In k W \/ In k (map fst ps) /\ stored i D k = true -> In k W') /\
    forall p, p <> si_path i -> dget d' p = dget d p.
Proof.
  induction ps as [|[x b] t IH]; intros W d BS P EL EN FA F; cbn [write_all map].
  - exists d, W. split; auto. split; auto. split; auto. intros k [H|[[] _]]; auto.
  - inversion FA as [|? ? [A1 A2] FA']; subst. cbn [fst snd] in *.
    destruct (@s_write_spec bs i D W d x b) as (d1 & E1 & F1 & O1); auto. rewrite E1. cbn [rbind].
    destruct (IH _ d1 BS P EL EN FA' F1) as (d2 & W' & E2 & F2 & I2 & O2). exists d2, W'. split; auto. split; auto. split.
    + intros k [H|[[->|H] S]]; apply I2; auto; left.
      * destruct (_ && _); [auto|right; auto].
      * unfold stored in S. apply negb_true_iff in S. rewrite S. left. auto.
    + intros p NP. rewrite O2; auto.
Qed.

(** ** multiple files *)
Definition held (pl : nat) (D : bytes) (W : list nat) (i : minfo) (d : disk) : Prop :=
  forall f o, In (f, o) (offsets 0 (mi_files i)) -> finv pl D W o (tf_len f) (dget d (full_path i f)) /\
    forall j, In j W -> touches (j * pl) ((j + 1) * pl) o (tf_len f) = true -> mhas bytes_eqb (full_path i f) d = true.
Lemma offsets_in : forall files cur f o, In (f, o) (offsets cur files) -> In f files /\ cur <= o /\ o + tf_len f <= cur + total files.
Proof.
  induction files as [|g t IH]; intros cur f o H; cbn [offsets] in H; [destruct H|]. change (total (g :: t)) with (tf_len g + total t).
  destruct H as [E|H].
  - inversion E. subst. split; [left; auto|lia].
  - apply IH in H as (A & B & C). split; [right; auto|lia].
Qed.
Lemma mhas_dput : forall d p q c, mhas bytes_eqb q (dput d p c) = true <-> q = p \/ mhas bytes_eqb q d = true.
Proof.
  intros. unfold mhas, dput. destruct (bytes_eqb q p) eqn:E.
  - apply bytes_eqb_eq in E. subst. rewrite (mget_mset_same _ bytes_eqb_spec). tauto.
  - assert (q <> p) by (intros ->; rewrite bytes_eqb_refl in E; discriminate).
    rewrite (@mget_mset_other _ _ _ bytes_eqb_spec) by auto. tauto.
Qed.
Lemma mhas_dget : forall d p, mhas bytes_eqb p d = true -> mget bytes_eqb p d = Some (dget d p).
Proof. intros d p. unfold mhas, dget. destruct (mget bytes_eqb p d); auto. discriminate. Qed.
Lemma part_piece : forall (D pad : bytes) s n a b x, x = part D s n ++ pad -> s <= a -> b <= s + n -> b <= length D ->
  part x (a - s) (b - a) = part D a (b - a).
Proof.
  intros D pad s n a b x -> A B C. apply list_ext. intro y. rewrite !part_nth. destruct (Nat.ltb_spec y (b - a)); auto.
  rewrite nth_error_app1 by (rewrite part_length; lia). rewrite part_nth. destruct (Nat.ltb_spec (a - s + y) n); [|lia]. f_equal. lia.
Qed.
Lemma write_cuts : forall bs i D data s e pad files cur d, 0 < bs -> s < e -> blocked bs data ->
  concat data = part D s (e - s) ++ pad -> cur + total files <= length D ->
  NoDup (map (full_path i) files) ->
  (forall f o, In (f, o) (offsets cur files) -> tf_len f = 0 -> s <= o < e -> (o - s) mod bs <> 0) ->
  exists d', write_chunks bs i d data (cuts s e cur files) = Val d' /\
    (forall f o, In (f, o) (offsets cur files) -> dget d' (full_path i f) =
      if touches s e o (tf_len f)
      then write_at (dget d (full_path i f)) (Nat.max s o - o) (part D (Nat.max s o) (Nat.min e (o + tf_len f) - Nat.max s o))
      else dget d (full_path i f)) /\
    (forall f o, In (f, o) (offsets cur files) -> touches s e o (tf_len f) = true -> mhas bytes_eqb (full_path i f) d' = true) /\
    (forall p, mhas bytes_eqb p d = true -> mhas bytes_eqb p d' = true) /\
    (forall p, ~ In p (map (full_path i) files) -> dget d' p = dget d p).
Proof.
  intros bs i D data s e pad files. induction files as [|f t IH]; intros cur d BS SE BL CD LD ND Z; cbn [cuts offsets map].
  - exists d. cbn [write_chunks]. split; auto. split; [intros ? ? []|]. split; [intros ? ? []|]. auto.
  - change (total (f :: t)) with (tf_len f + total t) in LD. cbn [map] in ND. inversion ND as [|? ? NI ND']; subst.
    destruct (touches s e cur (tf_len f)) eqn:T.
    + cbn [app write_chunks cut fc_file fc_before fc_start fc_end].
      assert (B : cur < e /\ (s < cur + tf_len f \/ tf_len f = 0 /\ s <= cur)). { unfold touches in T. bools; try discriminate; split; auto; lia. }
      set (a := Nat.max s cur) in *. set (b := Nat.min e (cur + tf_len f)) in *.
      assert (LC : length (concat data) >= b - s). { rewrite CD, app_length, part_length. lia. }
      rewrite (@chunk_write_spec bs _ data (a - cur) (a - s) (b - s)); auto; try lia.
      2: { intro Q. replace (a - s) with (cur - s) by lia. apply (Z f cur); [left; auto|lia|lia]. }
      cbn [rbind]. replace (b - s - (a - s)) with (b - a) by lia.
      rewrite (@part_piece D pad s (e - s) a b (concat data) CD) by lia.
      destruct (IH (cur + tf_len f) (dput d (full_path i f) (write_at (dget d (full_path i f)) (a - cur) (part D a (b - a))))) as (d' & E & R1 & R2 & R3 & R4); auto; try lia.
      { intros g o IN. apply Z. right. auto. }
      exists d'. split; auto. split; [|split; [|split]].
      * intros g o [Q|IN].
        -- inversion Q. subst g o. rewrite T. rewrite R4 by auto. apply dget_same.
        -- rewrite (R1 _ _ IN). assert (full_path i g <> full_path i f). { intro Q. apply NI. rewrite <- Q. apply in_map. apply offsets_in in IN. tauto. }
           rewrite !dget_other by auto. reflexivity.
      * intros g o [Q|IN] TT; [|eapply R2; eauto]. inversion Q. subst. apply R3. apply mhas_dput. auto.
      * intros p H. apply R3. apply mhas_dput. auto.
      * intros p H. rewrite R4. apply dget_other. intro. apply H. left; auto. intro. apply H. right; auto.
    + cbn [app]. destruct (IH (cur + tf_len f) d) as (d' & E & R1 & R2 & R3 & R4); auto; try lia.
      { intros g o IN. apply Z. right. auto. }
      exists d'. split; auto. split; [|split; [|split]]; auto.
      * intros g o [Q|IN]; auto. inversion Q. subst g o. rewrite T. apply R4. auto.
      * intros g o [Q|IN] TT; [inversion Q; subst; congruence|eapply R2; eauto].
      * intros p H. apply R4. intro. apply H. right. auto.
Qed.
(** Empty files must not start at a block boundary. *)
Definition no_edge_empty (bs pl : nat) (files : list tfile) : Prop :=
  forall f o, In (f, o) (offsets 0 files) -> tf_len f = 0 -> (o mod pl) mod bs <> 0.
Lemma m_write_spec : forall bs i D W d idx data, 0 < bs -> 0 < mi_plen i -> length D = total (mi_files i) ->
  NoDup (map (full_path i) (mi_files i)) -> no_edge_empty bs (mi_plen i) (mi_files i) ->
  piece_blocks bs (mi_plen i) D idx data -> held (mi_plen i) D W i d ->
  exists d', m_write bs i d idx data = Val d' /\ held (mi_plen i) D (idx :: W) i d' /\
    (forall p, ~ In p (map (full_path i) (mi_files i)) -> dget d' p = dget d p).
Proof.
  intros bs i D W d idx data BS P LD ND NE [BL PB] H. unfold m_write. rewrite fib_cuts. set (pl := mi_plen i) in *.
  assert (CD : exists pad, concat data = part D (idx * pl) ((idx + 1) * pl - idx * pl) ++ pad).
  { replace ((idx + 1) * pl - idx * pl) with pl by lia. destruct (_ <=? _); [exists []; rewrite app_nil_r|]; auto. }
  destruct CD as [pad CD].
  destruct (@write_cuts bs i D data (idx * pl) ((idx + 1) * pl) pad (mi_files i) 0 d) as (d' & E & R1 & R2 & R3 & R4); auto; try lia.
  { intros f o IN Z0 Z1. replace (o - idx * pl) with (o mod pl). apply (NE f o); auto. symmetry. apply (Nat.mod_unique o pl idx); lia. }
  exists d'. split; auto. split; auto. intros f o IN. destruct (H f o IN) as [F1 F2]. pose proof (offsets_in _ _ _ _ IN) as (I1 & I2 & I3). split.
  - rewrite (R1 _ _ IN). destruct (touches (idx * pl) ((idx + 1) * pl) o (tf_len f)) eqn:T.
    + apply finv_write with (W := W); auto; try lia. unfold touches in T. bools; try discriminate; lia.
    + apply finv_skip; auto.
  - intros j [<-|J] T; [apply (R2 _ _ IN T)|]. apply R3. apply (F2 j J T).
Qed.
Lemma m_write_all : forall bs i D ps W d, 0 < bs -> 0 < mi_plen i -> length D = total (mi_files i) ->
  NoDup (map (full_path i) (mi_files i)) -> no_edge_empty bs (mi_plen i) (mi_files i) ->
  Forall (fun p => piece_blocks bs (mi_plen i) D (fst p) (snd p)) ps -> held (mi_plen i) D W i d ->
  exists d', write_all (m_write bs i) d ps = Val d' /\ held (mi_plen i) D (rev (map fst ps) ++ W) i d' /\
    (forall p, ~ In p (map (full_path i) (mi_files i)) -> dget d' p = dget d p).
Proof.
  induction ps as [|[x b] t IH]; intros W d BS P LD ND NE FA H; cbn [write_all map rev app].
  - exists d. auto.
  - inversion FA as [|? ? A1 FA']; subst. cbn [fst snd] in *.
    destruct (@m_write_spec bs i D W d x b) as (d1 & E1 & F1 & O1); auto. rewrite E1. cbn [rbind].
    destruct (IH (x :: W) d1) as (d2 & E2 & F2 & O2); auto. exists d2. split; auto. rewrite <- app_assoc. cbn [app]. split; auto.
    intros p NP. rewrite O2; auto.
Qed.
(** Reading a range of written bytes. *)
Lemma read_cuts : forall i pl D W d s n files cur buf, cur + total files <= length D ->
  (forall f o, In (f, o) (offsets cur files) -> finv pl D W o (tf_len f) (dget d (full_path i f))) ->
  (forall x, s <= x < s + n -> In (x / pl) W) -> s + n <= cur + total files -> n <= length buf ->
  let k := Nat.min (s + n) (Nat.max s cur) - s in firstn k buf = part D s k ->
  read_chunks i d buf (cuts s (s + n) cur files) = Val (part D s n ++ skipn n buf).
Proof.
  intros i pl D W d s n files. induction files as [|f t IH]; intros cur buf LD F IW E LB k PK; cbn [cuts].
  - cbn [read_chunks]. f_equal. cbn [total fold_right] in E. rewrite <- (firstn_skipn n buf) at 1. f_equal.
    subst k. replace (Nat.min (s + n) (Nat.max s cur) - s) with n in PK by lia. exact PK.
  - change (total (f :: t)) with (tf_len f + total t) in *.
    destruct (touches s (s + n) cur (tf_len f)) eqn:T; cbn [app].
    + cbn [read_chunks cut fc_file fc_before fc_start fc_end].
      assert (B : cur < s + n /\ (s < cur + tf_len f \/ tf_len f = 0 /\ s <= cur)). { unfold touches in T. bools; try discriminate; split; auto; lia. }
      set (a := Nat.max s cur) in *. set (b := Nat.min (s + n) (cur + tf_len f)) in *.
      destruct (Nat.ltb_spec (b - s) (a - s)); [lia|]. destruct (Nat.ltb_spec (length buf) (b - s)); [lia|]. cbn [orb].
      rewrite (@finv_read pl D W cur (tf_len f)); auto; try lia; [|apply F; left; auto|intros; apply IW; lia].
      cbn [rbind]. replace (b - s - (a - s)) with (b - a) by lia. replace (cur + (a - cur)) with a by lia.
      assert (K : k = a - s) by lia. rewrite K in PK. rewrite PK.
      assert (PP : part D s (a - s) ++ part D a (b - a) = part D s (b - s)).
      { apply list_ext. intro y. rewrite (part_nth D s (b - s)). destruct (Nat.lt_ge_cases y (a - s)).
        - rewrite nth_error_app1 by (rewrite part_length; lia). rewrite part_nth. bools; auto; lia.
        - rewrite nth_error_app2 by (rewrite part_length; lia). rewrite part_nth, part_length. rewrite Nat.min_l by lia.
          destruct (Nat.ltb_spec (y - (a - s)) (b - a)); destruct (Nat.ltb_spec y (b - s)); try lia; auto. f_equal. lia. }
      assert (LP : length (part D s (b - s)) = b - s) by (rewrite part_length; lia).
      rewrite app_assoc, PP. rewrite IH; auto; try lia.
      * f_equal. f_equal. rewrite skipn_app, LP. rewrite (skipn_all_le (part D s (b - s))) by lia. cbn [app].
        rewrite skipn_add. f_equal. lia.
      * intros g o IN. apply F. right. auto.
      * rewrite app_length, LP, skipn_length. lia.
      * replace (Nat.min (s + n) (Nat.max s (cur + tf_len f)) - s) with (b - s) by lia.
        rewrite firstn_app, LP, Nat.sub_diag, firstn_all2 by lia. cbn [firstn]. apply app_nil_r.
    + apply IH; auto; try lia. { intros g o IN. apply F. right. auto. }
      unfold touches in T. assert (Q : Nat.min (s + n) (Nat.max s (cur + tf_len f)) - s = k).
      { subst k. bools; try discriminate; lia. }
      rewrite Q. exact PK.
Qed.
Lemma m_read_spec : forall i D W d idx begin n buf, length D = total (mi_files i) -> held (mi_plen i) D W i d ->
  (forall x, idx * mi_plen i + begin <= x < idx * mi_plen i + begin + n -> In (x / mi_plen i) W) ->
  idx * mi_plen i + begin + n <= length D -> n <= length buf ->
  m_read i d idx begin n buf = Val (part D (idx * mi_plen i + begin) n ++ skipn n buf).
Proof.
  intros i D W d idx begin n buf LD H IW E LB. unfold m_read. rewrite fib_cuts. eapply read_cuts with (pl := mi_plen i) (W := W); auto; try lia.
  - intros f o IN. apply (H f o IN).
  - replace (Nat.min _ _ - _) with 0 by lia. reflexivity.
Qed.
