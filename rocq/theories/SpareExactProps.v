(** C114, C115 and C123 exactly: what the piece check says in each case and when
    it agrees with the torrent; when the kinds of places fill a bucket; what a
    storage set-up that fails leaves behind. *)
From Coq Require Import List NArith ZArith Lia Bool Arith.
From Coq Require Import Init.Byte.
From Verif Require Import Base IdModel WireModel TableModel TableProofs MetainfoModel PendingModel PendingProofs SpareModel SpareProps FsModel DirsModel DirsProps CleanModel CleanProps.
Import ListNotations.
Set Implicit Arguments.

(** ** C114 *)
(** [data] consists of full blocks, together the least number of them that holds
    [pl] bytes. *)
Definition full_blocks (pl : N) (data : list bytes) : Prop :=
  Forall (fun b => length b = BLOCK_SIZE) data /\
  (pl <= N.of_nat (length data) * N.of_nat BLOCK_SIZE < pl + N.of_nat BLOCK_SIZE)%N.
Lemma enough_blocks : forall pl k, (0 < pl)%N -> (pl <= k * N.of_nat BLOCK_SIZE < pl + N.of_nat BLOCK_SIZE <-> k = 1 + (pl - 1) / N.of_nat BLOCK_SIZE)%N.
Proof.
  intros pl k P. pose proof BSN as B. generalize dependent (N.of_nat BLOCK_SIZE). intros b B.
  pose proof (N.div_mod (pl - 1) b ltac:(lia)) as D. pose proof (N.mod_lt (pl - 1) b ltac:(lia)) as M. set (q := ((pl - 1) / b)%N) in *. split; [intros (A & C)|intros ->; nia].
  assert (k <= q \/ k = 1 + q \/ 2 + q <= k)%N as [X|[X|X]] by lia; auto; nia.
Qed.
(** The piece check in each case. *)
Theorem C114_exact : forall sha1 c i idx data, (0 < i_piece_length i)%N ->
  (is_valid_piece sha1 c i idx data = Val true <-> full_blocks (i_piece_length i) data /\ nth_error (i_pieces i) idx = Some (sha1 (concat data))) /\
  (is_valid_piece sha1 c i idx data = Panic <-> full_blocks (i_piece_length i) data /\ length (i_pieces i) <= idx) /\
  is_valid_piece sha1 c i idx data <> Fail.
Proof.
  intros sha1 c i idx data P. unfold full_blocks. rewrite (@enough_blocks _ (N.of_nat (length data)) P). unfold is_valid_piece, usize_dec.
  replace (i_piece_length i =? 0)%N with false by (symmetry; apply N.eqb_neq; lia). cbn [rbind].
  assert (FF : forallb (fun b : list byte => length b =? BLOCK_SIZE) data = true <-> Forall (fun b : list byte => length b = BLOCK_SIZE) data).
  { rewrite forallb_forall, Forall_forall. split; intros H x I; specialize (H x I); apply Nat.eqb_eq; auto. }
  destruct (N.eqb_spec (N.of_nat (length data)) (1 + (i_piece_length i - 1) / N.of_nat BLOCK_SIZE)) as [L|L]; cbn [negb].
  - destruct (forallb (fun b : list byte => length b =? BLOCK_SIZE) data); cbn [negb].
    + assert (F := proj1 FF eq_refl). destruct (nth_error (i_pieces i) idx) as [h|] eqn:G.
      * split; [|split; [|discriminate]].
        -- split; [intro H; injection H as H; apply id_eqb_eq in H; subst h; auto|]. intros (_ & H). injection H as ->. f_equal. apply id_eqb_eq. reflexivity.
        -- split; [discriminate|]. intros (_ & O). apply nth_error_None in O. congruence.
      * split; [split; [discriminate|intros (_ & H); discriminate]|]. split; [|discriminate]. split; auto. intros _. apply nth_error_None in G. auto.
    + split; [split; [discriminate|]|split; [split; [discriminate|]|discriminate]]; intros ((F & _) & _); apply FF in F; discriminate.
  - split; [split; [discriminate|]|split; [split; [discriminate|]|discriminate]]; intros ((_ & F) & _); contradiction.
Qed.
(** Of a genuine piece: it is accepted exactly if it is not a shorter last piece,
    the piece length is a multiple of the block size and it comes in full blocks. *)
Theorem C114_agrees_exact : forall sha1 c n i idx data, (0 < i_piece_length i)%N -> is_piece sha1 n i idx data ->
  (is_valid_piece sha1 c i idx data = Val true <->
   (N.of_nat (S idx) * i_piece_length i <= n)%N /\ (i_piece_length i mod N.of_nat BLOCK_SIZE = 0)%N /\ Forall (fun b => length b = BLOCK_SIZE) data).
Proof.
  intros sha1 c n i idx data P (L & G). rewrite (proj1 (@C114_exact sha1 c i idx data P)). unfold full_blocks, length_of_piece in *. pose proof BSN as B. split.
  - intros ((F & K) & _). assert (E : N.of_nat (length (concat data)) = (N.of_nat (length data) * N.of_nat BLOCK_SIZE)%N).
    { rewrite (@full_length BLOCK_SIZE), Nat2N.inj_mul; auto. apply forallb_forall. intros x I. apply Nat.eqb_eq. rewrite Forall_forall in F. auto. }
    rewrite E in L. assert (X : (N.of_nat (length data) * N.of_nat BLOCK_SIZE)%N = i_piece_length i) by lia. split; [lia|]. split; auto. rewrite <- X. apply N.mod_mul. lia.
  - intros (Q & M & F). split; auto. split; auto. assert (E : N.of_nat (length (concat data)) = (N.of_nat (length data) * N.of_nat BLOCK_SIZE)%N).
    { rewrite (@full_length BLOCK_SIZE), Nat2N.inj_mul; auto. apply forallb_forall. intros x I. apply Nat.eqb_eq. rewrite Forall_forall in F. auto. }
    rewrite E in L. lia.
Qed.
Example C114_exact_example : forall sha1 b, exists i, (0 < i_piece_length i)%N /\ is_piece sha1 (N.of_nat BLOCK_SIZE) i 0 [repeat b BLOCK_SIZE] /\ is_valid_piece sha1 true i 0 [repeat b BLOCK_SIZE] = Val true.
Proof.
  intros sha1 b. exists (mk_metainfo [x78] (N.of_nat BLOCK_SIZE) [sha1 (repeat b BLOCK_SIZE)] (Single (N.of_nat BLOCK_SIZE))). pose proof BSN as B. cbn [i_piece_length].
  assert (IP : is_piece sha1 (N.of_nat BLOCK_SIZE) (mk_metainfo [x78] (N.of_nat BLOCK_SIZE) [sha1 (repeat b BLOCK_SIZE)] (Single (N.of_nat BLOCK_SIZE))) 0 [repeat b BLOCK_SIZE]).
  { split; cbn [concat]; rewrite app_nil_r; [|reflexivity]. rewrite repeat_length. unfold length_of_piece. cbn [i_piece_length]. lia. }
  split; auto. split; [exact IP|]. apply (@C114_agrees_exact sha1 true (N.of_nat BLOCK_SIZE)); cbn [i_piece_length]; auto. split; [lia|]. split; [apply N.mod_same; lia|]. constructor; [apply repeat_length|constructor].
Qed.

(** ** C115 *)
(** The empty places, the good nodes and the bad ones make up the whole bucket
    exactly if every node in it was heard of, and none exactly fifteen minutes ago. *)
Theorem C115_exact : forall now b, count_empty b + goods now b + count_bads now b = length (b_data b) <->
  forall n, In (Some n) (b_data b) -> exists t, n_seen n = Some t /\ (now - t <> 15 * 60 * 1000000000)%N.
Proof.
  intros now b. pose proof (C115_kinds_partial now b) as K. assert (V : NODE_VALIDITY = (15 * 60 * 1000000000)%N) by reflexivity. split.
  - intros E n I. assert (Z : filter (neither now) (b_data b) = []) by (destruct (filter (neither now) (b_data b)); [reflexivity|cbn [length] in K; lia]).
    assert (X : neither now (Some n) = false). { destruct (neither now (Some n)) eqn:X; auto. assert (In (Some n) (filter (neither now) (b_data b))) as J by (apply filter_In; auto). rewrite Z in J. destruct J. }
    cbn [neither] in X. destruct (n_seen n) as [t|]; [|discriminate]. exists t. split; auto. apply N.eqb_neq in X. congruence.
  - intro H. assert (Z : filter (neither now) (b_data b) = []).
    { destruct (filter (neither now) (b_data b)) as [|x l] eqn:Q; auto. assert (In x (filter (neither now) (b_data b))) as J by (rewrite Q; left; auto). apply filter_In in J. destruct J as (I & X).
      destruct x as [n|]; [|discriminate]. destruct (H _ I) as (t & T & NV). cbn [neither] in X. rewrite T in X. apply N.eqb_eq in X. congruence. }
    rewrite Z in K. cbn [length] in K. lia.
Qed.
Example C115_exact_example : let b := mk_bucket 0 (Some (mk_node (repeat x01 20) (mk_addr x01 x02 x03 x04 5) (Some 0%N)) :: repeat None 7) in
  count_empty b + goods 7 b + count_bads 7 b = 8 /\ count_empty b + goods 900000000000 b + count_bads 900000000000 b = 7.
Proof. split; reflexivity. Qed.

(** ** C123 *)
Section clean.
Variable deny : list bytes -> bool.
(** [made t l q]: when the paths [l] are created one after the other in [t] until
    one fails, [q] is among the directories created. *)
Inductive made : tree -> list bytes -> list bytes -> Prop :=
| made_this t p l d : locate t p = Some d -> ~ In d t -> deny d = false -> made t (p :: l) d
| made_later t p l d q : locate t p = Some d -> ~ In d t -> deny d = false -> made (d :: t) l q -> made t (p :: l) q.
Lemma made_not : forall t p l q, mkdir_os deny t p = None -> ~ made t (p :: l) q.
Proof.
  assert (X : forall t p d, mkdir_os deny t p = None -> locate t p = Some d -> ~ In d t -> deny d = false -> False).
  { intros t p d H L N D. unfold mkdir_os in H. rewrite L, D in H. destruct (has t d) eqn:E; [apply has_in in E; contradiction|discriminate]. }
  intros t p l q H M. inversion M; subst; eapply X; eauto.
Qed.
Lemma made_some : forall t p l t' q, mkdir_os deny t p = Some t' -> exists d, t' = d :: t /\ ~ In d t /\ (made t (p :: l) q <-> q = d \/ made t' l q).
Proof.
  intros t p l t' q H. unfold mkdir_os in H. destruct (locate t p) as [d|] eqn:L; [|discriminate]. destruct (has t d) eqn:E; [discriminate|]. cbn [orb] in H. destruct (deny d) eqn:D; [discriminate|]. injection H as <-.
  assert (N : ~ In d t) by (intro I; apply has_in in I; congruence). exists d. split; auto. split; auto. split.
  - intro M. inversion M; subst.
    + left. congruence.
    + right. replace d with d0 by congruence. auto.
  - intros [->|M]; [eapply made_this; eauto|eapply made_later; eauto].
Qed.
Lemma make_left : forall wd W l T t', walk T [] (comps wd) = Some W -> In W T -> make deny T wd l = (t', false) ->
  forall q, In q t' <-> (In q T \/ made T l q) /\ ~ exists p, q = W ++ p.
Proof.
  intros wd W. induction l as [|d l IH]; intros T t' WK IW H q; cbn [make] in H; [discriminate|].
  destruct (mkdir_os deny T d) as [T1|] eqn:M.
  - destruct (@made_some T d l T1 q M) as (e & -> & _ & ME). rewrite (IH (e :: T) t'); auto; [|apply (@walk_mono T); [intros; right; auto|exact WK]|right; exact IW].
    rewrite ME. cbn [In]. split; intros (A & B); (split; [|exact B]); intuition.
  - injection H as <-. unfold remove_all. rewrite WK, filter_In, negb_true_iff. pose proof (@made_not T d l q M) as NM. split.
    + intros (A & B). split; auto. intro X. apply below_spec in X. congruence.
    + intros ([A|A] & B); [|contradiction]. split; auto. destruct (at_or_below W q) eqn:E; [|reflexivity]. apply below_spec in E. contradiction.
Qed.
(** What is there after a set-up that failed: what was there before, and of the
    directories created on the way those outside the working directory. *)
Theorem C123_exact : forall t base name u t', tree_ok t -> set_up deny t base name u = (t', false) ->
  let wd := working_dir base name in
  forall q, In q t' <-> In q t \/ (made t (wd :: dirs_by_asc_depth wd u) q /\ ~ exists W p, locate t wd = Some W /\ q = W ++ p).
Proof.
  intros t base name u t' TO H wd q. unfold set_up, make_all in H. fold wd in H. destruct (mkdir_os deny t wd) as [T|] eqn:M.
  - destruct (@made_some t wd (dirs_by_asc_depth wd u) T q M) as (W0 & -> & _ & ME).
    destruct (mkdir_os_spec _ _ _ M) as (W & L & NW & E). injection E as <-.
    destruct (@locate_walk t _ W0 (W0 :: t) L) as (WK & NE); [intros; right; auto|left; auto|].
    rewrite (@make_left wd W0 _ _ _ WK (or_introl eq_refl) H q), ME. cbn [In]. split.
    + intros ([[X|X]|X] & B); auto.
      * subst q. destruct B. exists []. rewrite app_nil_r. auto.
      * right. split; auto. intros (W' & p & L' & ->). rewrite L in L'. injection L' as <-. destruct B. eauto.
    + intros [X|([X|X] & B)].
      * split; auto. intros (p & ->). exact (@nothing_below t W0 TO NE NW p X).
      * destruct B. exists W0, []. rewrite app_nil_r. auto.
      * split; auto. intros (p & ->). apply B. eauto.
  - injection H as <-. split; auto. intros [X|(X & _)]; auto. destruct (@made_not _ _ _ _ M X).
Qed.
(** So everything is as before exactly if all that was created lay inside. *)
Theorem C123_restored_exact : forall t base name u t', tree_ok t -> set_up deny t base name u = (t', false) ->
  let wd := working_dir base name in
  ((forall q, In q t' <-> In q t) <-> forall q, made t (wd :: dirs_by_asc_depth wd u) q -> exists W p, locate t wd = Some W /\ q = W ++ p).
Proof.
  intros t base name u t' TO H wd. assert (NEW : forall l s q, made s l q -> ~ In q s).
  { intros l s q M. induction M; auto. intro I. apply IHM. right. auto. }
  split.
  - intros E q M. destruct (locate t wd) as [W|] eqn:L.
    + destruct (at_or_below W q) eqn:B; [apply below_spec in B; destruct B as (p & ->); eauto|]. exfalso. apply (NEW _ _ _ M). apply E.
      apply (@C123_exact t base name u t' TO H q). fold wd. right. split; auto. rewrite L. intros (W' & p & EW & Q). injection EW as <-. assert (at_or_below W q = true) by (apply below_spec; eauto). congruence.
    + exfalso. inversion M; congruence.
  - intros A q. rewrite (@C123_exact t base name u t' TO H q). fold wd. split; auto. intros [X|(X & B)]; auto. destruct B. auto.
Qed.
End clean.
(** One outside (left) and one inside (removed). *)
Example C123_exact_example : exists t base name u t' q, tree_ok t /\ set_up (fun _ => false) t base name u = (t', false) /\
  made (fun _ => false) t (working_dir base name :: dirs_by_asc_depth (working_dir base name) u) q /\ In q t' /\ ~ In q t.
Proof.
  set (fs := [mk_tfile [[x2e; x2e; x2f; x65]; [x66]] 1; mk_tfile [[x78; x2f; x79]; [x66]] 1]).
  exists [[[x64]]], [x64], [x74], (all_dirs fs). do 2 eexists. split; [|split; [|split; [|split]]].
  - intros q c [H|[]]. destruct q as [|? [|? ?]]; try discriminate H. auto.
  - vm_compute. reflexivity.
  - eapply made_later; [vm_compute; reflexivity|cbn; intuition discriminate|reflexivity|]. eapply made_this; [vm_compute; reflexivity|cbn; intuition discriminate|reflexivity].
  - cbn. auto.
  - cbn. intuition discriminate.
Qed.

Print Assumptions C114_exact.
Print Assumptions C114_agrees_exact.
Print Assumptions C115_exact.
Print Assumptions C123_exact.
Print Assumptions C123_restored_exact.
