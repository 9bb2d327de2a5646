(** Proofs about the torrent manager. *)
From Coq Require Import List NArith ZArith Lia Bool Arith Permutation.
From Verif Require Import Base Assoc BitSpec BitmapModel BitmapProofs IdModel WireModel PeersModel PeersSpec PeersProofs PeersProps ManagerModel ManagerSpec.
Import ListNotations.
Set Implicit Arguments.

Definition fr (f : list N) (j : nat) : N := nth j f 0%N.
Definition hb (h : list bool) (j : nat) : bool := nth j h false.

Record bm_ok (n : nat) (b : bitmap) : Prop := { bo_len : bm_len b = n; bo_st : length (bits b) = 8 * ((n + 7) / 8) }.
Lemma bm_ok_room : forall n b, bm_ok n b -> n <= length (bits b).
Proof. intros n b [H1 H2]. rewrite H2. pose proof (Nat.div_mod (n + 7) 8 ltac:(lia)). pose proof (Nat.mod_upper_bound (n + 7) 8 ltac:(lia)). lia. Qed.
Lemma bm_ok_new : forall n b, bm_new n = Val b -> bm_ok n b /\ bits b = repeat false (8 * ((n + 7) / 8)) /\ 0 < n.
Proof.
  intros n b H. destruct n as [|k]; [discriminate|]. rewrite bm_new_spec in H by lia. injection H as <-. cbn [bm_len].
  assert (B : forall k, bits_of (repeat x00 k) = repeat false (8 * k)).
  { induction k0 as [|k0 IH]; auto. cbn [repeat]. rewrite bits_of_cons, IH. replace (8 * S k0) with (8 + 8 * k0) by lia. rewrite repeat_app. reflexivity. }
  split; [split|split]; auto; try lia.
  - unfold bits. rewrite bits_of_length. cbn [bm_data]. rewrite repeat_length. reflexivity.
  - unfold bits. apply B.
Qed.
Lemma bm_ok_new_total : forall n, 0 < n -> exists b, bm_new n = Val b /\ bm_ok n b.
Proof. intros n H. rewrite bm_new_spec by auto. eexists; split; [reflexivity|]. apply (@bm_ok_new n). apply bm_new_spec; auto. Qed.
Lemma bm_ok_bits : forall n b, bm_ok n b -> bm_bits b = Val (firstn n (bits b)).
Proof.
  intros n b H. pose proof (bm_ok_room H) as R. destruct H as [H1 H2]. rewrite bm_bits_spec; [rewrite H1; auto|].
  unfold bits in R. rewrite bits_of_length in R. lia.
Qed.
Lemma nth_firstn : forall A (l : list A) n j d, nth j (firstn n l) d = if j <? n then nth j l d else d.
Proof.
  induction l; intros n j d. { rewrite firstn_nil. destruct j, (_ <? n); reflexivity. }
  destruct n, j; cbn [firstn nth]; auto. rewrite IHl. reflexivity.
Qed.
Lemma inb_nth : forall b j, piece_inb b j = nth j (bits b) false.
Proof. intros. unfold piece_inb. destruct (nth_error (bits b) j) eqn:E. symmetry. apply nth_error_nth; auto. symmetry. apply nth_overflow. apply nth_error_None. auto. Qed.
Lemma inb_in : forall b j, piece_inb b j = true <-> piece_in b j.
Proof. intros. unfold piece_inb, piece_in. destruct (nth_error (bits b) j) as [[]|]; split; congruence. Qed.
Lemma bm_ok_hb : forall n b j, hb (firstn n (bits b)) j = (j <? n) && piece_inb b j.
Proof. intros. unfold hb. rewrite nth_firstn, inb_nth. destruct (j <? n); auto. Qed.
Lemma nth_upd : forall A (l : list A) i x j d, nth j (upd l i x) d = if (j =? i) && (i <? length l) then x else nth j l d.
Proof.
  induction l as [|a l IH]; intros i x j d. { destruct i; cbn; rewrite andb_false_r; destruct j; auto. }
  destruct i, j; cbn [upd nth length]; auto. rewrite IH. reflexivity.
Qed.
Lemma inb_change : forall b i v b' old, bm_change b i v = Val (b', old) ->
  old = piece_inb b i /\ i < length (bits b) /\ forall j, piece_inb b' j = if j =? i then v else piece_inb b j.
Proof.
  intros b i v b' old H. apply bm_change_val in H as (L & O & B & _). split; [|split]; auto.
  - rewrite inb_nth. symmetry. apply nth_error_nth. auto.
  - intro j. rewrite !inb_nth, B, nth_upd. destruct (j =? i); auto. cbn [andb]. destruct (Nat.ltb_spec i (length (bits b))); auto; lia.
Qed.
Lemma ok_change : forall n b i v b' old, bm_ok n b -> bm_change b i v = Val (b', old) -> bm_ok n b'.
Proof. intros n b i v b' old [H1 H2] H. apply bm_change_val in H as (L & O & B & E & _). split; [congruence|]. rewrite B, upd_length. auto. Qed.
Lemma ok_replace : forall n b d b', bm_ok n b -> bm_replace_data b d = Val b' -> bm_ok n b'.
Proof.
  intros n b d b' [H1 H2] H. rewrite bm_replace_spec in H. destruct (Nat.eqb_spec (length d) (length (bm_data b))) as [E|]; [|discriminate].
  injection H as <-. split; auto. unfold bits in *. cbn [bm_data] in *. rewrite bits_of_length in *. lia.
Qed.
Lemma weight_zero : forall b, bm_weight b = 0%N -> forall j, piece_inb b j = false.
Proof.
  intros b H j. assert (C : count_true (bits b) = 0) by (rewrite <- bm_weight_spec, H; reflexivity).
  destruct (piece_inb b j) eqn:E; auto. apply inb_in in E. apply nth_error_In in E.
  unfold count_true in C. pose proof (proj1 (count_occ_In bool_dec (bits b) true) E). lia.
Qed.
Lemma count_upd : forall l i, count_true (upd l i true) <= S (count_true l).
Proof.
  unfold count_true. induction l as [|a l IH]; destruct i; cbn [upd count_occ]; auto.
  - destruct (bool_dec true true), (bool_dec a true); lia.
  - specialize (IH i). destruct (bool_dec a true); lia.
Qed.
Lemma weight_change : forall b i b' old, bm_change b i true = Val (b', old) -> (bm_weight b' <= bm_weight b + 1)%N.
Proof.
  intros b i b' old H. apply bm_change_val in H as (_ & _ & B & _).
  pose proof (bm_weight_spec b). pose proof (bm_weight_spec b'). rewrite B in *. pose proof (count_upd (bits b) i). lia.
Qed.

(** ** association lists *)
Lemma aget_spec : forall p a inf, NoDup (map fst a) -> (aget p a = Some inf <-> In (p, inf) a).
Proof. intros. unfold aget. split; intro. eapply mget_in; eauto using addr_eqb_spec. eapply in_mget; eauto using addr_eqb_spec. Qed.
Lemma aget_none : forall p a, aget p a = None <-> ~ In p (map fst a).
Proof. intros. unfold aget. apply mget_none. apply addr_eqb_spec. Qed.
Definition b1 (b : bool) : nat := if b then 1 else 0.
Lemma holders_cons : forall x a i, holders (x :: a) i = b1 (piece_inb (pi_haves (snd x)) i) + holders a i.
Proof. intros. unfold holders. cbn [filter]. destruct (piece_inb (pi_haves (snd x)) i); reflexivity. Qed.
Lemma holders_perm : forall a b i, Permutation a b -> holders a i = holders b i.
Proof. induction 1; rewrite ?holders_cons; lia. Qed.
Lemma holders_aset : forall a p inf i,
  holders (aset p inf a) i + match aget p a with Some o => b1 (piece_inb (pi_haves o) i) | None => 0 end = holders a i + b1 (piece_inb (pi_haves inf) i).
Proof.
  induction a as [|[q o] a IH]; intros p inf i; unfold aset, aget in *; cbn [mset mget].
  - rewrite holders_cons. cbn. lia.
  - destruct (addr_eqb p q) eqn:E1; rewrite !holders_cons; cbn [snd fst].
    + lia.
    + specialize (IH p inf i). lia.
Qed.
Lemma holders_adel : forall a p i,
  holders (adel p a) i + match aget p a with Some o => b1 (piece_inb (pi_haves o) i) | None => 0 end = holders a i.
Proof.
  induction a as [|[q o] a IH]; intros p i; unfold adel, aget in *; cbn [mdel mget]; auto.
  destruct (addr_eqb p q) eqn:E1; rewrite !holders_cons; cbn [snd].
  - lia.
  - specialize (IH p i). lia.
Qed.
Lemma holders_le : forall a i, holders a i <= length a.
Proof. intros. unfold holders. induction a; cbn; auto. destruct (piece_inb _ _); cbn; lia. Qed.
Lemma aset_in : forall a p inf q i, In (q, i) (aset p inf a) -> (q, i) = (p, inf) \/ In (q, i) a.
Proof.
  induction a as [|[q0 o] a IH]; intros p inf q i H; unfold aset in *; cbn [mset] in H.
  - destruct H as [H|[]]; auto.
  - destruct (addr_eqb p q0) eqn:E.
    + apply addr_eqb_spec in E. subst. destruct H as [H|H]; [left; auto|right; right; auto].
    + destruct H as [H|H]; [right; left; auto|]. apply IH in H as [H|H]; auto. right; right; auto.
Qed.
Lemma aset_keys : forall a p inf, In p (map fst a) -> map fst (aset p inf a) = map fst a.
Proof.
  induction a as [|[q0 o] a IH]; intros p inf H; [destruct H|]. unfold aset in *; cbn [mset].
  destruct (addr_eqb p q0) eqn:E; cbn [map fst].
  - apply addr_eqb_spec in E. subst. auto.
  - f_equal. apply IH. destruct H; auto. cbn in H. subst. assert (addr_eqb p p = true) by (apply addr_eqb_spec; auto). congruence.
Qed.
Lemma aset_keys_new : forall a p inf, ~ In p (map fst a) -> aset p inf a = a ++ [(p, inf)].
Proof.
  induction a as [|[q0 o] a IH]; intros p inf H; auto. unfold aset in *; cbn [mset].
  destruct (addr_eqb p q0) eqn:E. { apply addr_eqb_spec in E. subst. exfalso. apply H. left; auto. }
  cbn [app]. f_equal. apply IH. intro X. apply H. right; auto.
Qed.
Lemma aset_nodup : forall a p inf, NoDup (map fst a) -> NoDup (map fst (aset p inf a)).
Proof. intros. unfold aset. apply NoDup_mset; auto using addr_eqb_spec. Qed.
Lemma aset_in_keys : forall a p inf q, In q (map fst (aset p inf a)) <-> q = p \/ In q (map fst a).
Proof.
  intros. destruct (in_dec addr_dec p (map fst a)) as [I|I].
  - rewrite aset_keys; auto. split; auto. intros [->|]; auto.
  - rewrite aset_keys_new; auto. rewrite map_app, in_app_iff. cbn. intuition congruence.
Qed.
Lemma adel_in : forall a p x, In x (adel p a) -> In x a.
Proof. intros a p x H. eapply mdel_incl; eauto. Qed.
Lemma adel_keys : forall a p q, NoDup (map fst a) -> (In q (map fst (adel p a)) <-> q <> p /\ In q (map fst a)).
Proof.
  induction a as [|[q0 o] a IH]; intros p q N; unfold adel in *; cbn [mdel]; [cbn; tauto|].
  cbn [map fst] in N. inversion N as [|? ? NI N']; subst. destruct (addr_eqb p q0) eqn:E.
  - apply addr_eqb_spec in E. subst q0. cbn [map fst In]. split; [|intros [A [B|B]]; congruence].
    intro H. split; auto. intro X. subst. auto.
  - cbn [map fst In]. rewrite IH by auto. assert (q0 <> p). { intro X. subst. assert (addr_eqb p p = true) by (apply addr_eqb_spec; auto). congruence. }
    intuition congruence.
Qed.

(** ** availability counts *)
Lemma freq_inc_val : forall f i f', freq_inc f i = Val f' ->
  i < length f /\ length f' = length f /\ (fr f i < 65535)%N /\ forall j, fr f' j = (fr f j + if Nat.eqb j i then 1 else 0)%N.
Proof.
  intros f i f' H. unfold freq_inc in H. destruct (nth_error f i) as [x|] eqn:E; [|discriminate].
  assert (L : i < length f) by (apply nth_error_Some; congruence).
  assert (F : fr f i = x) by (unfold fr; apply nth_error_nth; auto).
  destruct (N.ltb_spec (x + 1) 65536) as [B|B]; [|discriminate]. injection H as <-.
  split; auto. split; [apply upd_length|]. split; [lia|]. intro j. unfold fr in *. rewrite nth_upd.
  destruct (Nat.eqb_spec j i) as [->|]; cbn [andb]; [|lia]. destruct (Nat.ltb_spec i (length f)); lia.
Qed.
Lemma freq_inc_total : forall f i, i < length f -> (fr f i < 65535)%N -> exists f', freq_inc f i = Val f'.
Proof.
  intros f i L B. unfold freq_inc, fr in *. destruct (nth_error f i) as [x|] eqn:E.
  - rewrite (nth_error_nth _ _ _ E) in B. destruct (N.ltb_spec (x + 1) 65536); [eauto|lia].
  - apply nth_error_None in E. lia.
Qed.
Lemma freq_add_val : forall hs f i f', freq_add f i hs = Val f' ->
  length f' = length f /\ forall j, fr f' j = (fr f j + if Nat.leb i j && hb hs (Nat.sub j i) then 1 else 0)%N.
Proof.
  induction hs as [|h hs IH]; intros f i f' H; cbn [freq_add] in H.
  - injection H as <-. split; auto. intro j. unfold hb. replace (nth (j - i) [] false) with false by (destruct (j - i); auto). rewrite andb_false_r. lia.
  - assert (S1 : forall j (k : bool), (if Nat.leb i j && hb (k :: hs) (Nat.sub j i) then 1 else 0)%N =
      ((if Nat.eqb j i && k then 1 else 0) + (if Nat.leb (S i) j && hb hs (Nat.sub j (S i)) then 1 else 0))%N).
    { intros j k. unfold hb. destruct (Nat.eqb_spec j i) as [->|NE].
      - rewrite Nat.leb_refl, Nat.sub_diag. cbn [nth andb]. destruct (Nat.leb_spec (S i) i); [lia|]. destruct k; reflexivity.
      - cbn [andb]. destruct (Nat.leb_spec i j), (Nat.leb_spec (S i) j); try lia; cbn [andb]; auto.
        replace (j - i) with (S (j - S i)) by lia. cbn [nth]. lia. }
    destruct h.
    + destruct (freq_inc f i) as [f1| |] eqn:E; try discriminate. cbn [rbind] in H. apply freq_inc_val in E as (L & L1 & _ & F1).
      apply IH in H as [L2 F2]. split; [congruence|]. intro j. rewrite F2, F1, S1, andb_true_r. lia.
    + apply IH in H as [L2 F2]. split; auto. intro j. rewrite F2, S1, andb_false_r. lia.
Qed.
Lemma freq_add_total : forall hs f i, i + length hs <= length f -> (forall j, (fr f j < 65535)%N) -> exists f', freq_add f i hs = Val f'.
Proof.
  assert (G : forall hs f i, i + length hs <= length f -> (forall j, i <= j -> (fr f j < 65535)%N) -> exists f', freq_add f i hs = Val f').
  { induction hs as [|h hs IH]; intros f i L B; cbn [freq_add]; [eauto|]. cbn [length] in L. destruct h.
    - destruct (@freq_inc_total f i) as [f1 E]; [lia|apply B; lia|]. rewrite E. cbn [rbind]. apply freq_inc_val in E as (_ & L1 & _ & F1).
      apply IH; [lia|]. intros j Hj. rewrite F1. destruct (Nat.eqb_spec j i); [lia|]. rewrite N.add_0_r. apply B. lia.
    - apply IH; [lia|]. intros. apply B. lia. }
  intros. apply G; auto.
Qed.
Lemma freq_dec_total : forall f hs, (forall j, j < length f -> hb hs j = true -> (0 < fr f j)%N) ->
  exists f', freq_dec f hs = Val f' /\ length f' = length f /\ forall j, fr f' j = (fr f j - if hb hs j then 1 else 0)%N.
Proof.
  induction f as [|x f IH]; intros hs H; cbn [freq_dec].
  - exists []. split; auto. split; auto. intro j. unfold fr. destruct j; cbn [nth]; lia.
  - destruct hs as [|h hs].
    + eexists. split; [reflexivity|]. split; auto. intro j. unfold hb. destruct j; cbn [nth]; lia.
    + destruct (IH hs) as (f' & E & L & F). { intros j Hj Hh. apply (H (S j)); cbn [length]; [lia|auto]. }
      rewrite E. cbn [rmap]. destruct h.
      * pose proof (H 0 ltac:(cbn; lia) eq_refl) as P. unfold fr in P. cbn [nth] in P. destruct (N.eqb_spec x 0); [lia|].
        eexists. split; [reflexivity|]. split; [cbn; lia|]. intros [|j]; [reflexivity|]. apply F.
      * eexists. split; [reflexivity|]. split; [cbn; lia|]. intros [|j]; [unfold fr, hb; cbn [nth]; lia|]. apply F.
Qed.

(** ** invariant of the manager *)
Record inv (n : nat) (m : mgr) : Prop := {
  i_pos : 0 < n;
  i_hashes : length (m_hashes m) = n;
  i_freq : length (m_freq m) = n;
  i_assigned : m_assigned m = repeat 0%N n;
  i_local : bm_ok n (m_local m);
  i_pieces : bm_ok n (m_pieces m);
  i_weight : (bm_weight (m_pieces m) <= 9)%N;
  i_nodup : NoDup (map fst (m_active m));
  i_size : length (m_active m) <= 10;
  i_info : forall p inf, In (p, inf) (m_active m) -> bm_ok n (pi_haves inf) /\ bm_ok n (pi_working inf);
  i_count : forall i, i < n -> (N.of_nat (holders (m_active m) i) <= fr (m_freq m) i)%N
}.
Definition exact (n : nat) (m : mgr) : Prop := forall i, i < n -> fr (m_freq m) i = N.of_nat (holders (m_active m) i).

Lemma inv_init : forall hs m, m_init hs = Val m -> inv (length hs) m /\ exact (length hs) m.
Proof.
  intros hs m H. unfold m_init in H. destruct (bm_new (length hs)) as [b| |] eqn:E; try discriminate. cbn [rbind] in H. injection H as <-.
  apply bm_ok_new in E as (OK & B & P). split.
  - split; cbn [m_hashes m_freq m_assigned m_local m_pieces m_active]; auto; try (rewrite repeat_length; auto).
    + pose proof (bm_weight_spec b) as W. rewrite B in W.
      assert (C : forall k, count_true (repeat false k) = 0) by (intro; apply count_occ_not_In; intro X; apply repeat_spec in X; discriminate).
      rewrite C in W. lia.
    + constructor.
    + cbn; lia.
    + intros p inf [].
    + intros. cbn. lia.
  - intros i Hi. cbn [m_freq m_active]. unfold fr. rewrite nth_repeat. reflexivity.
Qed.
Lemma inv_perm : forall n m a, inv n m -> Permutation (m_active m) a -> inv n (with_active m a) /\ (exact n m -> exact n (with_active m a)).
Proof.
  intros n m a I P. split.
  - destruct I. split; cbn [with_active m_hashes m_freq m_assigned m_local m_pieces m_active]; auto.
    + eapply Permutation_NoDup; [apply Permutation_map; eauto|auto].
    + rewrite <- (Permutation_length P). auto.
    + intros p inf H. apply (i_info0 p). eapply Permutation_in; [apply Permutation_sym; eauto|auto].
    + intros. rewrite <- (holders_perm i P). auto.
  - intros X i Hi. cbn [with_active m_freq m_active]. rewrite <- (holders_perm i P). apply X; auto.
Qed.

(** replacing the info of an active peer *)
Lemma inv_update : forall n m p o inf f, inv n m -> aget p (m_active m) = Some o -> bm_ok n (pi_haves inf) -> bm_ok n (pi_working inf) ->
  length f = n ->
  (forall i, i < n -> (fr f i + N.of_nat (b1 (piece_inb (pi_haves o) i)) = fr (m_freq m) i + N.of_nat (b1 (piece_inb (pi_haves inf) i)))%N) ->
  inv n (with_freq (with_active m (aset p inf (m_active m))) f) /\
  (exact n m -> exact n (with_freq (with_active m (aset p inf (m_active m))) f)).
Proof.
  intros n m p o inf f I G O1 O2 L F.
  assert (K : In p (map fst (m_active m))). { unfold aget in G. eapply mget_some_key; eauto using addr_eqb_spec. }
  assert (HH : forall i, holders (aset p inf (m_active m)) i + b1 (piece_inb (pi_haves o) i) = holders (m_active m) i + b1 (piece_inb (pi_haves inf) i)).
  { intro i. pose proof (holders_aset (m_active m) p inf i) as HA. rewrite G in HA. auto. }
  split.
  - destruct I. split; cbn [with_freq with_active m_hashes m_freq m_assigned m_local m_pieces m_active]; auto.
    + rewrite aset_keys; auto.
    + rewrite <- (map_length fst), aset_keys, map_length; auto.
    + intros q i H. apply aset_in in H as [H|H]; [|eapply i_info0; eauto]. injection H as -> ->. auto.
    + intros i Hi. specialize (HH i). specialize (F i Hi). specialize (i_count0 i Hi). lia.
  - intros X i Hi. cbn [with_freq with_active m_freq m_active]. specialize (HH i). specialize (F i Hi). specialize (X i Hi). lia.
Qed.
Lemma with_freq_same : forall m, with_freq m (m_freq m) = m.
Proof. intros []. reflexivity. Qed.
Lemma inv_modify : forall n m p g, inv n m -> (forall i, pi_haves (g i) = pi_haves i) -> (forall i, pi_working (g i) = pi_working i) ->
  inv n (modify m p g) /\ (exact n m -> exact n (modify m p g)).
Proof.
  intros n m p g I H1 H2. unfold modify. destruct (aget p (m_active m)) as [o|] eqn:G; [|auto].
  assert (IN : In (p, o) (m_active m)) by (apply aget_spec; auto; apply (i_nodup I)).
  destruct (i_info I _ _ IN) as [O1 O2].
  destruct (@inv_update n m p o (g o) (m_freq m) I G) as [A B]; rewrite ?H1, ?H2; auto.
  - apply (i_freq I).
Qed.
Lemma inv_inactive : forall n m l, inv n m -> inv n (with_inactive m l).
Proof. intros n m l []. split; auto. Qed.
Lemma inv_conn : forall n m l, inv n m -> inv n (with_conn m l).
Proof. intros n m l []. split; auto. Qed.

Lemma inactive_spec : forall n m p st, inv n m -> exists m', mark_inactive m p st = Val m' /\ inv n m' /\ (exact n m -> exact n m') /\
  m_active m' = adel p (m_active m) /\ (m_inactive m' = m_inactive m ++ [(p, st)] \/ m_inactive m' = m_inactive m /\ ~ In p (map fst (m_active m))) /\ m_conn m' = m_conn m.
Proof.
  intros n m p st I. unfold mark_inactive. destruct (aget p (m_active m)) as [o|] eqn:G.
  - assert (IN : In (p, o) (m_active m)) by (apply aget_spec; auto; apply (i_nodup I)).
    destruct (i_info I _ _ IN) as [O1 O2]. rewrite (bm_ok_bits O1). cbn [rbind].
    assert (HH : forall i, holders (adel p (m_active m)) i + b1 (piece_inb (pi_haves o) i) = holders (m_active m) i).
    { intro i. pose proof (holders_adel (m_active m) p i) as HA. rewrite G in HA. auto. }
    destruct (@freq_dec_total (m_freq m) (firstn n (bits (pi_haves o)))) as (f & E & L & F).
    { intros j Hj Hh. rewrite bm_ok_hb in Hh. apply andb_true_iff in Hh as [H1 H2]. apply Nat.ltb_lt in H1.
      pose proof (i_count I H1). specialize (HH j). rewrite H2 in HH. cbn [b1] in HH. lia. }
    rewrite E. cbn [rbind]. eexists. split; [reflexivity|].
    assert (FF : forall i, i < n -> fr f i = (fr (m_freq m) i - N.of_nat (b1 (piece_inb (pi_haves o) i)))%N).
    { intros i Hi. rewrite F, bm_ok_hb. replace (i <? n) with true by (symmetry; apply Nat.ltb_lt; auto). cbn [andb]. destruct (piece_inb _ _); reflexivity. }
    split; [|split; [|split; [|split]]]; auto.
    + destruct I. split; cbn [with_freq with_inactive with_active m_hashes m_freq m_assigned m_local m_pieces m_active]; auto.
      * congruence.
      * unfold adel. apply NoDup_mdel; auto.
      * unfold adel. rewrite (@length_mdel addr pinfo addr_eqb p (m_active m)). destruct (mhas _ _ _); lia.
      * intros q i H. apply adel_in in H. eauto.
      * intros i Hi. rewrite FF by auto. specialize (i_count0 i Hi). specialize (HH i). lia.
    + intros X i Hi. cbn [with_freq with_inactive with_active m_freq m_active]. rewrite FF by auto. rewrite X by auto. specialize (HH i). lia.
  - apply aget_none in G. eexists. split; [reflexivity|]. split; auto. split; auto. split; [|split; [right|]]; auto.
    unfold adel. clear - G. induction (m_active m) as [|[q o] a IH]; auto. cbn [mdel].
    destruct (addr_eqb p q) eqn:E. { apply addr_eqb_spec in E. subst. exfalso. apply G. left; auto. }
    f_equal. apply IH. intro X. apply G. right. auto.
Qed.

Lemma have_spec : forall n m p i, inv n m ->
  (forall inf, In (p, inf) (m_active m) -> i < n) -> (fr (m_freq m) i < 65535)%N ->
  exists m', handle_have m p i = Val m'.
Proof.
  intros n m p i I L B. unfold handle_have. destruct (aget p (m_active m)) as [o|] eqn:G; [|eauto].
  assert (IN : In (p, o) (m_active m)) by (apply aget_spec; auto; apply (i_nodup I)).
  destruct (i_info I _ _ IN) as [O1 O2]. specialize (L _ IN).
  destruct (@bm_change_some (pi_haves o) i true) as (b' & old & E & _). { pose proof (bm_ok_room O1). lia. }
  rewrite E. cbn [rbind snd fst]. destruct old; [eauto|].
  destruct (@freq_inc_total (m_freq m) i) as [f F]; [rewrite (i_freq I); auto|auto|]. rewrite F. cbn [rmap]. eauto.
Qed.
Lemma have_inv : forall n m p i m', inv n m -> handle_have m p i = Val m' ->
  inv n m' /\ (exact n m -> exact n m') /\ map fst (m_active m') = map fst (m_active m) /\ m_inactive m' = m_inactive m /\ m_conn m' = m_conn m.
Proof.
  intros n m p i m' I H. unfold handle_have in H. destruct (aget p (m_active m)) as [o|] eqn:G; [|injection H as <-; auto].
  assert (IN : In (p, o) (m_active m)) by (apply aget_spec; auto; apply (i_nodup I)).
  assert (K : In p (map fst (m_active m))) by (apply (in_map fst) in IN; auto).
  destruct (i_info I _ _ IN) as [O1 O2].
  destruct (bm_change (pi_haves o) i true) as [[b' old]| |] eqn:E; try discriminate. cbn [rbind snd fst] in H.
  pose proof (@inb_change _ _ _ _ _ E) as (OLD & LI & BB). pose proof (@ok_change _ _ _ _ _ _ O1 E) as O3.
  set (inf := mk_pinfo (pi_choking o) (pi_interested o) b' (pi_working o)) in *.
  destruct old.
  - injection H as <-. destruct (@inv_update n m p o inf (m_freq m) I G) as [A B]; auto.
    + apply (i_freq I).
    + intros j Hj. cbn [pi_haves inf]. rewrite BB. destruct (Nat.eqb_spec j i) as [->|]; [rewrite <- OLD; auto|auto].
    + split; [|split; [|split]]; auto. cbn. apply aset_keys; auto.
  - destruct (freq_inc (m_freq m) i) as [f| |] eqn:F; try discriminate. cbn [rmap] in H. injection H as <-.
    apply freq_inc_val in F as (L1 & L2 & _ & F). destruct (@inv_update n m p o inf f I G) as [A B]; auto.
    + pose proof (i_freq I). congruence.
    + intros j Hj. cbn [pi_haves inf]. rewrite BB, F. destruct (Nat.eqb_spec j i) as [->|]; [rewrite <- OLD; cbn; lia|lia].
    + split; [|split; [|split]]; auto. cbn. apply aset_keys; auto.
Qed.
Lemma bitfield_inv : forall n m p d m', inv n m -> accept_bitfield m d p = Val m' ->
  inv n m' /\ (exact n m -> exact n m') /\ map fst (m_active m') = map fst (m_active m) /\ m_inactive m' = m_inactive m /\ m_conn m' = m_conn m.
Proof.
  intros n m p d m' I H. unfold accept_bitfield in H. destruct (aget p (m_active m)) as [o|] eqn:G; [|injection H as <-; auto].
  assert (IN : In (p, o) (m_active m)) by (apply aget_spec; auto; apply (i_nodup I)).
  assert (K : In p (map fst (m_active m))) by (apply (in_map fst) in IN; auto).
  destruct (i_info I _ _ IN) as [O1 O2].
  destruct (N.ltb_spec 0 (bm_weight (pi_haves o))) as [W|W]; [injection H as <-; auto|].
  destruct (bm_replace_data (pi_haves o) d) as [b| |] eqn:E; try discriminate; [|injection H as <-; auto].
  pose proof (@ok_replace _ _ _ _ O1 E) as O3. rewrite (bm_ok_bits O3) in H. cbn [rbind] in H.
  destruct (freq_add (m_freq m) 0 (firstn n (bits b))) as [f| |] eqn:F; try discriminate. cbn [rbind] in H. injection H as <-.
  apply freq_add_val in F as [L F].
  destruct (@inv_update n m p o (mk_pinfo (pi_choking o) (pi_interested o) b (pi_working o)) f I G) as [A B]; auto.
  - pose proof (i_freq I). congruence.
  - intros i Hi. cbn [pi_haves]. rewrite F. cbn [Nat.leb andb]. rewrite Nat.sub_0_r, bm_ok_hb.
    replace (i <? n) with true by (symmetry; apply Nat.ltb_lt; auto). rewrite (@weight_zero (pi_haves o)) by lia.
    destruct (piece_inb b i); cbn; lia.
  - split; [|split; [|split]]; auto. cbn. apply aset_keys; auto.
Qed.
Lemma bitfield_total : forall n m p d, inv n m -> (forall j, (fr (m_freq m) j < 65535)%N) -> exists m', accept_bitfield m d p = Val m'.
Proof.
  intros n m p d I B. unfold accept_bitfield. destruct (aget p (m_active m)) as [o|] eqn:G; [|eauto].
  assert (IN : In (p, o) (m_active m)) by (apply aget_spec; auto; apply (i_nodup I)). destruct (i_info I _ _ IN) as [O1 O2].
  destruct (0 <? bm_weight (pi_haves o))%N; [eauto|].
  destruct (bm_replace_data (pi_haves o) d) as [b| |] eqn:E.
  - pose proof (@ok_replace _ _ _ _ O1 E) as O3. rewrite (bm_ok_bits O3). cbn [rbind].
    destruct (@freq_add_total (firstn n (bits b)) (m_freq m) 0) as [f F]; auto.
    + rewrite firstn_length, (i_freq I). lia.
    + rewrite F. cbn. eauto.
  - eauto.
  - rewrite bm_replace_spec in E. destruct (_ =? _); discriminate.
Qed.
Lemma modify_keys : forall m p g, map fst (m_active (modify m p g)) = map fst (m_active m) /\ m_inactive (modify m p g) = m_inactive m /\ m_conn (modify m p g) = m_conn m.
Proof.
  intros. unfold modify. destruct (aget p (m_active m)) eqn:G; auto. split; auto. cbn. apply aset_keys.
  unfold aget in G. eapply mget_some_key; eauto using addr_eqb_spec.
Qed.
Definition peer_gone (c : con_message) : bool := match c with CUnreachable | CDisconnected => true | _ => false end.
Lemma message_inv : forall n m p c m', inv n m -> handle_message m p c = Val m' ->
  inv n m' /\ (exact n m -> exact n m') /\ m_conn m' = m_conn m /\
  (if peer_gone c then m_active m' = adel p (m_active m) /\ (exists st, m_inactive m' = m_inactive m ++ [(p, st)] \/ m_inactive m' = m_inactive m /\ ~ In p (map fst (m_active m)))
   else map fst (m_active m') = map fst (m_active m) /\ m_inactive m' = m_inactive m).
Proof.
  intros n m p c m' I H. destruct c; cbn [handle_message peer_gone] in *; try discriminate H.
  - destruct (@inactive_spec n m p UnableToConnect I) as (m1 & E & A & B & C & D & F). rewrite H in E. injection E as ->. do 4 (split; [assumption|]). eexists; exact D.
  - destruct (@inactive_spec n m p Unknown I) as (m1 & E & A & B & C & D & F). rewrite H in E. injection E as ->. do 4 (split; [assumption|]). eexists; exact D.
  - injection H as <-. auto.
  - injection H as <-. destruct (@inv_modify n m p (set_choking true) I) as [A B]; auto. destruct (modify_keys m p (set_choking true)) as (C & D & E). auto.
  - injection H as <-. destruct (@inv_modify n m p (set_choking false) I) as [A B]; auto. destruct (modify_keys m p (set_choking false)) as (C & D & E). auto.
  - injection H as <-. destruct (@inv_modify n m p (set_interested true) I) as [A B]; auto. destruct (modify_keys m p (set_interested true)) as (C & D & E). auto.
  - injection H as <-. destruct (@inv_modify n m p (set_interested false) I) as [A B]; auto. destruct (modify_keys m p (set_interested false)) as (C & D & E). auto.
  - destruct (@have_inv _ _ _ _ _ I H) as (A & B & C & D & E). auto.
  - destruct (@bitfield_inv _ _ _ _ _ I H) as (A & B & C & D & E). auto.
Qed.
