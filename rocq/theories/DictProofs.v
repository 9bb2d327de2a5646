(** Dictionaries with distinct keys: reading the entries one after the other is
    the same as looking up each field. *)
From Coq Require Import Strings.String.
From Coq Require Import List NArith ZArith Lia Bool Arith Sorted.
From Coq Require Import Init.Byte.
From Verif Require Import Base BencodeModel BencodeSpec BencodeProofs KrpcModel Utf8Spec Utf8Proofs TrackerModel.
Import ListNotations.
Set Implicit Arguments.

Lemma lex_trans : forall a b c, lex a b -> lex b c -> lex a c.
Proof.
  intros a b c H1 H2. apply bytes_lt_lex in H1, H2. apply bytes_lt_lex. revert b c H1 H2.
  induction a as [|x a IH]; intros [|y b] [|z c] H1 H2; cbn [bytes_lt] in *; try discriminate; auto.
  destruct (b2n x <? b2n y)%N eqn:E1, (b2n y <? b2n z)%N eqn:E2.
  - apply N.ltb_lt in E1, E2. assert (E : (b2n x <? b2n z)%N = true) by (apply N.ltb_lt; lia). rewrite E. reflexivity.
  - destruct (b2n z <? b2n y)%N eqn:E3; [discriminate|]. apply N.ltb_lt in E1. apply N.ltb_ge in E2, E3.
    assert (E : (b2n x <? b2n z)%N = true) by (apply N.ltb_lt; lia). rewrite E. reflexivity.
  - destruct (b2n y <? b2n x)%N eqn:E3; [discriminate|]. apply N.ltb_lt in E2. apply N.ltb_ge in E1, E3.
    assert (E : (b2n x <? b2n z)%N = true) by (apply N.ltb_lt; lia). rewrite E. reflexivity.
  - destruct (b2n y <? b2n x)%N eqn:E3; [discriminate|]. destruct (b2n z <? b2n y)%N eqn:E4; [discriminate|].
    apply N.ltb_ge in E1, E2, E3, E4. assert (E : (b2n x <? b2n z)%N = false) by (apply N.ltb_ge; lia).
    assert (E' : (b2n z <? b2n x)%N = false) by (apply N.ltb_ge; lia). rewrite E, E'. eauto.
Qed.
Lemma lex_irrefl : forall a, ~ lex a a.
Proof.
  intros a H. apply bytes_lt_lex in H. induction a as [|x a IH]; cbn [bytes_lt] in H; [discriminate|].
  rewrite N.ltb_irrefl in H. auto.
Qed.
Lemma sorted_nodup : forall l, Sorted lex l -> NoDup l.
Proof.
  intros l H. apply Sorted_StronglySorted in H; [|exact lex_trans]. induction H as [|a l H IH F]; constructor; auto.
  intro I. rewrite Forall_forall in F. exact (lex_irrefl (F a I)).
Qed.
Lemma ordered_nodup : forall d, ordered (BDict d) -> NoDup (map fst d).
Proof. intros d H. inversion H; subst. apply sorted_nodup. auto. Qed.

Definition fval {A} (p : bval -> res A) (k : bytes) (d : list (bytes * bval)) (old new : option A) : Prop :=
  match lookup k d with Some v => exists x, p v = Val x /\ new = Some x | None => new = old end.
Lemma fval_hit : forall A (p : bval -> res A) k v d old new,
  fval p k ((k, v) :: d) old new <-> exists x, p v = Val x /\ new = Some x.
Proof. intros. unfold fval. cbn [lookup]. rewrite bytes_eqb_refl. tauto. Qed.
Lemma fval_miss : forall A (p : bval -> res A) k k' v d old new, k' <> k ->
  fval p k ((k', v) :: d) old new <-> fval p k d old new.
Proof. intros A p k k' v d old new N. unfold fval. cbn [lookup]. apply bytes_eqb_neq in N. rewrite N. tauto. Qed.
Lemma lookup_none : forall k d, lookup k d = None <-> ~ In k (map fst d).
Proof.
  intros k d. induction d as [|[k' v] d IH]; cbn [lookup map fst In]; [tauto|]. destruct (bytes_eqb k' k) eqn:E.
  - apply bytes_eqb_eq in E. subst. split; [discriminate|]. intro H. destruct H. auto.
  - apply bytes_eqb_neq in E. rewrite IH. tauto.
Qed.
Lemma lookup_some : forall k v d, NoDup (map fst d) -> (lookup k d = Some v <-> In (k, v) d).
Proof.
  intros k v d H. induction d as [|[k' v'] d IH]; cbn [lookup map fst In] in *; [split; [discriminate|tauto]|].
  inversion H as [|? ? N ND]; subst. destruct (bytes_eqb k' k) eqn:E.
  - apply bytes_eqb_eq in E. subst. split; [intro X; injection X as <-; auto|].
    intros [X|X]; [injection X as <-; auto|]. destruct N. apply in_map_iff. exists (k, v). auto.
  - apply bytes_eqb_neq in E. rewrite IH by auto. split; [auto|]. intros [X|X]; [injection X as -> ->; congruence|auto].
Qed.
Lemma fval_absent : forall A (p : bval -> res A) k d old new, ~ In k (map fst d) -> (fval p k d old new <-> new = old).
Proof. intros A p k d old new H. unfold fval. apply lookup_none in H. rewrite H. tauto. Qed.
Lemma fval_some : forall A (p : bval -> res A) k d x, NoDup (map fst d) -> (fval p k d None (Some x) <-> exists v, In (k, v) d /\ p v = Val x).
Proof.
  intros A p k d x H. unfold fval. destruct (lookup k d) as [v|] eqn:E.
  - apply lookup_some in E; auto. split.
    + intros (y & P & Q). exists v. split; [auto|congruence].
    + intros (w & I & P). exists x. split; auto. apply lookup_some in I; auto. apply lookup_some in E; auto. congruence.
  - split; [discriminate|]. intros (v & I & _). apply lookup_some in I; auto. congruence.
Qed.
Lemma fval_none : forall A (p : bval -> res A) k d, fval p k d None None <-> ~ In k (map fst d).
Proof.
  intros A p k d. rewrite <- lookup_none. unfold fval. destruct (lookup k d) as [v|]; [|tauto].
  split; [intros (x & _ & X); discriminate|discriminate].
Qed.
(** The values of the field parsers. *)
Lemma p_uint_iff : forall v n, p_uint u64_max v = Val n <-> v = BInt (Z.of_N n) /\ (n < 2 ^ 64)%N.
Proof.
  intros v n. change (2 ^ 64)%N with 18446744073709551616%N. unfold p_uint, u64_max. destruct v as [z|s|l|l]; try (split; [discriminate|intros (X & _); discriminate]).
  split.
  - destruct (0 <=? z)%Z eqn:E1; [|discriminate]. destruct (z <=? _)%Z eqn:E2; [|discriminate]. intro H. injection H as <-.
    apply Z.leb_le in E1, E2. split; [f_equal; lia|lia].
  - intros (H & L). injection H as ->. rewrite (proj2 (Z.leb_le 0 _)) by lia. rewrite (proj2 (Z.leb_le _ _)) by lia. cbn [andb]. f_equal. lia.
Qed.
Lemma p_string_iff : forall v s, p_string v = Val s <-> v = BStr s /\ utf8 s.
Proof.
  intros v s. rewrite <- utf8_ok_iff. unfold p_string. destruct v as [z|x|l|l]; try (split; [discriminate|intros (X & _); discriminate]).
  destruct (utf8_ok x) eqn:E; split; try discriminate.
  - intro H. injection H as <-. auto.
  - intros (H & _). injection H as ->. auto.
  - intros (H & X). injection H as ->. congruence.
Qed.
(** Blocks of equal length. *)
Lemma chunks_blocks : forall A B k (f : A -> list B) l, 0 < k -> (forall x, In x l -> length (f x) = k) -> chunks k (flat_map f l) = map f l.
Proof.
  intros A B k f l K H. unfold chunks.
  assert (G : forall n, length l <= n -> chunks_go n k (flat_map f l) = map f l).
  { induction l as [|x l IH]; intros n L; [destruct n; reflexivity|]. cbn [length] in L. destruct n as [|n]; [lia|].
    assert (LX : length (f x) = k) by (apply H; left; auto). cbn [flat_map map chunks_go].
    assert (E : exists c t, f x ++ flat_map f l = c :: t).
    { destruct (f x) as [|c t]; [cbn in LX; lia|]. eexists _, _. reflexivity. }
    destruct E as (c & t & E). rewrite E. rewrite <- E.
    rewrite firstn_app, skipn_app, LX, Nat.sub_diag, <- LX, firstn_all, skipn_all. cbn [firstn skipn app]. rewrite app_nil_r. rewrite LX. f_equal. apply IH; [|lia].
    intros y I. apply H. right. auto. }
  apply G. clear G. induction l as [|x l IH]; cbn [flat_map length]; [lia|]. rewrite app_length, H by (left; auto).
  assert (length l <= length (flat_map f l)) by (apply IH; intros y I; apply H; right; auto). lia.
Qed.
Lemma flat_map_len : forall A B k (f : A -> list B) l, (forall x, In x l -> length (f x) = k) -> length (flat_map f l) = k * length l.
Proof.
  intros A B k f l H. induction l as [|x l IH]; cbn [flat_map length]; [lia|]. rewrite app_length, H by (left; auto). rewrite IH by (intros y I; apply H; right; auto). lia.
Qed.
Lemma chunks_exact_blocks : forall A B k (f : A -> list B) l rest, 0 < k -> (forall x, In x l -> length (f x) = k) -> length rest < k ->
  chunks_exact k (flat_map f l ++ rest) = map f l.
Proof.
  intros A B k f l rest K H R. unfold chunks_exact.
  assert (E : k * (length (flat_map f l ++ rest) / k) = length (flat_map f l)).
  { rewrite app_length, (flat_map_len f l H). rewrite (Nat.mul_comm k (length l)), Nat.div_add_l by lia. rewrite Nat.div_small by lia. lia. }
  rewrite E. rewrite firstn_app, Nat.sub_diag, firstn_all, firstn_O, app_nil_r. apply chunks_blocks; auto.
Qed.
