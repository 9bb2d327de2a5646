(** The checker of KrpcModel.v accepts exactly the texts of Utf8Spec.v. *)
From Coq Require Import List NArith ZArith Lia Bool Arith.
From Coq Require Import Init.Byte.
From Verif Require Import Base KrpcModel Utf8Spec.
Import ListNotations.
Set Implicit Arguments.

Lemma in_range_iff : forall lo hi b, in_range lo hi b = true <-> (lo <= b2n b /\ b2n b <= hi)%N.
Proof. intros. unfold in_range. rewrite andb_true_iff, !N.leb_le. tauto. Qed.
Lemma in_range_out : forall lo hi b, (b2n b < lo \/ hi < b2n b)%N -> in_range lo hi b = false.
Proof. intros lo hi b H. destruct (in_range lo hi b) eqn:E; auto. apply in_range_iff in E. lia. Qed.
Lemma small : forall n, (n < 256)%N -> b2n (n2b n) = n.
Proof. intros n H. rewrite b2n_n2b. apply N.mod_small. exact H. Qed.
Lemma b2n_back : forall b n, b2n b = n -> n2b n = b.
Proof. intros b n <-. apply n2b_b2n. Qed.
Ltac Zify.zify_post_hook ::= Z.to_euclidean_division_equations.
Lemma char_ok : forall n s, scalar n -> utf8_ok (utf8_char n ++ s) = utf8_ok s.
Proof.
  intros n s S. unfold scalar in S. unfold utf8_char.
  destruct (N.ltb_spec n 0x80); [|destruct (N.ltb_spec n 0x800); [|destruct (N.ltb_spec n 0x10000)]]; cbn [app].
  - assert (B : b2n (n2b n) = n) by (apply small; lia). cbn [utf8_ok].
    assert (R : in_range 0 127 (n2b n) = true) by (apply in_range_iff; lia). rewrite R. reflexivity.
  - set (a := n2b (0xc0 + n / 64)). set (b := n2b (0x80 + n mod 64)).
    assert (A : b2n a = (0xc0 + n / 64)%N) by (apply small; lia). assert (B : b2n b = (0x80 + n mod 64)%N) by (apply small; lia).
    cbn [utf8_ok]. rewrite (@in_range_out 0 0x7f a) by lia.
    assert (R : in_range 0xc2 0xdf a = true) by (apply in_range_iff; lia). rewrite R.
    assert (R' : cont b = true) by (apply in_range_iff; lia). rewrite R'. reflexivity.
  - set (a := n2b (0xe0 + n / 4096)). set (b := n2b (0x80 + n / 64 mod 64)). set (c := n2b (0x80 + n mod 64)).
    assert (A : b2n a = (0xe0 + n / 4096)%N) by (apply small; lia).
    assert (B : b2n b = (0x80 + n / 64 mod 64)%N) by (apply small; lia).
    assert (C : b2n c = (0x80 + n mod 64)%N) by (apply small; lia).
    cbn [utf8_ok]. rewrite (@in_range_out 0 0x7f a) by lia. rewrite (@in_range_out 0xc2 0xdf a) by lia.
    assert (R : in_range 0xe0 0xef a = true) by (apply in_range_iff; lia). rewrite R.
    assert (R' : cont c = true) by (apply in_range_iff; lia). rewrite R'.
    assert (R2 : in_range (if (b2n a =? 0xe0)%N then 0xa0 else 0x80) (if (b2n a =? 0xed)%N then 0x9f else 0xbf) b = true).
    { apply in_range_iff. destruct (N.eqb_spec (b2n a) 0xe0), (N.eqb_spec (b2n a) 0xed); lia. }
    rewrite R2. reflexivity.
  - set (a := n2b (0xf0 + n / 262144)). set (b := n2b (0x80 + n / 4096 mod 64)). set (c := n2b (0x80 + n / 64 mod 64)). set (d := n2b (0x80 + n mod 64)).
    assert (A : b2n a = (0xf0 + n / 262144)%N) by (apply small; lia).
    assert (B : b2n b = (0x80 + n / 4096 mod 64)%N) by (apply small; lia).
    assert (C : b2n c = (0x80 + n / 64 mod 64)%N) by (apply small; lia).
    assert (D : b2n d = (0x80 + n mod 64)%N) by (apply small; lia).
    cbn [utf8_ok]. rewrite (@in_range_out 0 0x7f a) by lia. rewrite (@in_range_out 0xc2 0xdf a) by lia. rewrite (@in_range_out 0xe0 0xef a) by lia.
    assert (R : in_range 0xf0 0xf4 a = true) by (apply in_range_iff; lia). rewrite R.
    assert (R' : cont c = true) by (apply in_range_iff; lia). rewrite R'.
    assert (R2 : cont d = true) by (apply in_range_iff; lia). rewrite R2.
    assert (R3 : in_range (if (b2n a =? 0xf0)%N then 0x90 else 0x80) (if (b2n a =? 0xf4)%N then 0x8f else 0xbf) b = true).
    { apply in_range_iff. destruct (N.eqb_spec (b2n a) 0xf0), (N.eqb_spec (b2n a) 0xf4); lia. }
    rewrite R3. reflexivity.
Qed.
Lemma ok_char : forall s, s <> [] -> utf8_ok s = true -> exists n rest, scalar n /\ s = utf8_char n ++ rest /\ utf8_ok rest = true /\ length rest < length s.
Proof.
  intros s NE H. destruct s as [|a s1]; [congruence|]. cbn [utf8_ok] in H.
  destruct (in_range 0 0x7f a) eqn:R1.
  { apply in_range_iff in R1. exists (b2n a), s1. unfold scalar, utf8_char. destruct (N.ltb_spec (b2n a) 0x80); [|lia].
    split; [lia|]. split; [cbn; rewrite n2b_b2n; reflexivity|]. split; [exact H|cbn; lia]. }
  destruct s1 as [|b s2]; [discriminate|]. destruct (in_range 0xc2 0xdf a) eqn:R2.
  { apply in_range_iff in R2. apply andb_true_iff in H. destruct H as (C & H). apply in_range_iff in C.
    set (n := ((b2n a - 0xc0) * 64 + (b2n b - 0x80))%N). exists n, s2. unfold scalar, utf8_char.
    destruct (N.ltb_spec n 0x80); [lia|]. destruct (N.ltb_spec n 0x800); [|lia].
    split; [lia|]. split; [|split; [exact H|cbn; lia]]. cbn [app]. rewrite (@b2n_back a), (@b2n_back b) by lia. reflexivity. }
  destruct s2 as [|c s3]; [discriminate|]. destruct (in_range 0xe0 0xef a) eqn:R3.
  { apply in_range_iff in R3. apply andb_true_iff in H. destruct H as (C & H). apply andb_true_iff in C. destruct C as (B & C).
    apply in_range_iff in C. apply in_range_iff in B.
    set (n := ((b2n a - 0xe0) * 4096 + (b2n b - 0x80) * 64 + (b2n c - 0x80))%N). exists n, s3. unfold scalar, utf8_char.
    assert (L : (0x800 <= n)%N) by (destruct (N.eqb_spec (b2n a) 0xe0), (N.eqb_spec (b2n a) 0xed); lia).
    assert (L' : (0x80 <= b2n b <= 0xbf)%N) by (destruct (N.eqb_spec (b2n a) 0xe0), (N.eqb_spec (b2n a) 0xed); lia).
    destruct (N.ltb_spec n 0x80); [lia|]. destruct (N.ltb_spec n 0x800); [lia|]. destruct (N.ltb_spec n 0x10000); [|lia].
    split; [destruct (N.eqb_spec (b2n a) 0xe0), (N.eqb_spec (b2n a) 0xed); lia|]. split; [|split; [exact H|cbn; lia]].
    cbn [app]. rewrite (@b2n_back a), (@b2n_back b), (@b2n_back c) by lia. reflexivity. }
  destruct s3 as [|d s4]; [discriminate|].
  apply andb_true_iff in H. destruct H as (D & H). apply andb_true_iff in D. destruct D as (C & D). apply andb_true_iff in C. destruct C as (B & C).
  apply andb_true_iff in B. destruct B as (A & B). apply in_range_iff in A. apply in_range_iff in B. apply in_range_iff in C. apply in_range_iff in D.
  set (n := ((b2n a - 0xf0) * 262144 + (b2n b - 0x80) * 4096 + (b2n c - 0x80) * 64 + (b2n d - 0x80))%N). exists n, s4. unfold scalar, utf8_char.
  assert (L : (0x10000 <= n < 0x110000)%N) by (destruct (N.eqb_spec (b2n a) 0xf0), (N.eqb_spec (b2n a) 0xf4); lia).
  assert (L' : (0x80 <= b2n b <= 0xbf)%N) by (destruct (N.eqb_spec (b2n a) 0xf0), (N.eqb_spec (b2n a) 0xf4); lia).
  destruct (N.ltb_spec n 0x80); [lia|]. destruct (N.ltb_spec n 0x800); [lia|]. destruct (N.ltb_spec n 0x10000); [lia|].
  split; [lia|]. split; [|split; [exact H|cbn; lia]]. cbn [app].
  rewrite (@b2n_back a), (@b2n_back b), (@b2n_back c), (@b2n_back d) by lia. reflexivity.
Qed.
Ltac Zify.zify_post_hook ::= idtac.
Lemma utf8_ok_iff : forall s, utf8_ok s = true <-> utf8 s.
Proof.
  intros s. split.
  - remember (length s) as k eqn:K. revert s K. induction k as [k IH] using (well_founded_induction lt_wf). intros s K H.
    destruct s as [|a s].
    + exists []. split; [constructor|reflexivity].
    + destruct (@ok_char (a :: s)) as (n & rest & S & E & R & L); [discriminate|exact H|].
      destruct (IH (length rest)) with (s := rest) as (l & F & EL); auto; [rewrite K; exact L|].
      exists (n :: l). split; [constructor; assumption|]. cbn [flat_map]. rewrite <- EL. exact E.
  - intros (l & F & ->). induction F as [|n l S F IH]; [reflexivity|]. cbn [flat_map]. rewrite char_ok; assumption.
Qed.
