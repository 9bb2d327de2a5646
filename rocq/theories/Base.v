(** Shared vocabulary: outcomes, bytes, slices, big/little-endian integers.
    Nothing here transcribes repository code except where cited. *)
From Coq Require Import List NArith ZArith Lia Bool Arith.
From Coq Require Export Strings.Byte.
From Coq Require Export ZifyNat ZifyN ZifyBool.
Import ListNotations.
Set Implicit Arguments.

Ltac Zify.zify_post_hook ::= Z.div_mod_to_equations.

#[export] Hint Extern 1 (_ mod _ < _) => (apply Nat.mod_upper_bound; lia) : core.
#[global] Arguments Nat.div : simpl never.
#[global] Arguments Nat.modulo : simpl never.
#[global] Arguments N.div : simpl never.
#[global] Arguments N.modulo : simpl never.
#[global] Arguments N.pow : simpl never.
#[global] Arguments N.mul : simpl never.
#[global] Arguments N.add : simpl never.
#[global] Arguments N.shiftl : simpl never.
#[global] Arguments N.shiftr : simpl never.
#[global] Arguments N.land : simpl never.
#[global] Arguments N.lor : simpl never.
#[global] Arguments N.lxor : simpl never.
#[global] Arguments N.testbit : simpl never.

(** ** Outcomes of a Rust call: a value, an [Err(_)], or a panic. *)
Inductive res (A : Type) : Type :=
| Val (a : A)
| Fail
| Panic.
Arguments Val {A} a.
Arguments Fail {A}.
Arguments Panic {A}.

Definition rbind {A B} (x : res A) (f : A -> res B) : res B :=
  match x with Val a => f a | Fail => Fail | Panic => Panic end.
Definition rmap {A B} (f : A -> B) (x : res A) : res B :=
  match x with Val a => Val (f a) | Fail => Fail | Panic => Panic end.

Definition of_option_panic {A} (x : option A) : res A :=
  match x with Some a => Val a | None => Panic end.

(** ** Bytes *)
Definition b2n (b : byte) : N := Byte.to_N b.
Definition n2b (n : N) : byte :=
  match Byte.of_N (n mod 256) with Some b => b | None => x00 end.

Lemma b2n_lt : forall b, (b2n b < 256)%N.
Proof. intro b. unfold b2n. pose proof (Byte.to_N_bounded b). lia. Qed.

Lemma n2b_b2n : forall b, n2b (b2n b) = b.
Proof. intro b. unfold n2b, b2n. destruct b; reflexivity. Qed.

Lemma b2n_n2b : forall n, b2n (n2b n) = (n mod 256)%N.
Proof.
  intro n. unfold n2b, b2n.
  destruct (Byte.of_N (n mod 256)) eqn:E.
  - apply Byte.to_of_N in E. exact E.
  - apply Byte.of_N_None_iff in E. lia.
Qed.

Lemma b2n_inj : forall a b, b2n a = b2n b -> a = b.
Proof. intros a b H. rewrite <- (n2b_b2n a), <- (n2b_b2n b), H. reflexivity. Qed.

Definition byte_eqb (a b : byte) : bool := Byte.eqb a b.
Lemma byte_eqb_eq : forall a b, byte_eqb a b = true <-> a = b.
Proof. intros. unfold byte_eqb. split. apply byte_dec_bl. intros ->. apply byte_dec_lb. reflexivity. Qed.
Lemma byte_eqb_refl : forall a, byte_eqb a a = true.
Proof. intros. apply byte_eqb_eq. reflexivity. Qed.

Definition all_bytes : list byte := map (fun k => n2b (N.of_nat k)) (seq 0 256).
Lemma all_bytes_in : forall b, In b all_bytes.
Proof.
  intro b. unfold all_bytes. apply in_map_iff. exists (N.to_nat (b2n b)). split.
  - rewrite N2Nat.id. apply n2b_b2n.
  - apply in_seq. pose proof (b2n_lt b). lia.
Qed.
Lemma sweep_bytes : forall P : byte -> bool, forallb P all_bytes = true -> forall b, P b = true.
Proof. intros P H b. rewrite forallb_forall in H. apply H, all_bytes_in. Qed.
Lemma sweep_bytes2 : forall P : byte -> byte -> bool,
  forallb (fun a => forallb (P a) all_bytes) all_bytes = true -> forall a b, P a b = true.
Proof.
  intros P H a b. rewrite forallb_forall in H. specialize (H a (all_bytes_in a)).
  rewrite forallb_forall in H. apply H, all_bytes_in.
Qed.
Lemma sweep_bytes_nat : forall m (P : byte -> nat -> bool),
  forallb (fun a => forallb (P a) (seq 0 m)) all_bytes = true -> forall a i, i < m -> P a i = true.
Proof.
  intros m P H a i Hi. rewrite forallb_forall in H. specialize (H a (all_bytes_in a)).
  rewrite forallb_forall in H. apply H, in_seq. lia.
Qed.

Definition bytes := list byte.
Fixpoint bytes_eqb (a b : bytes) : bool :=
  match a, b with
  | [], [] => true
  | x :: a', y :: b' => byte_eqb x y && bytes_eqb a' b'
  | _, _ => false
  end.
Lemma bytes_eqb_eq : forall a b, bytes_eqb a b = true <-> a = b.
Proof.
  induction a as [|x a IH]; destruct b as [|y b]; simpl; split; intro H; try congruence; auto.
  - apply andb_prop in H as [H1 H2]. apply byte_eqb_eq in H1. apply IH in H2. congruence.
  - inversion H; subst. rewrite byte_eqb_refl. simpl. apply IH. reflexivity.
Qed.
Lemma bytes_eqb_refl : forall a, bytes_eqb a a = true.
Proof. intro. apply bytes_eqb_eq. reflexivity. Qed.
Lemma bytes_eqb_neq : forall a b, bytes_eqb a b = false <-> a <> b.
Proof.
  intros a b. rewrite <- bytes_eqb_eq. destruct (bytes_eqb a b); split; congruence.
Qed.
Definition bytes_eq_dec (a b : bytes) : {a = b} + {a <> b}.
Proof. destruct (bytes_eqb a b) eqn:E; [left; apply bytes_eqb_eq|right; apply bytes_eqb_neq]; auto. Defined.

(** ** Lists *)
Fixpoint upd {A} (l : list A) (i : nat) (x : A) : list A :=
  match l, i with
  | [], _ => []
  | _ :: t, O => x :: t
  | h :: t, S j => h :: upd t j x
  end.

Lemma upd_length : forall A (l : list A) i x, length (upd l i x) = length l.
Proof. induction l; destruct i; simpl; intros; auto. Qed.
Lemma nth_error_upd : forall A (l : list A) i j x,
  nth_error (upd l i x) j = if (i =? j)%nat && (i <? length l)%nat then Some x else nth_error l j.
Proof.
  induction l as [|h t IH]; intros i j x; simpl.
  - destruct j; rewrite andb_false_r; reflexivity.
  - destruct i, j; simpl; auto. rewrite IH. reflexivity.
Qed.
Lemma nth_error_upd_same : forall A (l : list A) i x,
  i < length l -> nth_error (upd l i x) i = Some x.
Proof. intros. rewrite nth_error_upd, Nat.eqb_refl. apply Nat.ltb_lt in H. rewrite H. reflexivity. Qed.
Lemma nth_error_upd_other : forall A (l : list A) i j x,
  i <> j -> nth_error (upd l i x) j = nth_error l j.
Proof. intros. rewrite nth_error_upd. apply Nat.eqb_neq in H. rewrite H. reflexivity. Qed.
Lemma upd_out : forall A (l : list A) i x, length l <= i -> upd l i x = l.
Proof. induction l; destruct i; simpl; intros; auto; try lia. f_equal. apply IHl. lia. Qed.
Lemma upd_app_r : forall A (a b : list A) i x, length a <= i -> upd (a ++ b) i x = a ++ upd b (i - length a) x.
Proof. induction a; simpl; intros. f_equal; lia. destruct i; [lia|]. simpl. f_equal. apply IHa. lia. Qed.
Lemma upd_app_l : forall A (a b : list A) i x, i < length a -> upd (a ++ b) i x = upd a i x ++ b.
Proof. induction a; simpl; intros. lia. destruct i; simpl; auto. f_equal. apply IHa. lia. Qed.
Lemma list_ext : forall A (a b : list A), (forall i, nth_error a i = nth_error b i) -> a = b.
Proof.
  induction a as [|x a IH]; destruct b as [|y b]; intros H; auto.
  - specialize (H 0). discriminate.
  - specialize (H 0). discriminate.
  - pose proof (H 0) as H0. simpl in H0. injection H0 as ->. f_equal. apply IH. intro i. apply (H (S i)).
Qed.
Lemma nth_error_map_some : forall A B (f : A -> B) l i,
  nth_error (map f l) i = option_map f (nth_error l i).
Proof. intros. apply nth_error_map. Qed.

(** A Rust slice [l[a..b]]: panics unless [a <= b <= len]. *)
Definition slice {A} (l : list A) (a b : nat) : option (list A) :=
  if (a <=? b) && (b <=? length l) then Some (firstn (b - a) (skipn a l)) else None.

Lemma slice_some : forall A (l : list A) a b,
  a <= b -> b <= length l -> slice l a b = Some (firstn (b - a) (skipn a l)).
Proof. intros. unfold slice. apply Nat.leb_le in H, H0. rewrite H, H0. reflexivity. Qed.
Lemma slice_length : forall A (l : list A) a b s, slice l a b = Some s -> length s = b - a.
Proof.
  unfold slice. intros A l a b s H. destruct ((a <=? b) && (b <=? length l)) eqn:E; [|discriminate].
  injection H as <-. rewrite firstn_length, skipn_length. lia.
Qed.

(** ** Integers as byte strings *)
Fixpoint be_bytes (k : nat) (n : N) : bytes :=
  match k with
  | O => []
  | S k' => n2b (n / 256 ^ N.of_nat k') :: be_bytes k' n
  end.
Definition of_be (l : bytes) : N := fold_left (fun acc b => acc * 256 + b2n b)%N l 0%N.
Definition le_bytes (k : nat) (n : N) : bytes := rev (be_bytes k n).
Definition of_le (l : bytes) : N := of_be (rev l).

Lemma be_bytes_length : forall k n, length (be_bytes k n) = k.
Proof. induction k; simpl; intros; auto. Qed.
Lemma le_bytes_length : forall k n, length (le_bytes k n) = k.
Proof. intros. unfold le_bytes. rewrite rev_length. apply be_bytes_length. Qed.

Lemma of_be_app : forall a b, of_be (a ++ b) = (of_be a * 256 ^ N.of_nat (length b) + of_be b)%N.
Proof.
  intros a b. unfold of_be. rewrite fold_left_app.
  generalize (fold_left (fun acc b0 => acc * 256 + b2n b0)%N a 0%N). intro s.
  revert s. induction b as [|x b IH] using rev_ind; intros s.
  - simpl. lia.
  - rewrite !fold_left_app, app_length. simpl. rewrite IH.
    replace (N.of_nat (length b + 1)) with (N.succ (N.of_nat (length b))) by lia.
    rewrite N.pow_succ_r'. lia.
Qed.
Lemma of_be_lt : forall l, (of_be l < 256 ^ N.of_nat (length l))%N.
Proof.
  induction l as [|x l IH] using rev_ind.
  - reflexivity.
  - rewrite of_be_app, app_length. simpl length.
    replace (N.of_nat (length l + 1)) with (N.succ (N.of_nat (length l))) by lia.
    rewrite N.pow_succ_r'. change (N.of_nat 1) with 1%N. rewrite N.pow_1_r.
    unfold of_be at 2. cbn [fold_left]. pose proof (b2n_lt x). lia.
Qed.
Lemma of_be_cons : forall x l, of_be (x :: l) = (b2n x * 256 ^ N.of_nat (length l) + of_be l)%N.
Proof. intros. change (x :: l) with ([x] ++ l). rewrite of_be_app. unfold of_be at 1. cbn [fold_left]. lia. Qed.
Lemma of_be_be_bytes : forall k n, of_be (be_bytes k n) = (n mod 256 ^ N.of_nat k)%N.
Proof.
  induction k; intro n.
  - simpl. rewrite N.mod_1_r. reflexivity.
  - cbn [be_bytes]. rewrite of_be_cons, be_bytes_length, IHk, b2n_n2b.
    replace (N.of_nat (S k)) with (N.succ (N.of_nat k)) by lia.
    rewrite N.pow_succ_r'.
    set (p := (256 ^ N.of_nat k)%N). assert (p <> 0)%N by (apply N.pow_nonzero; lia).
    rewrite (N.mul_comm 256 p). rewrite N.mod_mul_r by (try assumption; discriminate).
    rewrite N.add_comm, (N.mul_comm p). reflexivity.
Qed.
Lemma be_bytes_of_be : forall l, be_bytes (length l) (of_be l) = l.
Proof.
  assert (G : forall l s, be_bytes (length l) (s * 256 ^ N.of_nat (length l) + of_be l)%N = l).
  { induction l as [|x l IH]; intro s; auto.
    cbn [length be_bytes]. rewrite of_be_cons.
    replace (N.of_nat (S (length l))) with (N.succ (N.of_nat (length l))) by lia.
    rewrite N.pow_succ_r'.
    set (p := (256 ^ N.of_nat (length l))%N).
    assert (p <> 0)%N by (apply N.pow_nonzero; lia).
    replace (s * (256 * p) + (b2n x * p + of_be l))%N with ((s * 256 + b2n x) * p + of_be l)%N by lia.
    f_equal.
    - rewrite N.div_add_l by lia. rewrite N.div_small by apply of_be_lt.
      apply b2n_inj. rewrite b2n_n2b. pose proof (b2n_lt x). 
      rewrite N.add_0_r. rewrite N.add_comm, N.mod_add by lia. apply N.mod_small. lia.
    - apply IH. }
  intro l. specialize (G l 0%N). rewrite N.mul_0_l, N.add_0_l in G. exact G.
Qed.
Lemma be_bytes_inj : forall k m n, (m < 256 ^ N.of_nat k)%N -> (n < 256 ^ N.of_nat k)%N ->
  be_bytes k m = be_bytes k n -> m = n.
Proof.
  intros k m n Hm Hn H. apply (f_equal of_be) in H. rewrite !of_be_be_bytes in H.
  rewrite !N.mod_small in H by lia. exact H.
Qed.
Lemma of_le_le_bytes : forall k n, of_le (le_bytes k n) = (n mod 256 ^ N.of_nat k)%N.
Proof. intros. unfold of_le, le_bytes. rewrite rev_involutive. apply of_be_be_bytes. Qed.
Lemma le_bytes_of_le : forall l, le_bytes (length l) (of_le l) = l.
Proof.
  intros. unfold le_bytes, of_le. rewrite <- (rev_length l). rewrite be_bytes_of_be.
  apply rev_involutive.
Qed.
