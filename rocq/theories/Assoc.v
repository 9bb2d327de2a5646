(** Association lists standing for [std::collections::HashMap]: unique keys,
    iteration order = list order. Theorems that must not depend on the
    iteration order quantify over permutations. *)
From Coq Require Import List Lia Bool Arith Permutation.
Import ListNotations.
Set Implicit Arguments.

Section Assoc.
  Context {K V : Type}.
  Variable eqb : K -> K -> bool.
  Hypothesis eqb_spec : forall a b, eqb a b = true <-> a = b.

  Definition keys (m : list (K * V)) : list K := map fst m.
  Fixpoint mget (k : K) (m : list (K * V)) : option V :=
    match m with
    | [] => None
    | (k', v) :: t => if eqb k k' then Some v else mget k t
    end.
  (** [HashMap::insert]: overwrite in place, or a new entry. *)
  Fixpoint mset (k : K) (v : V) (m : list (K * V)) : list (K * V) :=
    match m with
    | [] => [(k, v)]
    | (k', v') :: t => if eqb k k' then (k', v) :: t else (k', v') :: mset k v t
    end.
  Fixpoint mdel (k : K) (m : list (K * V)) : list (K * V) :=
    match m with
    | [] => []
    | (k', v') :: t => if eqb k k' then t else (k', v') :: mdel k t
    end.
  Definition mhas (k : K) (m : list (K * V)) : bool :=
    match mget k m with Some _ => true | None => false end.

  Lemma eqb_rfl : forall a, eqb a a = true.
  Proof. intro. apply eqb_spec. auto. Qed.
  Lemma eqb_neq : forall a b, a <> b -> eqb a b = false.
  Proof. intros. destruct (eqb a b) eqn:E; auto. apply eqb_spec in E. contradiction. Qed.

  Lemma mget_mset_same : forall k v m, mget k (mset k v m) = Some v.
  Proof.
    intros k v m. induction m as [|[k' v'] t IH]; cbn; [rewrite eqb_rfl; auto|].
    destruct (eqb k k') eqn:E; cbn; rewrite E; auto.
  Qed.
  Lemma mget_mset_other : forall k k2 v m, k2 <> k -> mget k2 (mset k v m) = mget k2 m.
  Proof.
    intros k k2 v m H. induction m as [|[k' v'] t IH]; cbn; [rewrite eqb_neq; auto|].
    destruct (eqb k k') eqn:E; cbn.
    - apply eqb_spec in E. subst k'. rewrite eqb_neq; auto.
    - destruct (eqb k2 k'); auto.
  Qed.
  Lemma mget_in : forall k v m, mget k m = Some v -> In (k, v) m.
  Proof.
    induction m as [|[k' v'] t IH]; cbn; [discriminate|]. destruct (eqb k k') eqn:E; auto.
    apply eqb_spec in E. intro H. injection H as <-. subst. auto.
  Qed.
  Lemma in_mget : forall k v m, NoDup (keys m) -> In (k, v) m -> mget k m = Some v.
  Proof.
    induction m as [|[k' v'] t IH]; cbn; [contradiction|]. intros N [H|H].
    - injection H as -> ->. rewrite eqb_rfl. auto.
    - inversion N; subst. rewrite eqb_neq; auto. intros ->. apply H2. apply (in_map fst) in H. exact H.
  Qed.
  Lemma mget_none : forall k m, mget k m = None <-> ~ In k (keys m).
  Proof.
    induction m as [|[k' v'] t IH]; cbn; [tauto|]. destruct (eqb k k') eqn:E.
    - apply eqb_spec in E. subst. split; [discriminate|tauto].
    - rewrite IH. assert (k' <> k) by (intros ->; rewrite eqb_rfl in E; discriminate). tauto.
  Qed.
  Lemma mget_some_key : forall k v m, mget k m = Some v -> In k (keys m).
  Proof. intros k v m H. apply mget_in in H. apply (in_map fst) in H. exact H. Qed.
  Lemma key_mget : forall k m, In k (keys m) -> exists v, mget k m = Some v.
  Proof.
    intros k m H. destruct (mget k m) eqn:E; eauto. apply mget_none in E. contradiction.
  Qed.
  Lemma keys_mset : forall k v m, keys (mset k v m) = if mhas k m then keys m else keys m ++ [k].
  Proof.
    intros k v m. unfold mhas, keys. induction m as [|[k' v'] t IH]; cbn; auto.
    destruct (eqb k k') eqn:E; cbn; auto. rewrite IH. destruct (mget k t); auto.
  Qed.
  Lemma mhas_in : forall k m, mhas k m = true <-> In k (keys m).
  Proof.
    intros. unfold mhas. destruct (mget k m) eqn:E.
    - split; auto. intros _. eapply mget_some_key; eauto.
    - split; [discriminate|]. apply mget_none in E. contradiction.
  Qed.
  Lemma NoDup_mset : forall k v m, NoDup (keys m) -> NoDup (keys (mset k v m)).
  Proof.
    intros k v m H. rewrite keys_mset. destruct (mhas k m) eqn:E; auto.
    apply Permutation_NoDup with (k :: keys m); [apply Permutation_cons_append|].
    constructor; auto. rewrite <- mhas_in, E. discriminate.
  Qed.
  Lemma length_mset : forall k v m, length (mset k v m) = if mhas k m then length m else S (length m).
  Proof.
    intros. rewrite <- (map_length fst (mset k v m)). fold (keys (mset k v m)). rewrite keys_mset.
    destruct (mhas k m); unfold keys; rewrite ?app_length, map_length; simpl; lia.
  Qed.
  Lemma mdel_incl : forall k m x, In x (mdel k m) -> In x m.
  Proof.
    induction m as [|[k' v'] t IH]; cbn; auto. intro x. destruct (eqb k k'); cbn; intuition.
  Qed.
  Lemma keys_mdel_incl : forall k m x, In x (keys (mdel k m)) -> In x (keys m).
  Proof.
    unfold keys. intros k m x H. apply in_map_iff in H as (p & <- & H). apply in_map. eapply mdel_incl; eauto.
  Qed.
  Lemma NoDup_mdel : forall k m, NoDup (keys m) -> NoDup (keys (mdel k m)).
  Proof.
    induction m as [|[k' v'] t IH]; cbn; auto. intro N. inversion N; subst.
    destruct (eqb k k'); auto. cbn. constructor; auto. intro H. apply H1. eapply keys_mdel_incl; eauto.
  Qed.
  Lemma mget_mdel_same : forall k m, NoDup (keys m) -> mget k (mdel k m) = None.
  Proof.
    induction m as [|[k' v'] t IH]; cbn; auto. intro N. inversion N; subst.
    destruct (eqb k k') eqn:E.
    - apply eqb_spec in E. subst. apply mget_none; auto.
    - cbn. rewrite E. auto.
  Qed.
  Lemma mget_mdel_other : forall k k2 m, k2 <> k -> mget k2 (mdel k m) = mget k2 m.
  Proof.
    induction m as [|[k' v'] t IH]; cbn; auto. intro H. destruct (eqb k k') eqn:E.
    - apply eqb_spec in E. subst. rewrite eqb_neq; auto.
    - cbn. rewrite IH; auto.
  Qed.
  Lemma length_mdel : forall k m, length (mdel k m) = if mhas k m then length m - 1 else length m.
  Proof.
    unfold mhas. induction m as [|[k' v'] t IH]; cbn; auto. destruct (eqb k k'); [lia|].
    cbn. rewrite IH. destruct (mget k t) eqn:E; auto. destruct t; [discriminate|]. cbn. lia.
  Qed.
  Lemma mget_perm : forall k m m', NoDup (keys m) -> Permutation m m' -> mget k m = mget k m'.
  Proof.
    intros k m m' N P. assert (N' : NoDup (keys m')) by (eapply Permutation_NoDup; [apply Permutation_map|]; eauto).
    destruct (mget k m) eqn:E.
    - symmetry. apply in_mget; auto. eapply Permutation_in; eauto. apply mget_in; auto.
    - symmetry. apply mget_none. apply mget_none in E. intro H. apply E.
      eapply Permutation_in; [apply Permutation_map; symmetry; eauto|auto].
  Qed.
  Lemma keys_app : forall a b : list (K * V), keys (a ++ b) = keys a ++ keys b.
  Proof. intros. apply map_app. Qed.
  (** Changing values only keeps keys. *)
  Lemma keys_map_snd : forall (f : K -> V -> V) m, keys (map (fun p => (fst p, f (fst p) (snd p))) m) = keys m.
  Proof. intros. unfold keys. rewrite map_map. reflexivity. Qed.
  Lemma mget_map_snd : forall (f : K -> V -> V) k m,
    mget k (map (fun p => (fst p, f (fst p) (snd p))) m) = option_map (f k) (mget k m).
  Proof.
    induction m as [|[k' v'] t IH]; cbn; auto. destruct (eqb k k') eqn:E; auto.
    apply eqb_spec in E. subst. reflexivity.
  Qed.
End Assoc.
