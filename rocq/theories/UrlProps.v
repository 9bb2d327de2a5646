(** C53: exactly which announces tell the tracker what they are meant to. *)
From Coq Require Import Strings.String.
From Coq Require Import List NArith ZArith Lia Bool Arith.
From Coq Require Import Init.Byte.
From Verif Require Import Base IdModel WireModel BencodeModel BencodeProofs KrpcModel Utf8Spec TrackerModel TrackerSpec AnnounceProps.
Import ListNotations.
Set Implicit Arguments.

(** ** cutting *)
Lemma cut_fst_free : forall c s, ~ In c (fst (cut c s)).
Proof.
  intros c s. induction s as [|x s IH]; cbn [cut]; [intros []|]. destruct (Byte.eqb x c) eqn:E; [intros []|].
  destruct (cut c s) as (a & b). cbn [fst] in *. intros [H|H]; [|exact (IH H)]. subst.
  change (Byte.eqb c c) with (byte_eqb c c) in E. rewrite byte_eqb_refl in E. discriminate.
Qed.
Lemma cut_fst_in : forall c s b, In b (fst (cut c s)) -> In b s.
Proof.
  intros c s b. induction s as [|x s IH]; cbn [cut]; [intros []|]. destruct (Byte.eqb x c); [intros []|].
  destruct (cut c s) as (a & r). cbn [fst] in *. intros [H|H]; [left|right]; auto.
Qed.
Lemma cut_fst_app : forall c a b, ~ In c a -> fst (cut c (a ++ b)) = a ++ fst (cut c b).
Proof.
  intros c a b. induction a as [|x a IH]; intro H; [reflexivity|]. cbn [app cut].
  destruct (Byte.eqb x c) eqn:E; [apply byte_eqb_eq in E; subst; destruct H; left; auto|].
  specialize (IH (fun I => H (or_intror I))). destruct (cut c (a ++ b)). cbn [fst] in *. rewrite IH. reflexivity.
Qed.
Lemma cut_fst_length : forall c s, List.length (fst (cut c s)) <= List.length s.
Proof.
  intros c s. induction s as [|x s IH]; cbn [cut]; [auto|]. destruct (Byte.eqb x c); [cbn; lia|].
  destruct (cut c s) as (a & b). cbn [fst List.length] in *. lia.
Qed.
Lemma cut_fst_short : forall c s, In c s -> List.length (fst (cut c s)) < List.length s.
Proof.
  intros c s. induction s as [|x s IH]; cbn [cut]; intro H; [destruct H|]. destruct (Byte.eqb x c) eqn:E; [cbn; lia|].
  destruct H as [H|H]. { subst. change (Byte.eqb c c) with (byte_eqb c c) in E. rewrite byte_eqb_refl in E. discriminate. }
  specialize (IH H). destruct (cut c s) as (a & b). cbn [fst List.length] in *. lia.
Qed.
Lemma split_length : forall c s, List.length (split c s) = S (count_occ Byte.byte_eq_dec s c).
Proof.
  intros c s. induction s as [|x s IH]; [reflexivity|]. cbn [split]. destruct (Byte.eqb x c) eqn:E.
  - apply byte_eqb_eq in E. subst. rewrite count_occ_cons_eq by reflexivity. cbn [List.length]. rewrite IH. reflexivity.
  - rewrite count_occ_cons_neq by (intros ->; change (Byte.eqb c c) with (byte_eqb c c) in E; rewrite byte_eqb_refl in E; discriminate).
    destruct (split c s) as [|h r]; cbn [List.length] in *; lia.
Qed.
Lemma join_count : forall c l, l <> [] -> S (count_occ Byte.byte_eq_dec (join c l) c) = List.length l + list_sum (map (fun s => count_occ Byte.byte_eq_dec s c) l).
Proof.
  intros c l. induction l as [|a l IH]; intro N; [congruence|]. destruct l as [|b l].
  - cbn. lia.
  - change (join c (a :: b :: l)) with (a ++ c :: join c (b :: l)). rewrite count_occ_app, count_occ_cons_eq by reflexivity.
    rewrite IH by discriminate. cbn [map list_sum fold_right List.length]. unfold list_sum. cbn. lia.
Qed.
Lemma all_some_length : forall A (l : list (option A)) r, all_some l = Some r -> List.length r = List.length l.
Proof.
  induction l as [|x l IH]; intros r E; cbn in E; [injection E as <-; reflexivity|].
  destruct x; [|discriminate]. destruct (all_some l); [|discriminate]. injection E as <-. cbn. rewrite (IH _ eq_refl). reflexivity.
Qed.
Lemma all_some_app : forall X Y (f : X -> option Y) l1 l2 r, all_some (map f (l1 ++ l2)) = Some r ->
  exists r1 r2, r = r1 ++ r2 /\ all_some (map f l1) = Some r1 /\ all_some (map f l2) = Some r2.
Proof.
  intros X Y f l1 l2. induction l1 as [|x l1 IH]; intros r E; cbn in *.
  - exists [], r. auto.
  - destruct (f x); [|discriminate]. destruct (all_some (map f (l1 ++ l2))) as [t|]; [|discriminate]. injection E as <-.
    destruct (IH t eq_refl) as (r1 & r2 & -> & E1 & E2). rewrite E1. exists (y :: r1), r2. auto.
Qed.
Lemma decode_length : forall n s r, List.length s <= n -> percent_decode s = Some r -> List.length r <= List.length s /\ (In x25 s -> List.length r < List.length s).
Proof.
  induction n as [|n IH]; intros s r L E.
  - destruct s; [|cbn in L; lia]. cbn in E. injection E as <-. split; [auto|intros []].
  - destruct s as [|x s]. { cbn in E. injection E as <-. split; [auto|intros []]. }
    cbn [List.length] in L. destruct (Byte.byte_eq_dec x x25) as [->|N].
    + cbn [percent_decode] in E. destruct s as [|h [|l s]]; try discriminate. destruct (hex_value h); [|discriminate]. destruct (hex_value l); [|discriminate].
      destruct (percent_decode s) as [t|] eqn:D; [|discriminate]. injection E as <-. cbn [List.length] in *.
      assert (L2 : List.length s <= n) by lia. destruct (IH s t L2 D). split; lia.
    + assert (E' : option_map (cons x) (percent_decode s) = Some r) by (rewrite <- E; destruct x; try reflexivity; congruence).
      destruct (percent_decode s) as [t|] eqn:D; [|discriminate]. cbn in E'. injection E' as <-. assert (L2 : List.length s <= n) by lia.
      destruct (IH s t L2 D) as (A & B). cbn [List.length]. split; [lia|]. intros [H|H]; [congruence|]. specialize (B H). lia.
Qed.

(** ** the announce up to its first [#] *)
Definition with_tracker_id (a : announce) (t : option bytes) : announce :=
  mk_announce (a_url a) (a_info_hash a) (a_peer_id a) (a_port a) (a_uploaded a) (a_downloaded a) (a_left a) (a_compact a) (a_no_peer_id a) (a_event a) t.
Definition head_params (a : announce) : list (bytes * bytes) := raw_params (with_tracker_id a None).
Lemma raw_split : forall a t, a_tracker_id a = Some t -> raw_params a = head_params a ++ [(str "trackerid", t)].
Proof. intros a t E. unfold head_params, raw_params. cbn [with_tracker_id a_url a_info_hash a_peer_id a_port a_uploaded a_downloaded a_left a_compact a_no_peer_id a_event a_tracker_id]. rewrite E. rewrite app_nil_r, !app_assoc. reflexivity. Qed.
Lemma told_split : forall a t, a_tracker_id a = Some t -> exists l, told a = l ++ [(str "trackerid", t)] /\ List.length l = List.length (head_params a).
Proof.
  intros a t E. unfold head_params, raw_params, told. cbn [with_tracker_id a_url a_info_hash a_peer_id a_port a_uploaded a_downloaded a_left a_compact a_no_peer_id a_event a_tracker_id].
  rewrite E, app_nil_r. eexists. rewrite !app_assoc. split; [reflexivity|]. rewrite !app_length. destruct (a_compact a), (a_event a); reflexivity.
Qed.
Lemma join_snoc : forall c l a, l <> [] -> join c (l ++ [a]) = join c l ++ c :: a.
Proof.
  intros c l a. induction l as [|x l IH]; intro N; [congruence|]. destruct l as [|y l]; [reflexivity|].
  change ((x :: y :: l) ++ [a]) with (x :: (y :: l) ++ [a]). 
  change (join c (x :: (y :: l) ++ [a])) with (x ++ c :: join c ((y :: l) ++ [a])). rewrite IH by discriminate.
  change (join c (x :: y :: l)) with (x ++ c :: join c (y :: l)). rewrite <- app_assoc. reflexivity.
Qed.
Lemma as_url_tracker : forall a t, a_tracker_id a = Some t ->
  as_url a = (a_url a ++ x3f :: join x26 (map assign (head_params a)) ++ x26 :: str "trackerid=") ++ t.
Proof.
  intros a t E. rewrite as_url_join, (raw_split _ E), map_app. cbn [map]. rewrite join_snoc by (unfold head_params, raw_params; discriminate).
  unfold assign at 2. cbn [fst snd]. rewrite <- !app_assoc. cbn [app]. rewrite <- !app_assoc. reflexivity.
Qed.
Lemma head_free : forall c a, safe_byte c = false -> (b2n c < 48)%N -> c <> x26 -> c <> x3d -> ~ In c (join x26 (map assign (head_params a))).
Proof.
  intros c a S L N1 N2 I. apply in_join in I. destruct I as [I|(s & I & B)]; [congruence|]. apply in_map_iff in I. destruct I as ((k & v) & <- & I).
  unfold assign in B. cbn [fst snd] in B. apply in_app_or in B. destruct B as [B|[B|B]]; [|congruence|].
  - pose proof (@raw_keys _ k v I) as R. rewrite forallb_forall in R. unfold safe_byte in S. rewrite (R c B) in S. discriminate.
  - assert (F : free_values c (with_tracker_id a None)) by (apply raw_free; auto; intros t X; discriminate X). exact (F k v I B).
Qed.
(** What comes after a [#] in the tracker id does not reach the tracker. *)
Lemma cut_url : forall a t, ~ In x23 (a_url a) -> a_tracker_id a = Some t ->
  fst (cut x23 (as_url a)) = as_url (with_tracker_id a (Some (fst (cut x23 t)))).
Proof.
  intros a t U E. rewrite (@as_url_tracker a t E), cut_fst_app.
  - rewrite (@as_url_tracker (with_tracker_id a (Some (fst (cut x23 t)))) (fst (cut x23 t)) eq_refl). reflexivity.
  - intro I. apply in_app_or in I. destruct I as [I|[I|I]]; [auto|discriminate|]. apply in_app_or in I. destruct I as [I|[I|I]]; [|discriminate|].
    + revert I. apply head_free; [reflexivity|vm_compute; reflexivity|discriminate|discriminate].
    + revert I. apply str_free. reflexivity.
Qed.

(** C53, exactly: the tracker is told what the announce means if and only if
    the URL has no query and no fragment of its own and the tracker id is plain
    text. *)
Theorem C53_exact : forall a,
  (resource (as_url a) = a_url a /\ params (as_url a) = Some (told a)) <->
  (~ In x3f (a_url a) /\ ~ In x23 (a_url a) /\ (forall t, a_tracker_id a = Some t -> plain_text t)).
Proof.
  intro a. split; [|intros (U1 & U2 & T); apply C53_parameters_partial; auto].
  intros (R & P).
  assert (U1 : ~ In x3f (a_url a)) by (rewrite <- R; apply cut_fst_free).
  assert (U2 : ~ In x23 (a_url a)).
  { rewrite <- R. unfold resource. intro I. apply cut_fst_in in I. exact (@cut_fst_free _ _ I). }
  split; [exact U1|]. split; [exact U2|]. intros t E.
  set (t1 := fst (cut x23 t)). set (a1 := with_tracker_id a (Some t1)).
  assert (EC : fst (cut x23 (as_url a1)) = as_url a1).
  { rewrite (@cut_url a1 t1 U2 eq_refl), (@cut_none x23 t1) by apply cut_fst_free. reflexivity. }
  assert (P1 : params (as_url a1) = Some (told a)).
  { rewrite <- P. unfold params. rewrite EC, (@cut_url a t U2 E). reflexivity. }
  assert (Q : params (as_url a1) = all_some (map param (split x26 (join x26 (map assign (raw_params a1)))))).
  { unfold params. rewrite EC, as_url_join, cut_app by exact U1. reflexivity. }
  destruct (told_split a E) as (l & T & LT).
  assert (N26 : ~ In x26 t1).
  { intro I. rewrite Q in P1. apply all_some_length in P1. rewrite map_length, split_length, join_count in P1 by (rewrite (@raw_split a1 t1 eq_refl); intro X; apply map_eq_nil, app_eq_nil in X; destruct X; discriminate).
    rewrite (@raw_split a1 t1 eq_refl), map_app, map_app, !app_length, list_sum_app, map_length in P1. rewrite T, app_length, LT in P1. cbn [map List.length list_sum fold_right] in P1.
    unfold assign at 2 in P1. cbn [fst snd] in P1. rewrite count_occ_app in P1. cbn [list_sum fold_right] in P1.
    rewrite (count_occ_In Byte.byte_eq_dec) in I. rewrite count_occ_cons_neq in P1 by discriminate.
    change (head_params a1) with (head_params a) in P1. unfold list_sum in P1. cbn [fold_right] in P1. lia. }
  destruct (@params_of a1) as (_ & P2); auto.
  { apply raw_free; [reflexivity|vm_compute; reflexivity|]. intros s X. injection X as <-. exact N26. }
  { apply raw_free; [reflexivity|vm_compute; reflexivity|]. intros s X. injection X as <-. apply cut_fst_free. }
  rewrite P1, T in P2. rewrite map_map, (@raw_split a1 t1 eq_refl) in P2. symmetry in P2.
  apply all_some_app in P2. destruct P2 as (r1 & r2 & EQ & A1 & A2). cbn [map all_some] in A2.
  destruct (param (assign (str "trackerid", t1))) as [kv|] eqn:K; [|discriminate]. injection A2 as <-.
  apply app_inj_tail in EQ. destruct EQ as (_ & EQ). subst kv.
  assert (D : percent_decode t1 = Some t).
  { unfold param, assign in K. cbn [fst snd] in K. rewrite cut_app in K by (apply str_free; reflexivity). rewrite (@decode_plain (str "trackerid")) in K by (apply str_free; reflexivity).
    destruct (percent_decode t1) as [w|]; [|discriminate]. injection K as ->. reflexivity. }
  destruct (@decode_length (List.length t1) t1 t (le_n _) D) as (L1 & L2).
  pose proof (cut_fst_length x23 t) as L3. fold t1 in L3.
  assert (N23 : ~ In x23 t) by (intro I; apply cut_fst_short in I; fold t1 in I; lia).
  assert (EQ : t1 = t) by (unfold t1; rewrite cut_none by exact N23; reflexivity). rewrite EQ in *.
  intros b I. split; [intros ->; auto|]. split; [intros ->; auto|]. intros ->. specialize (L2 I). lia.
Qed.
(** Both sides hold for [ex53]; both fail for a tracker id with a [#]. *)
Example C53_exact_example :
  (resource (as_url ex53) = a_url ex53 /\ params (as_url ex53) = Some (told ex53)) /\
  ~ (params (as_url (with_tracker_id ex53 (Some (str "a#b")))) = Some (told (with_tracker_id ex53 (Some (str "a#b"))))).
Proof.
  split.
  - apply C53_exact. destruct C53_example as (A & B & C & _). split; [exact A|]. split; [exact B|]. intros t X. injection X as <-. exact C.
  - intro X. vm_compute in X. discriminate X.
Qed.
Print Assumptions C53_exact.
