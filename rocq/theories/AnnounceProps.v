(** C52, C53: the announce URL. *)
From Coq Require Import Strings.String.
From Coq Require Import List NArith ZArith Lia Bool Arith.
From Coq Require Import Init.Byte.
From Verif Require Import Base IdModel WireModel BencodeModel BencodeProofs KrpcModel Utf8Spec Utf8Proofs TrackerModel TrackerSpec.
Import ListNotations.
Set Implicit Arguments.

(** ** taking strings apart *)
Lemma cut_app : forall c a b, ~ In c a -> cut c (a ++ c :: b) = (a, Some b).
Proof.
  intros c a b H. induction a as [|x a IH]; cbn [cut app].
  - change (Byte.eqb c c) with (byte_eqb c c). rewrite byte_eqb_refl. reflexivity.
  - destruct (Byte.eqb x c) eqn:E; [apply byte_eqb_eq in E; subst; destruct H; left; auto|].
    rewrite IH by (intro; apply H; right; auto). reflexivity.
Qed.
Lemma cut_none : forall c a, ~ In c a -> cut c a = (a, None).
Proof.
  intros c a H. induction a as [|x a IH]; cbn [cut]; auto.
  destruct (Byte.eqb x c) eqn:E; [apply byte_eqb_eq in E; subst; destruct H; left; auto|].
  rewrite IH by (intro; apply H; right; auto). reflexivity.
Qed.
Lemma split_app : forall c a b, ~ In c a -> split c (a ++ c :: b) = a :: split c b.
Proof.
  intros c a b H. induction a as [|x a IH]; cbn [split app].
  - change (Byte.eqb c c) with (byte_eqb c c). rewrite byte_eqb_refl. reflexivity.
  - destruct (Byte.eqb x c) eqn:E; [apply byte_eqb_eq in E; subst; destruct H; left; auto|].
    rewrite IH by (intro; apply H; right; auto). reflexivity.
Qed.
Lemma split_one : forall c a, ~ In c a -> split c a = [a].
Proof.
  intros c a H. induction a as [|x a IH]; cbn [split]; auto.
  destruct (Byte.eqb x c) eqn:E; [apply byte_eqb_eq in E; subst; destruct H; left; auto|].
  rewrite IH by (intro; apply H; right; auto). reflexivity.
Qed.
Fixpoint join (c : byte) (l : list bytes) : bytes :=
  match l with
  | [] => []
  | [a] => a
  | a :: t => a ++ c :: join c t
  end.
Lemma split_join : forall c l, l <> [] -> Forall (fun a => ~ In c a) l -> split c (join c l) = l.
Proof.
  intros c l N F. induction F as [|a l H F IH]; [congruence|]. destruct l as [|b l].
  - cbn [join]. apply split_one, H.
  - change (join c (a :: b :: l)) with (a ++ c :: join c (b :: l)). rewrite split_app by exact H; rewrite IH by discriminate. reflexivity.
Qed.
Lemma in_join : forall c l b, In b (join c l) -> b = c \/ exists a, In a l /\ In b a.
Proof.
  intros c l. induction l as [|a l IH]; intros b H; [destruct H|]. destruct l as [|x l].
  - right. exists a. split; [left; auto|exact H].
  - change (join c (a :: x :: l)) with (a ++ c :: join c (x :: l)) in H. apply in_app_or in H. destruct H as [H|[H|H]].
    + right. exists a. split; [left|]; auto.
    + left. auto.
    + destruct (IH b H) as [E|(y & I & J)]; [left; auto|right; exists y; split; [right|]; auto].
Qed.

(** ** percent encoding *)
Definition safe_byte (b : byte) : bool := unreserved b || Byte.eqb b x25.
Lemma encode_byte_safe : forall b, Forall (fun x => safe_byte x = true) (encode_byte b).
Proof.
  intro b. apply Forall_forall. intros x H.
  assert (G : forallb safe_byte (encode_byte b) = true) by (revert b H; intros b _; revert b; apply sweep_bytes; vm_compute; reflexivity).
  rewrite forallb_forall in G. auto.
Qed.
Lemma encode_safe : forall s, Forall (fun x => safe_byte x = true) (encode_binary s).
Proof. induction s as [|b s IH]; [constructor|]. cbn [encode_binary flat_map]. apply Forall_app. split; [apply encode_byte_safe|exact IH]. Qed.
Lemma encode_free : forall c s, safe_byte c = false -> ~ In c (encode_binary s).
Proof. intros c s E H. pose proof (encode_safe s) as F. rewrite Forall_forall in F. rewrite (F c H) in E. discriminate. Qed.
Lemma decode_encode_byte : forall b r, percent_decode (encode_byte b ++ r) = option_map (cons b) (percent_decode r).
Proof. intros b r. destruct b; cbn; destruct (percent_decode r); reflexivity. Qed.
Lemma decode_encode : forall s, percent_decode (encode_binary s) = Some s.
Proof. induction s as [|b s IH]; auto. cbn [encode_binary flat_map]. rewrite decode_encode_byte. unfold encode_binary in IH. rewrite IH. reflexivity. Qed.
Lemma decode_plain : forall s, ~ In x25 s -> percent_decode s = Some s.
Proof.
  induction s as [|b s IH]; intro H; auto. assert (N : b <> x25) by (intros ->; apply H; left; auto).
  assert (E : percent_decode (b :: s) = option_map (cons b) (percent_decode s)) by (destruct b; try reflexivity; congruence).
  rewrite E, IH by (intro; apply H; right; auto). reflexivity.
Qed.
Lemma unreserved_spec : forall b, unreserved b = true <-> url_unreserved b.
Proof.
  intro b. unfold unreserved, url_unreserved, in_range. cbn [str list_byte_of_string In]. split.
  - intro H. rewrite !orb_true_iff, !andb_true_iff, !N.leb_le, !N.eqb_eq in H.
    destruct H as [[[[[[H|H]|H]|H]|H]|H]|H]; [left; lia|right; left; lia|right; right; left; lia| | | |]; right; right; right;
    (apply b2n_inj with (b := x2d) in H || apply b2n_inj with (b := x2e) in H || apply b2n_inj with (b := x5f) in H || apply b2n_inj with (b := x7e) in H);
    subst; vm_compute; tauto.
  - intro H. rewrite !orb_true_iff, !andb_true_iff, !N.leb_le, !N.eqb_eq.
    destruct H as [H|[H|[H|H]]]; [left; left; left; left; left; left; lia|left; left; left; left; left; right; lia|left; left; left; left; right; lia|].
    cbn in H. destruct H as [<-|[<-|[<-|[<-|[]]]]]; [do 3 left|do 2 left|left|]; right; reflexivity.
Qed.

(** C52. *)
Theorem C52_url_safe : forall s b, In b (encode_binary s) -> url_unreserved b \/ b = x25.
Proof.
  intros s b H. pose proof (encode_safe s) as F. rewrite Forall_forall in F. specialize (F b H). unfold safe_byte in F.
  apply orb_prop in F. destruct F as [F|F]; [left; apply unreserved_spec; exact F|right; apply byte_eqb_eq; exact F].
Qed.
Theorem C52_decodes_back : forall s, percent_decode (encode_binary s) = Some s.
Proof. exact decode_encode. Qed.
Definition with_hash (a : announce) (h : ID) : announce :=
  mk_announce (a_url a) h (a_peer_id a) (a_port a) (a_uploaded a) (a_downloaded a) (a_left a) (a_compact a) (a_no_peer_id a) (a_event a) (a_tracker_id a).
(** Whatever else is in the announce, even an odd tracker URL or tracker id. *)
Theorem C52_different_urls : forall a h1 h2, h1 <> h2 -> as_url (with_hash a h1) <> as_url (with_hash a h2).
Proof.
  intros a h1 h2 N E. unfold as_url in E. cbn [with_hash a_url a_info_hash a_peer_id a_port a_uploaded a_downloaded a_left a_compact a_no_peer_id a_event a_tracker_id] in E.
  apply app_inv_head in E. apply app_inv_head in E.
  change (str "&peer_id=") with (x26 :: str "peer_id=") in E. rewrite <- !app_comm_cons in E.
  pose proof (f_equal (cut x26) E) as C. rewrite !cut_app in C by (apply encode_free; reflexivity).
  assert (C0 : encode_binary h1 = encode_binary h2) by congruence. apply N. pose proof (decode_encode h1) as D1. rewrite C0, decode_encode in D1. congruence.
Qed.
Example C52_example : encode_binary [x00; x41; x25; xff; x7e] = str "%00A%25%FF~".
Proof. reflexivity. Qed.
Print Assumptions C52_url_safe.
Print Assumptions C52_decodes_back.
Print Assumptions C52_different_urls.

(** ** C53 *)
Definition raw_params (a : announce) : list (bytes * bytes) :=
  [(str "info_hash", encode_binary (a_info_hash a)); (str "peer_id", encode_binary (a_peer_id a)); (str "port", enc_num (a_port a));
   (str "uploaded", enc_num (a_uploaded a)); (str "downloaded", enc_num (a_downloaded a)); (str "left", enc_num (a_left a));
   (str "compact", if a_compact a then str "1" else str "0")] ++
  (if a_compact a then [] else [(str "no_peer_id", if a_no_peer_id a then str "1" else str "0")]) ++
  match a_event a with Some e => [(str "event", event_name e)] | None => [] end ++
  match a_tracker_id a with Some t => [(str "trackerid", t)] | None => [] end.
Definition assign (kv : bytes * bytes) : bytes := fst kv ++ x3d :: snd kv.
Lemma as_url_join : forall a, as_url a = a_url a ++ x3f :: join x26 (map assign (raw_params a)).
Proof.
  intro a. unfold as_url, raw_params. f_equal.
  destruct (a_compact a), (a_no_peer_id a), (a_event a) as [[]|], (a_tracker_id a) as [t|]; cbn -[encode_binary enc_num];
  rewrite ?app_nil_r; reflexivity.
Qed.
Lemma enc_num_digits : forall n b, In b (enc_num n) -> (48 <= b2n b <= 57)%N.
Proof.
  intros n b. unfold enc_num. generalize (N.to_uint n). induction u; cbn [uint_bytes]; intros H; [destruct H| | | | | | | | | |];
  (destruct H as [<-|H]; [vm_compute; split; discriminate|auto]).
Qed.
Lemma enc_num_free : forall n c, (b2n c < 48 \/ 57 < b2n c)%N -> ~ In c (enc_num n).
Proof. intros n c E H. apply enc_num_digits in H. lia. Qed.
Lemma param_assign : forall k v w, ~ In x3d k -> ~ In x25 k -> percent_decode v = Some w -> param (assign (k, v)) = Some (k, w).
Proof. intros k v w N P D. unfold param, assign. cbn [fst snd]. rewrite cut_app by exact N; rewrite decode_plain by exact P; rewrite D. reflexivity. Qed.
Lemma str_free : forall c s, existsb (Byte.eqb c) s = false -> ~ In c s.
Proof. intros c s E H. assert (X : existsb (Byte.eqb c) s = true) by (apply existsb_exists; exists c; split; auto; apply byte_eqb_eq; reflexivity). congruence. Qed.
Definition free_values (c : byte) (a : announce) : Prop := forall k v, In (k, v) (raw_params a) -> ~ In c v.
Ltac in_cases H := repeat (destruct H as [H|H]; [injection H as <- <-|]); try (destruct H).
Lemma raw_free : forall c a, safe_byte c = false -> (b2n c < 48)%N -> (forall t, a_tracker_id a = Some t -> ~ In c t) ->
  free_values c a.
Proof.
  intros c a S L T k v H. unfold raw_params in H.
  assert (F : forall s, forallb safe_byte s = true -> ~ In c s).
  { intros s E I. rewrite forallb_forall in E. rewrite (E c I) in S. discriminate. }
  apply in_app_or in H. destruct H as [H|H].
  { cbn [In] in H. repeat (destruct H as [H|H]; [injection H as <- <-|]); [apply encode_free, S|apply encode_free, S|apply enc_num_free; lia|apply enc_num_free; lia|apply enc_num_free; lia|apply enc_num_free; lia| |destruct H].
    destruct (a_compact a); apply F; reflexivity. }
  apply in_app_or in H. destruct H as [H|H].
  { destruct (a_compact a); cbn [In] in H; [destruct H|]. destruct H as [H|[]]. injection H as <- <-. destruct (a_no_peer_id a); apply F; reflexivity. }
  apply in_app_or in H. destruct H as [H|H].
  { destruct (a_event a) as [e|]; cbn [In] in H; [|destruct H]. destruct H as [H|[]]. injection H as <- <-. destruct e; apply F; reflexivity. }
  destruct (a_tracker_id a) as [t|]; cbn [In] in H; [|destruct H]. destruct H as [H|[]]. injection H as <- <-. apply T. reflexivity.
Qed.
Lemma raw_keys : forall a k v, In (k, v) (raw_params a) -> forallb (fun b => unreserved b) k = true.
Proof.
  intros a k v H. unfold raw_params in H. rewrite !in_app_iff in H. cbn [In] in H.
  destruct (a_compact a), (a_event a), (a_tracker_id a); cbn [In] in H;
  repeat match goal with H : _ \/ _ |- _ => destruct H as [H|H] | H : False |- _ => destruct H | H : (_, _) = (_, _) |- _ => injection H as <- <-; reflexivity end.
Qed.
Lemma params_of : forall a, free_values x26 a -> free_values x23 a -> ~ In x3f (a_url a) -> ~ In x23 (a_url a) ->
  resource (as_url a) = a_url a /\ params (as_url a) = all_some (map param (map assign (raw_params a))).
Proof.
  intros a F26 F23 U1 U2. rewrite as_url_join.
  assert (K : forall k v, In (k, v) (raw_params a) -> forall c, unreserved c = false -> ~ In c k).
  { intros k v H c E I. pose proof (@raw_keys a k v H) as R. rewrite forallb_forall in R. rewrite (R c I) in E. discriminate. }
  assert (J : ~ In x23 (join x26 (map assign (raw_params a)))).
  { intro I. apply in_join in I. destruct I as [I|(s & I & B)]; [discriminate|]. apply in_map_iff in I. destruct I as ((k & v) & <- & I).
    unfold assign in B. cbn [fst snd] in B. apply in_app_or in B. destruct B as [B|[B|B]]; [|discriminate|].
    - exact (K k v I x23 eq_refl B).
    - exact (F23 k v I B). }
  assert (N : ~ In x23 (a_url a ++ x3f :: join x26 (map assign (raw_params a)))).
  { intro I. apply in_app_or in I. destruct I as [I|[I|I]]; [auto|discriminate|auto]. }
  unfold resource, params. rewrite (@cut_none x23 _ N). cbn [fst]. rewrite cut_app by exact U1. cbn [fst snd]. split; auto.
  rewrite split_join; auto.
  - unfold raw_params. discriminate.
  - apply Forall_forall. intros s I. apply in_map_iff in I. destruct I as ((k & v) & <- & I). unfold assign. cbn [fst snd]. intro B.
    apply in_app_or in B. destruct B as [B|[B|B]]; [|discriminate|]; [exact (K k v I x26 eq_refl B)|exact (F26 k v I B)].
Qed.

(** C53, under two conditions on text the client does not encode: the tracker
    URL has no query or fragment of its own, and the tracker id contains none of
    [&], [#] and [%]. *)
Theorem C53_parameters_partial : forall a,
  ~ In x3f (a_url a) -> ~ In x23 (a_url a) -> (forall t, a_tracker_id a = Some t -> plain_text t) ->
  resource (as_url a) = a_url a /\ params (as_url a) = Some (told a).
Proof.
  intros a U1 U2 T. destruct (@params_of a) as (R & P); auto.
  { apply raw_free; [reflexivity|vm_compute; reflexivity|]. intros t E I. destruct (T t E _ I) as (X & _). congruence. }
  { apply raw_free; [reflexivity|vm_compute; reflexivity|]. intros t E I. destruct (T t E _ I) as (_ & X & _). congruence. }
  split; [exact R|]. rewrite P. clear P R U1 U2.
  assert (K : forall s, existsb (Byte.eqb x3d) s = false -> existsb (Byte.eqb x25) s = false -> forall v w, percent_decode v = Some w -> param (assign (s, v)) = Some (s, w)).
  { intros s E1 E2 v w D. apply param_assign; auto; apply str_free; auto. }
  assert (D : forall n, percent_decode (enc_num n) = Some (enc_num n)) by (intro n; apply decode_plain, enc_num_free; vm_compute; auto).
  assert (AS : forall X Y (f : X -> option Y) l1 l2, all_some (map f (l1 ++ l2)) = match all_some (map f l1), all_some (map f l2) with Some a, Some b => Some (a ++ b) | _, _ => None end).
  { clear. intros X Y f l1 l2. induction l1 as [|x l1 IH]; cbn [app map all_some]; [destruct (all_some (map f l2)); reflexivity|].
    rewrite IH. destruct (f x); auto. destruct (all_some (map f l1)); auto. destruct (all_some (map f l2)); auto. }
  rewrite map_map. unfold raw_params, told. rewrite !AS.
  assert (E1 : all_some (map (fun x => param (assign x))
    [(str "info_hash", encode_binary (a_info_hash a)); (str "peer_id", encode_binary (a_peer_id a)); (str "port", enc_num (a_port a));
     (str "uploaded", enc_num (a_uploaded a)); (str "downloaded", enc_num (a_downloaded a)); (str "left", enc_num (a_left a));
     (str "compact", if a_compact a then str "1" else str "0")]) = Some
    [(str "info_hash", a_info_hash a); (str "peer_id", a_peer_id a); (str "port", enc_num (a_port a));
     (str "uploaded", enc_num (a_uploaded a)); (str "downloaded", enc_num (a_downloaded a)); (str "left", enc_num (a_left a));
     (str "compact", if a_compact a then str "1" else str "0")]).
  { cbn [map]. rewrite (K (str "info_hash") eq_refl eq_refl _ _ (decode_encode _)), (K (str "peer_id") eq_refl eq_refl _ _ (decode_encode _)).
    rewrite (K (str "port") eq_refl eq_refl _ _ (D _)), (K (str "uploaded") eq_refl eq_refl _ _ (D _)), (K (str "downloaded") eq_refl eq_refl _ _ (D _)), (K (str "left") eq_refl eq_refl _ _ (D _)).
    destruct (a_compact a); reflexivity. }
  rewrite E1.
  assert (E4 : all_some (map (fun x => param (assign x)) match a_tracker_id a with Some t => [(str "trackerid", t)] | None => [] end)
    = Some match a_tracker_id a with Some t => [(str "trackerid", t)] | None => [] end).
  { destruct (a_tracker_id a) as [t|]; [|reflexivity]. 
    assert (DT : percent_decode t = Some t); [|pose proof (K (str "trackerid") eq_refl eq_refl t t DT) as X; exact (f_equal (fun o => all_some [o]) X)].
    apply decode_plain. intro I. destruct (T t eq_refl _ I) as (_ & _ & X). congruence. }
  rewrite E4. destruct (a_compact a), (a_no_peer_id a), (a_event a) as [[]|]; reflexivity.
Qed.
Definition ex53 : announce :=
  mk_announce (str "http://example.com/announce") (repeat xff 20) (repeat x26 20) 6887 0 5 18446744073709551615 true true (Some Started) (Some (str "a=b?")).
Example C53_example : ~ In x3f (a_url ex53) /\ ~ In x23 (a_url ex53) /\ plain_text (str "a=b?") /\
  params (as_url ex53) = Some
   [(str "info_hash", repeat xff 20); (str "peer_id", repeat x26 20); (str "port", str "6887"); (str "uploaded", str "0"); (str "downloaded", str "5");
    (str "left", str "18446744073709551615"); (str "compact", str "1"); (str "event", str "started"); (str "trackerid", str "a=b?")].
Proof.
  split; [apply str_free; reflexivity|]. split; [apply str_free; reflexivity|]. split; [|vm_compute; reflexivity].
  intros b H. cbn in H. repeat (destruct H as [<-|H]; [repeat split; discriminate|]). destruct H.
Qed.
(** The conditions cannot be dropped. A private tracker has its key in the URL:
    the tracker then misses the info hash. *)
Theorem C53_url_refuted : exists a, a_tracker_id a = None /\ a_url a = str "http://example.com/announce?passkey=0123" /\
  exists l, params (as_url a) = Some l /\ ~ In (str "info_hash") (map fst l).
Proof.
  exists (mk_announce (str "http://example.com/announce?passkey=0123") (repeat x41 20) (repeat x42 20) 6881 0 0 0 true true None None).
  split; [reflexivity|]. split; [reflexivity|].
  exists [(str "passkey", str "0123?info_hash=AAAAAAAAAAAAAAAAAAAA"); (str "peer_id", repeat x42 20); (str "port", str "6881"); (str "uploaded", str "0");
          (str "downloaded", str "0"); (str "left", str "0"); (str "compact", str "1")].
  split; [vm_compute; reflexivity|]. cbn [map fst In]. intro H. repeat (destruct H as [H|H]; [vm_compute in H; discriminate H|]). destruct H.
Qed.
(** A tracker id chosen by the tracker can add parameters or make the URL
    undecodable. *)
Theorem C53_tracker_id_refuted :
  (exists a t, a_tracker_id a = Some t /\ utf8 t /\ ~ In x3f (a_url a) /\ ~ In x23 (a_url a) /\
     exists l, params (as_url a) = Some l /\ ~ In (str "trackerid", t) l /\ In (str "event", str "stopped") l /\ a_event a = None) /\
  (exists a t, a_tracker_id a = Some t /\ utf8 t /\ ~ In x3f (a_url a) /\ ~ In x23 (a_url a) /\ params (as_url a) = None).
Proof.
  split.
  - exists (mk_announce (str "http://t/a") [] [] 1 0 0 0 true true None (Some (str "x&event=stopped"))), (str "x&event=stopped").
    split; [reflexivity|]. split; [apply utf8_ok_iff; reflexivity|]. split; [apply str_free; reflexivity|]. split; [apply str_free; reflexivity|].
    exists [(str "info_hash", []); (str "peer_id", []); (str "port", str "1"); (str "uploaded", str "0"); (str "downloaded", str "0"); (str "left", str "0");
            (str "compact", str "1"); (str "trackerid", str "x"); (str "event", str "stopped")].
    split; [vm_compute; reflexivity|]. split; [|split; [|reflexivity]].
    + cbn [In]. intro H. repeat (destruct H as [H|H]; [vm_compute in H; discriminate H|]). destruct H.
    + cbn [In]. do 8 right. left. reflexivity.
  - exists (mk_announce (str "http://t/a") [] [] 1 0 0 0 true true None (Some (str "100%"))), (str "100%").
    split; [reflexivity|]. split; [apply utf8_ok_iff; reflexivity|]. split; [apply str_free; reflexivity|]. split; [apply str_free; reflexivity|]. vm_compute. reflexivity.
Qed.
Print Assumptions C53_parameters_partial.
Print Assumptions C53_url_refuted.
Print Assumptions C53_tracker_id_refuted.
