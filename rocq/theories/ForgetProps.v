(** C75-C77, exactly: whose answers are accepted, which datagrams are passed on
    to a requester, and which queries are remembered. *)
From Coq Require Import Strings.String.
From Coq Require Import List NArith ZArith Lia Bool Arith.
From Coq Require Import Init.Byte.
From Verif Require Import Base Assoc IdModel WireModel WireProofs TableModel BencodeModel BencodeSpec BencodeProofs BencodeProps KrpcModel Utf8Spec Utf8Proofs KrpcSpec KrpcProofs KrpcProps DhtModel DhtSpec DhtProps CrashSpec CrashProps ReadSpec ReadProps.
Import ListNotations.
Set Implicit Arguments.
Local Open Scope list_scope.
Local Notation bspec := bytes_eqb_eq.

Section forget.
Variable sha : bytes -> bytes.
Variables own secret : ID.
Local Notation Runs := (runs sha own secret).

(** ** C75 *)
(** An answer is passed on exactly if its id and its kind are those of an
    outstanding query, whoever sends it. *)
Theorem C75_exact : forall h s e from t y r req p, Runs h s ->
  ((exists s', dstep sha e s (EIn from (MResp t y r)) = Val (s', [OResp req p])) <->
   outstanding h t = Some (kind_answered r, req) /\ e_alive e req = true /\ p = told r from).
Proof.
  intros h s e from t y r req p R. split.
  - intros (s' & D). pose proof D as D0. destruct (@C41_delivery _ _ _ _ _ _ _ _ _ _ _ _ R D) as [(rq & O & E)|(_ & E & _)]; [|discriminate].
    injection E as -> ->. split; auto. split; auto. destruct (runs_inv R) as (_ & _ & _ & P). rewrite dstep_resp, (P t), O in D0.
    rewrite (proj2 (kind_eqb_eq _ _) eq_refl) in D0. destruct (e_alive e rq); auto; discriminate.
  - intros (O & A & ->). eapply C41_progress; eauto.
Qed.
(** In particular, from anyone if from anybody. *)
Theorem C75_anyone_always : forall h s e a b t y r req, Runs h s ->
  (exists s', dstep sha e s (EIn a (MResp t y r)) = Val (s', [OResp req (told r a)])) ->
  exists s', dstep sha e s (EIn b (MResp t y r)) = Val (s', [OResp req (told r b)]).
Proof. intros h s e a b t y r req R H. apply (@C75_exact h s e a t y r req (told r a) R) in H. apply (@C75_exact h s e b t y r req (told r b) R). tauto. Qed.

(** ** C76 *)
(** The datagrams that lead to something being passed on to a requester. *)
Theorem C76_exact : forall h s e buf a dg req p, Runs h s ->
  ((exists s' buf', on_datagram sha e s buf (Some a) dg = Val (s', buf', [OResp req p])) <->
   exists v tl t y r, recv_into buf dg = enc v ++ tl /\ ordered v /\ nest v <= MAX_DEPTH /\ ints_ok v = true /\ ~ deadly v /\ reads v (MResp t y r) /\
     outstanding h t = Some (kind_answered r, req) /\ e_alive e req = true /\ p = told r a).
Proof.
  intros h s e buf a dg req p R. unfold on_datagram. split.
  - intros (s' & buf' & H). destruct (kmsg_from_bytes (recv_into buf dg)) as [m| |] eqn:K; try discriminate.
    destruct (dstep sha e s (EIn a m)) as [[s1 o]| |] eqn:D; try discriminate. cbn [rmap fst snd] in H. injection H as <- _ ->.
    destruct (@C41_only_responses sha e s _ _ _ req p D (or_introl eq_refl)) as (a' & t & y & r & E & _). injection E as -> ->.
    apply C118_exact in K. destruct K as (v & tl & E & OR & NE & IN & ND & RD).
    assert (exists s', dstep sha e s (EIn a' (MResp t y r)) = Val (s', [OResp req p])) as X by eauto. apply (@C75_exact h s e a' t y r req p R) in X.
    exists v, tl, t, y, r. tauto.
  - intros (v & tl & t & y & r & E & OR & NE & IN & ND & RD & X). apply (@C75_exact h s e a t y r req p R) in X. destruct X as (s' & X).
    assert (kmsg_from_bytes (recv_into buf dg) = Val (MResp t y r)) as K by (apply C118_exact; exists v, tl; auto 10).
    rewrite K, X. cbn [rmap fst snd]. eauto.
Qed.
(** The kind an answer is taken for, by its contents: never an answer to an
    announce. *)
Theorem C76_kind_exact : forall v r, is_resp v r ->
  (kind_answered r = KGetPeers <-> exists d x, v = BDict d /\ r_peers d x) /\
  (kind_answered r = KFindNode <-> exists d, v = BDict d /\ (forall x, ~ r_peers d x) /\ exists x, r_found d x) /\
  (kind_answered r = KPing <-> exists d, v = BDict d /\ (forall x, ~ r_peers d x) /\ forall x, ~ r_found d x) /\
  kind_answered r <> KAnnounce.
Proof.
  intros v r (d & -> & H). cbn [first_of] in H.
  assert (forall x, r_peers d x -> kind_answered x = KGetPeers) as K1 by (intros x (id & t & w & -> & _); reflexivity).
  assert (forall x, r_found d x -> kind_answered x = KFindNode) as K2 by (intros x (id & n & -> & _); reflexivity).
  assert (forall x, r_pong d x -> kind_answered x = KPing) as K3 by (intros x (id & -> & _); reflexivity).
  destruct H as [P|(NP & [F|(NF & [G|[_ []]])])].
  - rewrite (K1 _ P). split; [split; eauto|]. split; [split; [discriminate|]; intros (d' & E & N & _); injection E as <-; destruct (N _ P)|].
    split; [split; [discriminate|]; intros (d' & E & N & _); injection E as <-; destruct (N _ P)|discriminate].
  - rewrite (K2 _ F). split; [split; [discriminate|]; intros (d' & x & E & N); injection E as <-; destruct (NP _ N)|].
    split; [split; eauto 6|]. split; [split; [discriminate|]; intros (d' & E & _ & N); injection E as <-; destruct (N _ F)|discriminate].
  - rewrite (K3 _ G). split; [split; [discriminate|]; intros (d' & x & E & N); injection E as <-; destruct (NP _ N)|].
    split; [split; [discriminate|]; intros (d' & E & _ & x & N); injection E as <-; destruct (NF _ N)|]. split; [split; eauto|discriminate].
Qed.

(** ** C77 *)
(** Exactly the queries not answered since they were sent are remembered. *)
Theorem C77_exact : forall h s t, Runs h s -> NoDup (map fst (d_pending s)) /\ (In t (map fst (d_pending s)) <-> outstanding h t <> None).
Proof.
  intros h s t R. destruct (runs_inv R) as (_ & _ & N & P). split; [exact N|]. rewrite <- (P t). change (map fst (d_pending s)) with (keys (d_pending s)).
  rewrite (mget_none _ bspec). destruct (in_dec (list_eq_dec Byte.byte_eq_dec) t (keys (d_pending s))); tauto.
Qed.
(** Queries sent; answers passed on; queries sent with the id of a query that
    was still unanswered. *)
Definition sent (h : history) : nat := length (filter (fun xo => match fst xo with EQuery _ _ _ _ => true | _ => false end) h).
Definition passed_on (h : history) : nat := length (filter is_delivery (flat_map snd h)).
Fixpoint same_id (h : history) : nat :=
  match h with
  | [] => 0
  | (EQuery _ _ _ t, _) :: h' => (match outstanding h' t with Some _ => 1 | None => 0 end) + same_id h'
  | _ :: h' => same_id h'
  end.
Lemma none_filter : forall o, (forall z, In z o -> is_delivery z = false) -> filter is_delivery o = [].
Proof. induction o as [|a o IH]; intro H; auto. cbn. rewrite (H a (or_introl eq_refl)). apply IH. intros; apply H; right; auto. Qed.
Theorem C77_count_exact : forall h s, Runs h s -> length (d_pending s) + passed_on h + same_id h = sent h.
Proof.
  induction 1 as [|h s e x s' o R IH D]; [reflexivity|].
  destruct (runs_inv R) as (_ & _ & N & P).
  unfold passed_on, sent in *. cbn [flat_map snd filter fst same_id]. rewrite filter_app, app_length.
  destruct x as [req a q t|a t r|from [t y q a|t y r|t y er]].
  - rewrite dstep_query in D. injection D as <- <-. cbn [d_pending filter is_delivery length]. rewrite (length_mset bytes_eqb). unfold mhas. rewrite (P t).
    destruct (outstanding h t); lia.
  - destruct (dstep_other _ _ _ _ D I) as (-> & F). rewrite none_filter by auto. exact IH.
  - destruct (dstep_other _ _ _ _ D I) as (-> & F). rewrite none_filter by auto. exact IH.
  - rewrite dstep_resp in D. destruct (mget bytes_eqb t (d_pending s)) as [[k req]|] eqn:G; [|injection D as <- <-; exact IH].
    destruct (kind_eqb k (kind_answered r)); [|injection D as <- <-; exact IH].
    destruct (e_alive e req); [|discriminate]. injection D as <- <-. cbn [d_pending filter is_delivery length].
    rewrite (length_mdel bytes_eqb). unfold mhas. rewrite G.
    destruct (d_pending s); [discriminate|]. cbn [length] in *. lia.
  - destruct (dstep_other _ _ _ _ D I) as (-> & F). rewrite none_filter by auto. exact IH.
Qed.
(** With ids that are not in use, the queries remembered are bounded exactly by
    those left unanswered. *)
Theorem C77_unanswered_partial : forall h s, Runs h s -> same_id h = 0 -> length (d_pending s) = sent h - passed_on h.
Proof. intros h s R E. pose proof (C77_count_exact R). lia. Qed.
End forget.

Example C77_example : runs ex_sha ex_own ex_sec ex_hist (mk_dcon ex_own ex_sec []) /\ sent ex_hist = 1 /\ passed_on ex_hist = 1 /\ same_id ex_hist = 0.
Proof. split; [exact ex_runs|]. repeat split. Qed.
Example C76_kind_example : is_resp (BDict [(str "id", BStr (repeat x00 20))]) (RPing (repeat x00 20)).
Proof. apply resp_val; [discriminate|reflexivity]. Qed.
Print Assumptions C75_exact.
Print Assumptions C76_exact.
Print Assumptions C76_kind_exact.
Print Assumptions C77_exact.
Print Assumptions C77_count_exact.
