(** C41-C43 and C74-C77: the DHT socket task. *)
From Coq Require Import Strings.String.
From Coq Require Import List NArith ZArith Lia Bool Arith.
From Coq Require Import Init.Byte.
From Verif Require Import Base Assoc IdModel WireModel WireProofs TableModel BencodeModel BencodeSpec BencodeProofs BencodeProps KrpcModel Utf8Spec Utf8Proofs KrpcSpec KrpcProofs KrpcProps DhtModel DhtSpec.
Import ListNotations.
Set Implicit Arguments.
Local Open Scope list_scope.
Local Notation bspec := bytes_eqb_eq.

Lemma kind_eqb_eq : forall a b, kind_eqb a b = true <-> a = b.
Proof. intros [] []; split; intro H; try reflexivity; discriminate. Qed.
Lemma kind_args : forall own t q, kind_of_msg (query_message own t q) = Val (kind_asked q).
Proof. intros own t []; reflexivity. Qed.
Lemma tid_query : forall own t q, tid (query_message own t q) = t.
Proof. intros own t []; reflexivity. Qed.
Lemma kind_resp : forall r, kind_of_resp r = kind_answered r.
Proof. intros []; reflexivity. Qed.
Lemma payload_told : forall r from, payload r from = told r from.
Proof. intros [] from; reflexivity. Qed.

(** ** lengths *)
Lemma digits_ge : forall s acc, (acc * 10 ^ N.of_nat (length s) <= fold_left (fun acc b => 10 * acc + (b2n b - 48))%N s acc)%N.
Proof.
  induction s as [|b s IH]; intro acc; cbn [fold_left length]; [rewrite N.pow_0_r; lia|].
  rewrite Nat2N.inj_succ, N.pow_succ_r'. specialize (IH (10 * acc + (b2n b - 48)))%N. nia.
Qed.
Lemma enc_num_len : forall n k, (n < 10 ^ N.of_nat k)%N -> k <> 0 -> length (enc_num n) <= k.
Proof.
  intros n k H K. destruct (C39_decimal n) as (V & F & Z & E). destruct (enc_num n) as [|c t] eqn:En; [congruence|].
  destruct (byte_eqb c x30) eqn:C.
  - apply byte_eqb_eq in C. subst c. destruct (Z t eq_refl) as (_ & ->). cbn. lia.
  - pose proof (Forall_inv F) as D. unfold is_digit in D.
    assert (b2n c <> 48)%N as N48. { intro Q. change 48%N with (b2n x30) in Q. apply b2n_inj in Q. subst c. rewrite byte_eqb_refl in C. discriminate. }
    unfold digits_value in V. cbn [fold_left] in V. pose proof (digits_ge t (10 * 0 + (b2n c - 48))%N) as G. rewrite V in G.
    cbn [length]. assert (10 ^ N.of_nat (length t) < 10 ^ N.of_nat k)%N as L by nia.
    apply N.pow_lt_mono_r_iff in L; lia.
Qed.
Lemma ostr_len : forall s k, (N.of_nat (length s) < 10 ^ N.of_nat k)%N -> k <> 0 -> length (ostr s) <= k + 1 + length s.
Proof. intros s k H K. unfold ostr. rewrite !app_length. cbn [length]. pose proof (@enc_num_len _ _ H K). lia. Qed.

Section conn.
Variable sha : bytes -> bytes.
Variables own secret : ID.
Notation Runs := (runs sha own secret).

Lemma dstep_query : forall e s req a q t, dstep sha e s (EQuery req a q t) =
  Val (mk_dcon (d_own s) (d_secret s) (mset bytes_eqb t (kind_asked q, req) (d_pending s)), [OSend a (query_message (d_own s) t q)]).
Proof. intros. cbn [dstep]. unfold send_query. rewrite kind_args. cbn [rbind]. rewrite tid_query. reflexivity. Qed.
Lemma dstep_resp : forall e s from t y r, dstep sha e s (EIn from (MResp t y r)) =
  match mget bytes_eqb t (d_pending s) with
  | Some (k, req) =>
    if kind_eqb k (kind_answered r)
    then if e_alive e req then Val (mk_dcon (d_own s) (d_secret s) (mdel bytes_eqb t (d_pending s)), [OResp req (told r from)]) else Panic
    else Val (s, [])
  | None => Val (s, [])
  end.
Proof.
  intros e [o sec p] from t y r. cbn [dstep]. unfold handle_resp, pend_get. cbn [d_pending d_own d_secret].
  rewrite kind_resp, payload_told. destruct (mget bytes_eqb t p) as [[k req]|]; auto. destruct (kind_eqb k (kind_answered r)); reflexivity.
Qed.
(** Other events deliver nothing and leave the state alone. *)
Lemma dstep_other : forall e s x s' o, dstep sha e s x = Val (s', o) ->
  match x with EQuery _ _ _ _ => False | EIn _ (MResp _ _ _) => False | _ => True end ->
  s' = s /\ forall z, In z o -> is_delivery z = false.
Proof.
  intros e s x s' o H X. destruct x as [| |from [t y q a|t y r|t y er]]; try contradiction; cbn [dstep] in H.
  - unfold send_reply in H. injection H as <- <-. split; auto. intros z [<-|[]]. reflexivity.
  - destruct a as [id ih p tk|id tg|id ih|id]; cbn [handle_query] in H; unfold to_listener, send_reply in H.
    + destruct (token_is_valid sha s tk from); [|injection H as <- <-; split; auto; intros z []].
      destruct (e_listener e); [|discriminate]. cbn [rbind fst snd app] in H. injection H as <- <-. split; auto. intros z [<-|[<-|[]]]; reflexivity.
    + destruct (e_listener e); [|discriminate]. injection H as <- <-. split; auto. intros z [<-|[]]. reflexivity.
    + destruct (e_listener e); [|discriminate]. injection H as <- <-. split; auto. intros z [<-|[]]. reflexivity.
    + injection H as <- <-. split; auto. intros z [<-|[]]. reflexivity.
  - injection H as <- <-. split; auto. intros z [].
Qed.
Lemma existsb_none : forall o, (forall z, In z o -> is_delivery z = false) -> existsb is_delivery o = false.
Proof. induction o as [|a o IH]; intro H; auto. cbn. rewrite (H a (or_introl eq_refl)). apply IH. intros; apply H; right; auto. Qed.

Lemma runs_inv : forall h s, Runs h s ->
  d_own s = own /\ d_secret s = secret /\ NoDup (keys (d_pending s)) /\ forall t, mget bytes_eqb t (d_pending s) = outstanding h t.
Proof.
  induction 1 as [|h s e x s' o R IH D].
  - cbn. repeat split; auto. constructor.
  - destruct IH as (IO & IS & IN & IP).
    destruct x as [req a q t|a t r|from [t y q a|t y r|t y er]].
    + rewrite dstep_query in D. injection D as <- <-. cbn [d_own d_secret d_pending].
      split; [auto|]. split; [auto|]. split; [apply (NoDup_mset _ bspec); auto|]. intro t'. cbn [outstanding].
      destruct (bytes_eqb t' t) eqn:E.
      * apply bspec in E. subst. apply (mget_mset_same _ bspec).
      * rewrite (mget_mset_other _ bspec); auto. apply bytes_eqb_neq. auto.
    + destruct (dstep_other _ _ _ D I) as (-> & _). auto.
    + destruct (dstep_other _ _ _ D I) as (-> & _). auto.
    + rewrite dstep_resp in D. cbn [outstanding].
      destruct (mget bytes_eqb t (d_pending s)) as [[k req]|] eqn:G.
      * destruct (kind_eqb k (kind_answered r)).
        -- destruct (e_alive e req); [|discriminate]. injection D as <- <-. cbn [d_own d_secret d_pending existsb is_delivery orb].
           split; [auto|]. split; [auto|]. split; [apply NoDup_mdel; auto|]. intro t'. rewrite andb_true_r.
           destruct (bytes_eqb t' t) eqn:E.
           ++ apply bspec in E. subst. apply (mget_mdel_same _ bspec); auto.
           ++ rewrite (mget_mdel_other _ bspec); auto. apply bytes_eqb_neq. auto.
        -- injection D as <- <-. cbn [existsb]. repeat split; auto. intro t'. rewrite andb_false_r. auto.
      * injection D as <- <-. cbn [existsb]. repeat split; auto. intro t'. rewrite andb_false_r. auto.
    + destruct (dstep_other _ _ _ D I) as (-> & _). auto.
Qed.

(** ** C41 *)
(** A response is passed on, once, to exactly the task whose query with this
    transaction id and kind is outstanding; otherwise nothing happens at all. *)
Theorem C41_delivery : forall h s e from t y r s' o, Runs h s -> dstep sha e s (EIn from (MResp t y r)) = Val (s', o) ->
  (exists req, outstanding h t = Some (kind_answered r, req) /\ o = [OResp req (told r from)]) \/
  ((forall req, outstanding h t <> Some (kind_answered r, req)) /\ o = [] /\ s' = s).
Proof.
  intros h s e from t y r s' o R D. destruct (runs_inv R) as (_ & _ & _ & P). rewrite dstep_resp, (P t) in D.
  destruct (outstanding h t) as [[k req]|]; [|right; injection D as <- <-; repeat split; auto; discriminate].
  destruct (kind_eqb k (kind_answered r)) eqn:K.
  - apply kind_eqb_eq in K. subst k. destruct (e_alive e req); [|discriminate]. injection D as _ <-. left. exists req. auto.
  - right. injection D as <- <-. repeat split; auto. intros r' H. injection H as -> _.
    rewrite (proj2 (kind_eqb_eq _ _) eq_refl) in K. discriminate.
Qed.
(** While the requester exists, an answer to an outstanding request reaches it. *)
Theorem C41_progress : forall h s e from t y r req, Runs h s -> outstanding h t = Some (kind_answered r, req) -> e_alive e req = true ->
  exists s', dstep sha e s (EIn from (MResp t y r)) = Val (s', [OResp req (told r from)]).
Proof.
  intros h s e from t y r req R O A. destruct (runs_inv R) as (_ & _ & _ & P). rewrite dstep_resp, (P t), O.
  rewrite (proj2 (kind_eqb_eq _ _) eq_refl), A. eauto.
Qed.
(** Nothing else is ever passed on to a requester. *)
Theorem C41_only_responses : forall e s x s' o req p, dstep sha e s x = Val (s', o) -> In (OResp req p) o ->
  exists from t y r, x = EIn from (MResp t y r) /\ p = told r from.
Proof.
  intros e s x s' o req p D I0. destruct x as [req' a q t|a t r|from [t y q a|t y r|t y er]];
    try (destruct (dstep_other _ _ _ D I) as (_ & H); specialize (H _ I0); discriminate).
  - rewrite dstep_query in D. injection D as _ <-. destruct I0 as [H|[]]. discriminate.
  - rewrite dstep_resp in D. exists from, t, y, r. split; auto. destruct (mget bytes_eqb t (d_pending s)) as [[k rq]|]; [|injection D as _ <-; destruct I0].
    destruct (kind_eqb k (kind_answered r)); [|injection D as _ <-; destruct I0]. destruct (e_alive e rq); [|discriminate].
    injection D as _ <-. destruct I0 as [H|[]]. congruence.
Qed.
(** Two answers with the same transaction id are passed on only if the id was
    asked again in between. *)
Lemma outstanding_some : forall h t kr, outstanding h t = Some kr -> exists x o, In (x, o) h /\ exists req a q, x = EQuery req a q t /\ kr = (kind_asked q, req).
Proof.
  induction h as [|[x o] h IH]; intros t kr H; [discriminate|]. cbn [outstanding] in H.
  assert (outstanding h t = Some kr -> exists x' o', In (x', o') ((x, o) :: h) /\ exists req a q, x' = EQuery req a q t /\ kr = (kind_asked q, req)) as L.
  { intro O. destruct (IH _ _ O) as (x' & o' & I1 & I2). exists x', o'. split; [right; auto|auto]. }
  destruct x as [req a q t'|a t' r|from [t' y q a|t' y r|t' y er]]; auto.
  - destruct (bytes_eqb t t') eqn:E; auto. apply bspec in E. subst t'. injection H as <-. exists (EQuery req a q t), o. split; [left; auto|]. exists req, a, q. auto.
  - destruct (bytes_eqb t t' && existsb is_delivery o); [discriminate|auto].
Qed.
Lemma runs_tail : forall h1 h2 s, Runs (h1 ++ h2) s -> exists s', Runs h2 s'.
Proof. induction h1 as [|x h1 IH]; intros h2 s R; [eauto|]. inversion R; subst. eauto. Qed.
Theorem C41_at_most_once : forall h2 h1 h0 s f1 t y1 r1 o1 f2 y2 r2 o2,
  Runs (h2 ++ (EIn f2 (MResp t y2 r2), o2) :: h1 ++ (EIn f1 (MResp t y1 r1), o1) :: h0) s -> o1 <> [] -> o2 <> [] ->
  exists req a q o, In (EQuery req a q t, o) h1 /\ o2 = [OResp req (told r2 f2)] /\ kind_asked q = kind_answered r2.
Proof.
  intros h2 h1 h0 s f1 t y1 r1 o1 f2 y2 r2 o2 R N1 N2. apply runs_tail in R. destruct R as (s2 & R).
  inversion R as [|hh s1 e x s' o R1 D]; subst.
  destruct (@C41_delivery _ _ _ _ _ _ _ _ _ R1 D) as [(req & O & ->)|(_ & -> & _)]; [|congruence].
  pose proof R1 as R1'. apply runs_tail in R1'. destruct R1' as (s0 & R0). inversion R0 as [|hh s1' e' x' s'' o' R0' D0]; subst.
  assert (existsb is_delivery o1 = true) as DD.
  { destruct (@C41_delivery _ _ _ _ _ _ _ _ _ R0' D0) as [(rq & _ & ->)|(_ & -> & _)]; [reflexivity|congruence]. }
  assert (exists q a o, In (EQuery req a q t, o) h1 /\ kind_asked q = kind_answered r2) as (q & a & o & I1 & K).
  { clear -O DD. revert O. induction h1 as [|[x o] h IH]; intro O.
    - cbn [app outstanding] in O. rewrite bytes_eqb_refl, DD in O. discriminate.
    - assert (outstanding (h ++ (EIn f1 (MResp t y1 r1), o1) :: h0) t = Some (kind_answered r2, req) ->
        exists q a o', In (EQuery req a q t, o') ((x, o) :: h) /\ kind_asked q = kind_answered r2) as L.
      { intro O'. destruct (IH O') as (q & a & o' & I1 & K). exists q, a, o'. split; [right|]; auto. }
      cbn [app outstanding] in O. destruct x as [rq a q t'|a t' r|from [t' y q a|t' y r|t' y er]]; auto.
      + destruct (bytes_eqb t t') eqn:E; auto. apply bspec in E. subst t'. injection O as K <-. exists q, a, o. split; [left; auto|]. auto.
      + destruct (bytes_eqb t t' && existsb is_delivery o); [discriminate|auto]. }
  exists req, a, q, o. auto.
Qed.
(** A task is never given more answers than it asked questions. *)
Lemma pend_count_set : forall req t k r0 (p : pending), length (filter (fun e => snd (snd e) =? req) (mset bytes_eqb t (k, r0) p)) <=
  (if r0 =? req then 1 else 0) + length (filter (fun e => snd (snd e) =? req) p).
Proof.
  intros req t k r0 p. induction p as [|[t' [k' r']] p IH]; cbn [mset filter snd]; [destruct (r0 =? req); cbn; lia|].
  destruct (bytes_eqb t t'); cbn [filter snd]; destruct (r0 =? req), (r' =? req); cbn [length]; try lia.
Qed.
Lemma pend_count_del : forall req t k r0 (p : pending), mget bytes_eqb t p = Some (k, r0) ->
  (if r0 =? req then 1 else 0) + length (filter (fun e => snd (snd e) =? req) (mdel bytes_eqb t p)) = length (filter (fun e => snd (snd e) =? req) p).
Proof.
  intros req t k r0 p. induction p as [|[t' [k' r']] p IH]; cbn [mget mdel filter snd]; [discriminate|].
  destruct (bytes_eqb t t').
  - intro H. injection H as -> ->. destruct (r0 =? req); reflexivity.
  - intro H. specialize (IH H). cbn [filter snd]. destruct (r' =? req); cbn [length]; lia.
Qed.
Lemma no_delivery : forall req o, (forall z, In z o -> is_delivery z = false) -> filter (delivered_to req) o = [].
Proof.
  induction o as [|a o IH]; intro H; auto. cbn [filter]. pose proof (H a (or_introl eq_refl)). destruct a; try discriminate; cbn; apply IH; intros; apply H; right; auto.
Qed.
Theorem C41_counts : forall h s req, Runs h s -> deliveries req h <= queries req h.
Proof.
  intros h s req R. enough (deliveries req h + length (filter (fun e => snd (snd e) =? req) (d_pending s)) <= queries req h) by lia.
  unfold deliveries, queries. induction R as [|h s e x s' o R IH D]; [cbn; lia|]. cbn [map fst flat_map snd]. rewrite filter_app, app_length.
  cbn [filter]. destruct x as [rq a q t|a t r|from [t y q a|t y r|t y er]]; cbn [asked_by].
  - rewrite dstep_query in D. injection D as <- <-. cbn [d_pending filter delivered_to length].
    pose proof (pend_count_set req t (kind_asked q) rq (d_pending s)). destruct (rq =? req); cbn [length] in *; lia.
  - destruct (dstep_other _ _ _ D I) as (-> & N). rewrite (no_delivery req _ N). cbn. lia.
  - destruct (dstep_other _ _ _ D I) as (-> & N). rewrite (no_delivery req _ N). cbn. lia.
  - rewrite dstep_resp in D. destruct (mget bytes_eqb t (d_pending s)) as [[k rq]|] eqn:G; [|injection D as <- <-; cbn; lia].
    destruct (kind_eqb k (kind_answered r)); [|injection D as <- <-; cbn; lia]. destruct (e_alive e rq); [|discriminate].
    injection D as <- <-. pose proof (@pend_count_del req t k rq _ G). cbn [d_pending filter delivered_to]. destruct (rq =? req); cbn [length]; lia.
  - destruct (dstep_other _ _ _ D I) as (-> & N). rewrite (no_delivery req _ N). cbn. lia.
Qed.

(** ** C42 *)
Definition same_ip (a b : addr) : Prop := addr_octets a = addr_octets b.
(** A token handed out in a peers response, at any time, is accepted in an
    announce from the same address: the peer is stored with the announced port,
    and the announce answered. *)
Theorem C42_accepted : forall h s e a t v o, Runs h s -> In (EReply a t (PGetPeers v), o) h -> e_listener e = true ->
  exists tk, o = [OSend a (get_peers_resp own tk v t)] /\
  forall b t2 y name id ih p, same_ip a b ->
    dstep sha e s (EIn b (MQuery t2 y name (AAnnounce id ih p tk))) =
      Val (s, [ONewPeer (mk_addr (ip0 b) (ip1 b) (ip2 b) (ip3 b) p) ih; OSend b (announce_peer_resp own t2)]).
Proof.
  intros h s e a t v o R I0 L. exists (sha (secret ++ addr_octets a)). split.
  - apply in_split in I0. destruct I0 as (h2 & h1 & ->). apply runs_tail in R. destruct R as (s1 & R). inversion R as [|hh s0 e0 x s' o' R0 D]; subst.
    destruct (runs_inv R0) as (O & S & _). cbn [dstep] in D. unfold send_reply, token_for in D. rewrite O, S in D. injection D as _ <-. reflexivity.
  - intros b t2 y name id ih p E. destruct (runs_inv R) as (O & S & _). cbn [dstep handle_query]. unfold token_is_valid, token_for. rewrite S, E, bytes_eqb_refl.
    unfold to_listener. rewrite L. cbn [rbind fst snd app]. unfold send_reply. rewrite O. reflexivity.
Qed.
(** An announce carrying anything but the token this address would be given
    right now does nothing. *)
Theorem C42_rejected : forall h s e e' b t v s' tk, Runs h s ->
  dstep sha e s (EReply b t (PGetPeers v)) = Val (s', [OSend b (get_peers_resp own tk v t)]) ->
  forall tk' t2 y name id ih p, tk' <> tk -> dstep sha e' s (EIn b (MQuery t2 y name (AAnnounce id ih p tk'))) = Val (s, []).
Proof.
  intros h s e e' b t v s' tk R D tk' t2 y name id ih p N. destruct (runs_inv R) as (O & S & _).
  cbn [dstep] in D. unfold send_reply in D. rewrite O in D. injection D as _ E. cbn [dstep handle_query]. unfold token_is_valid.
  replace (bytes_eqb tk' (token_for sha s b)) with false; auto. symmetry. apply bytes_eqb_neq. congruence.
Qed.
(** So a token handed to another address is refused, unless the hash collides. *)
Theorem C42_other_ip : forall h s e a b t v o, Runs h s -> In (EReply a t (PGetPeers v), o) h ->
  sha (secret ++ addr_octets a) <> sha (secret ++ addr_octets b) ->
  forall tk t2 y name id ih p, o = [OSend a (get_peers_resp own tk v t)] -> dstep sha e s (EIn b (MQuery t2 y name (AAnnounce id ih p tk))) = Val (s, []).
Proof.
  intros h s e a b t v o R I0 N tk t2 y name id ih p E. pose proof I0 as I1. apply in_split in I1. destruct I1 as (h2 & h1 & ->). pose proof R as R'. apply runs_tail in R'. destruct R' as (s1 & R').
  inversion R' as [|hh s0 e0 x s' o' R0 D]; subst. destruct (runs_inv R0) as (O & S & _). cbn [dstep] in D. unfold send_reply, token_for in D. rewrite O, S in D.
  injection D as _ E2. destruct (runs_inv R) as (O' & S' & _). cbn [dstep handle_query]. unfold token_is_valid, token_for. rewrite S'.
  replace (bytes_eqb tk (sha (secret ++ addr_octets b))) with false; auto. symmetry. apply bytes_eqb_neq. congruence.
Qed.

(** ** datagrams *)
Lemma recv_len : forall buf dg, length buf = BUF_LEN -> length (recv_into buf dg) = BUF_LEN.
Proof. intros buf dg H. unfold recv_into. rewrite app_length, firstn_length, skipn_length. lia. Qed.
Lemma recv_short : forall buf dg, length dg <= BUF_LEN -> recv_into buf dg = dg ++ skipn (length dg) buf.
Proof. intros buf dg H. unfold recv_into. rewrite firstn_all2 by auto. reflexivity. Qed.
Lemma on_message : forall e s buf a m, wf_kmsg m -> length (kmsg_bytes m) <= BUF_LEN ->
  on_datagram sha e s buf (Some a) (kmsg_bytes m) =
    rmap (fun so => (fst so, recv_into buf (kmsg_bytes m), snd so)) (dstep sha e s (EIn a (seen m))).
Proof. intros e s buf a m W L. unfold on_datagram. rewrite recv_short by auto. rewrite round_trip by auto. reflexivity. Qed.

(** The token exchange over the wire: what another node reads from our answer
    and sends back in an announce, in any receive buffer, is accepted. *)
Theorem C42_wire : forall h s e a t v o tl buf, Runs h s -> In (EReply a t (PGetPeers v), o) h -> e_listener e = true -> wf_id own -> wf_von v ->
  exists m tk v' , o = [OSend a m] /\ kmsg_from_bytes (kmsg_bytes m ++ tl) = Val (get_peers_resp own tk v' t) /\
  forall b t2 id ih p, same_ip a b -> wf_id id -> wf_id ih -> (p < 65536)%N ->
    let dg := kmsg_bytes (announce_peer_query id ih p tk t2) in
    length dg <= 2600 ->
    on_datagram sha e s buf (Some b) dg =
      Val (s, recv_into buf dg, [ONewPeer (mk_addr (ip0 b) (ip1 b) (ip2 b) (ip3 b) p) ih; OSend b (announce_peer_resp own t2)]).
Proof.
  intros h s e a t v o tl buf R I0 L Wo Wv. destruct (@C42_accepted _ _ e _ _ _ _ R I0 L) as (tk & -> & H).
  exists (get_peers_resp own tk v t), tk, (match v with VValues l => VValues l | VNodes n => VNodes (seen_nodes n) end).
  split; [reflexivity|]. split.
  - rewrite round_trip by (split; [reflexivity|]; split; auto). destruct v; reflexivity.
  - intros b t2 id ih p E Wi Wh P dg Lg. subst dg. rewrite on_message; [|split; [reflexivity|]; split; [apply utf8_ok_iff; reflexivity|]; split; [auto|split; auto]|auto].
    change (seen (announce_peer_query id ih p tk t2)) with (MQuery t2 x71 (str "announce_peer") (AAnnounce id ih p tk)). rewrite H by auto. reflexivity.
Qed.

(** ** C74 *)
Lemma decode_app : forall s v tl x, decode s = Some (v, tl) -> decode (s ++ x) = Some (v, tl ++ x).
Proof.
  intros s v tl x H. apply decode_inv in H. destruct H as (-> & O & N). rewrite <- app_assoc. apply decode_enc; auto.
Qed.
(** A datagram that is a complete message is handled the same whatever was
    received before it. *)
Theorem C74_own_bytes_partial : forall e s b1 b2 from dg, length dg <= 2600 -> decode dg <> None ->
  rmap (fun r => (fst (fst r), snd r)) (on_datagram sha e s b1 from dg) = rmap (fun r => (fst (fst r), snd r)) (on_datagram sha e s b2 from dg).
Proof.
  intros e s b1 b2 from dg L D. unfold on_datagram. rewrite !recv_short by auto. destruct from as [a|]; auto.
  unfold kmsg_from_bytes. destruct (decode dg) as [[v tl]|] eqn:E; [|congruence]. rewrite !(@decode_app _ _ _ _ E).
  destruct (ints_ok v); auto. destruct (p_kmsg v) as [m| |]; auto. cbn [rmap]. destruct (dstep sha e s (EIn a m)) as [[? ?]| |]; reflexivity.
Qed.
(** Full statement; false: the rest of an earlier datagram completes a later
    one that is cut short, on behalf of its sender. *)
Definition C74_own_bytes_always : Prop := forall e s b1 b2 from dg, length b1 = 2600 -> length b2 = 2600 -> length dg <= 2600 ->
  rmap (fun r => (fst (fst r), snd r)) (on_datagram sha e s b1 from dg) = rmap (fun r => (fst (fst r), snd r)) (on_datagram sha e s b2 from dg).
Lemma recv_prefix : forall buf dg k, length buf = BUF_LEN -> length dg <= BUF_LEN -> recv_into (recv_into buf dg) (firstn k dg) = recv_into buf dg.
Proof.
  intros buf dg k B L. rewrite (@recv_short (recv_into buf dg)) by (rewrite firstn_length; lia). rewrite !recv_short by auto.
  destruct (le_lt_dec (length dg) k) as [K|K].
  - rewrite firstn_all2 by auto. f_equal. rewrite skipn_app, skipn_all, Nat.sub_diag. reflexivity.
  - rewrite firstn_length_le by lia. rewrite skipn_app. replace (k - length dg) with 0 by lia. cbn [skipn]. rewrite app_assoc, firstn_skipn. reflexivity.
Qed.
Theorem C74_refuted :
  (forall e s buf dg k a, length buf = 2600 -> length dg <= 2600 ->
     on_datagram sha e s (recv_into buf dg) (Some a) (firstn k dg) = on_datagram sha e s buf (Some a) dg) /\
  (forall e s a, on_datagram sha e s new_buf (Some a) [] = Val (s, new_buf, [])) /\
  (forall e s buf id t a b, length buf = 2600 -> wf_id id -> length t <= 2000 ->
     let dg := kmsg_bytes (ping_query id t) in
     exists buf', on_datagram sha e s buf (Some a) dg = Val (s, buf', [OSend a (ping_resp (d_own s) t)]) /\
       on_datagram sha e s buf' (Some b) [] = Val (s, buf', [OSend b (ping_resp (d_own s) t)])) /\
  ~ C74_own_bytes_always.
Proof.
  assert (forall e s buf dg k a, length buf = BUF_LEN -> length dg <= BUF_LEN ->
     on_datagram sha e s (recv_into buf dg) (Some a) (firstn k dg) = on_datagram sha e s buf (Some a) dg) as A.
  { intros e s buf dg k a B L. unfold on_datagram. rewrite recv_prefix by auto. reflexivity. }
  assert (forall e s a, on_datagram sha e s new_buf (Some a) [] = Val (s, new_buf, [])) as Z.
  { intros e s a. unfold on_datagram, recv_into. rewrite firstn_nil. cbn [app length skipn]. unfold kmsg_from_bytes. replace (decode new_buf) with (@None (bval * bytes)) by reflexivity. reflexivity. }
  assert (forall id t, wf_id id -> length t <= 2000 -> length (kmsg_bytes (ping_query id t)) <= BUF_LEN) as LB.
  { intros id t W T. rewrite C73_bep5 by (split; [reflexivity|]; split; [apply utf8_ok_iff; reflexivity|]; exact W). unfold ping_query, bep5, bep5_args. rewrite !app_length, W.
    pose proof (@ostr_len t 4 ltac:(change (10 ^ N.of_nat 4)%N with 10000%N; lia) ltac:(lia)). unfold BUF_LEN. cbn. lia. }
  split; [auto|]. split; [auto|].
  assert (forall e s buf id t a b, length buf = BUF_LEN -> wf_id id -> length t <= 2000 ->
     let dg := kmsg_bytes (ping_query id t) in
     exists buf', on_datagram sha e s buf (Some a) dg = Val (s, buf', [OSend a (ping_resp (d_own s) t)]) /\
       on_datagram sha e s buf' (Some b) [] = Val (s, buf', [OSend b (ping_resp (d_own s) t)])) as P.
  { intros e s buf id t a b B W T dg. exists (recv_into buf dg).
    assert (forall c, on_datagram sha e s buf (Some c) dg = Val (s, recv_into buf dg, [OSend c (ping_resp (d_own s) t)])) as Q.
    { intro c. unfold dg. rewrite on_message; [reflexivity| |auto]. split; [reflexivity|]. split; [apply utf8_ok_iff; reflexivity|]. exact W. }
    split; [auto|]. rewrite <- (Q b). rewrite <- (A e s buf dg 0 b B (LB id t W T)). reflexivity. }
  split; [exact P|]. intro F. pose (s := mk_dcon own secret []). pose (e := mk_env true (fun _ => true)). pose (a := mk_addr x00 x00 x00 x00 0%N).
  destruct (P e s new_buf (repeat x00 20) [] a a ltac:(apply repeat_length) eq_refl ltac:(cbn; lia)) as (buf' & E1 & E2).
  specialize (F e s new_buf buf' (Some a) [] ltac:(apply repeat_length)). rewrite Z, E2 in F. cbn [rmap fst snd] in F.
  assert (length buf' = BUF_LEN) as LL.
  { unfold on_datagram in E1. rewrite <- (@recv_len new_buf (kmsg_bytes (ping_query (repeat x00 20) [])) ltac:(apply repeat_length)).
    destruct (kmsg_from_bytes _) as [m| |]; try discriminate. destruct (dstep _ _ _ _); try discriminate. cbn [rmap] in E1. injection E1 as _ <- _. reflexivity. }
  specialize (F LL ltac:(cbn; lia)). discriminate.
Qed.

(** ** C43 *)
(** What the decoder takes for identifiers has 20 bytes. *)
Definition ids_ok (v : bval) : Prop :=
  forall d k d' k' x, v = BDict d -> In k ["a"; "r"]%string -> lookup (str k) d = Some (BDict d') ->
    In k' ["id"; "info_hash"; "target"]%string -> lookup (str k') d' = Some (BStr x) -> length x = 20.
Definition safe {A} (r : res A) : Prop := r <> Panic.
Ltac np := intros; unfold safe in *; solve [discriminate | congruence | auto].
Lemma safe_bind : forall A B (r : res A) (f : A -> res B), safe r -> (forall x, safe (f x)) -> safe (rbind r f).
Proof. intros A B [x| |] f S F; cbn; auto; np. Qed.
Lemma safe_map : forall A B (r : res A) (f : A -> B), safe r -> safe (rmap f r).
Proof. intros A B [x| |] f S; cbn; auto; np. Qed.
Lemma safe_orelse : forall A (a b : res A), safe a -> safe b -> safe (orelse a b).
Proof. intros A [x| |] b H1 H2; cbn; auto. Qed.
Lemma safe_need : forall A (o : option A), safe (need o).
Proof. intros A [x|]; cbn; np. Qed.
Lemma safe_field : forall A d k (p : bval -> res A), (forall v, lookup (str k) d = Some v -> safe (p v)) -> safe (field d k p).
Proof. intros A d k p H. unfold field. destruct (lookup (str k) d) as [v|]; [|np]. apply safe_map. auto. Qed.
Lemma safe_map_res : forall A B (p : A -> res B) l, (forall x, In x l -> safe (p x)) -> safe (map_res p l).
Proof.
  induction l as [|x l IH]; intro H; [np|]. cbn [map_res]. apply safe_bind; [apply H; left; auto|]. intro y. apply safe_map. apply IH. intros; apply H; right; auto.
Qed.
Lemma safe_sock : forall b, safe (socketaddr_from_compact_bytes b).
Proof. intro b. unfold socketaddr_from_compact_bytes. repeat (match goal with |- safe (match ?x with _ => _ end) => destruct x end); np. Qed.
Lemma safe_node : forall b, safe (node_from_compact b).
Proof. intro b. unfold node_from_compact. destruct (_ =? _); [|np]. apply safe_bind; [apply safe_sock|]. np. Qed.
Lemma safe_nodes : forall v, safe (p_nodes v).
Proof.
  intros [z|b|l|l]; try np. cbn [p_nodes]. destruct (negb _); [np|]. destruct (_ =? _).
  - apply safe_map. apply safe_node.
  - apply safe_map. apply safe_map_res. intros x _. apply safe_node.
Qed.
Lemma safe_peers : forall v, safe (p_list p_peer v).
Proof.
  intros [z|b|l|l]; try np. cbn [p_list]. apply safe_map_res. intros [z|b|l'|l'] _; try np.
  cbn [p_peer]. unfold peer_visit_bytes, peer_from_compact_bytes. destruct (_ =? _); [apply safe_sock|np].
Qed.
Lemma safe_buf : forall v, safe (p_buf v). Proof. intros []; np. Qed.
Lemma safe_string : forall v, safe (p_string v). Proof. intros [z|b|l|l]; cbn; try np. destruct (utf8_ok b); np. Qed.
Lemma safe_uint : forall m v, safe (p_uint m v). Proof. intros m [z|b|l|l]; cbn; try np. destruct (_ && _); np. Qed.
Lemma safe_type : forall v, safe (p_type v). Proof. intros [z|[|x [|y b]]|l|l]; cbn; try np. destruct (_ || _); np. Qed.
Lemma safe_errs : forall v, safe (p_list p_error v).
Proof.
  intros [z|b|l|l]; try np. cbn [p_list]. apply safe_map_res. intros x _. unfold p_error.
  apply safe_orelse; apply safe_map; [apply safe_uint|apply safe_string].
Qed.
Lemma safe_von : forall d, safe (p_von d).
Proof.
  intro d. unfold p_von. apply safe_orelse; (apply safe_bind; [apply safe_field; intros; (apply safe_peers || apply safe_nodes)|]; intro; apply safe_bind; [apply safe_need|np]).
Qed.
Definition dict_ids (v : bval) : Prop := forall d k x, v = BDict d -> In k ["id"; "info_hash"; "target"]%string -> lookup (str k) d = Some (BStr x) -> length x = 20.
Lemma safe_id : forall d k, dict_ids (BDict d) -> In k ["id"; "info_hash"; "target"]%string -> safe (field d k p_id).
Proof.
  intros d k H I0. apply safe_field. intros [z|b|l|l] E; try np. cbn [p_id]. unfold id_deserialize. rewrite (H d k b eq_refl I0 E). np.
Qed.
Ltac safe_step H := first
  [ apply safe_need | apply safe_von | apply safe_orelse
  | match goal with |- safe (rbind (field _ _ p_id) _) => apply safe_bind; [eapply safe_id; [exact H|cbn; tauto]|intro] end
  | match goal with |- safe (rbind (field _ _ _) _) => apply safe_bind; [apply safe_field; intros; (apply safe_buf || apply safe_uint || apply safe_nodes || apply safe_string || apply safe_type || apply safe_errs)|intro] end
  | match goal with |- safe (rbind _ _) => apply safe_bind; [|intro] end
  | np ].
Lemma safe_args : forall v, dict_ids v -> safe (p_args v).
Proof. intros [z|b|l|d] H; try np. unfold p_args. repeat safe_step H. Qed.
Lemma safe_resp : forall v, dict_ids v -> safe (p_resp v).
Proof. intros [z|b|l|d] H; try np. unfold p_resp. repeat safe_step H. Qed.
Lemma safe_kmsg : forall v, ids_ok v -> safe (p_kmsg v).
Proof.
  intros [z|b|l|d] H; try np. unfold p_kmsg.
  assert (forall k v, In k ["a"; "r"]%string -> lookup (str k) d = Some v -> dict_ids v) as K.
  { intros k v I0 E d' k' x -> I1 E1. exact (H d k d' k' x eq_refl I0 E I1 E1). }
  apply safe_orelse; [|apply safe_orelse].
  - apply safe_bind; [apply safe_field; intros v E; apply safe_args; apply (K "a"%string v); cbn; auto|intro]. repeat safe_step I.
  - apply safe_bind; [apply safe_field; intros v E; apply safe_resp; apply (K "r"%string v); cbn; auto|intro]. repeat safe_step I.
  - repeat safe_step I.
Qed.
Lemma dstep_total : forall e s x, e_listener e = true -> (forall r, e_alive e r = true) -> exists s' o, dstep sha e s x = Val (s', o).
Proof.
  intros e s x L A. destruct x as [req a q t|a t r|from [t y q a|t y r|t y er]].
  - rewrite dstep_query. eauto.
  - cbn. unfold send_reply. eauto.
  - destruct a; cbn [dstep handle_query]; unfold to_listener, send_reply; rewrite ?L; eauto. destruct (token_is_valid _ _ _ _); eauto. cbn. eauto.
  - rewrite dstep_resp. destruct (mget _ _ _) as [[k rq]|]; eauto. destruct (kind_eqb _ _); eauto. rewrite A. eauto.
  - cbn. eauto.
Qed.
(** A datagram from anywhere, whatever was received before, is dealt with as
    long as nothing in it passes for an identifier of another length, and the
    tasks behind the channels exist. *)
Theorem C43_no_abort_partial : forall e s buf from dg, e_listener e = true -> (forall r, e_alive e r = true) ->
  (forall v tl, decode (recv_into buf dg) = Some (v, tl) -> ids_ok v) ->
  exists s' o, on_datagram sha e s buf from dg = Val (s', recv_into buf dg, o).
Proof.
  intros e s buf from dg L A H. unfold on_datagram. destruct from as [a|]; eauto. unfold kmsg_from_bytes.
  destruct (decode (recv_into buf dg)) as [[v tl]|] eqn:E; eauto. destruct (ints_ok v); eauto.
  pose proof (safe_kmsg (H v tl eq_refl)) as K. unfold safe in K. destruct (p_kmsg v) as [m| |]; [|eauto|congruence].
  destruct (@dstep_total e s (EIn a m) L A) as (s' & o & D). rewrite D. cbn. eauto.
Qed.
(** Full statement; false: one datagram with an id of any other length kills
    the task, in every state. *)
Definition C43_no_abort_always : Prop := forall e s buf from dg, e_listener e = true -> (forall r, e_alive e r = true) -> length buf = 2600 ->
  on_datagram sha e s buf from dg <> Panic.
Lemma bad_id : forall id t tl, length id <> 20 -> kmsg_from_bytes (kmsg_bytes (ping_query id t) ++ tl) = Panic.
Proof.
  intros id t tl N. unfold kmsg_bytes. rewrite from_bytes_enc.
  - unfold p_kmsg, kmsg_bval, kdict, ping_query, field. cbn -[p_args args_bval p_string p_buf p_type].
    replace (p_args (args_bval (APing id))) with (@Panic args); auto. unfold p_args, args_bval, kdict, field. cbn -[p_id]. unfold p_id, id_deserialize.
    replace (length id =? ID_LEN) with false by (symmetry; apply Nat.eqb_neq; exact N). reflexivity.
  - unfold ping_query. apply wire_dict; [reflexivity|]. cbn -[wire_ok args_bval]. repeat apply Forall_cons; try apply Forall_nil; cbn -[wire_ok args_bval]; try apply wire_str.
    apply wire_dict; [reflexivity|]. cbn -[wire_ok]. repeat apply Forall_cons; try apply Forall_nil. apply wire_str.
  - pose proof (nest_kmsg (ping_query id t)). pose proof depth3. lia.
Qed.
Theorem C43_refuted :
  (forall e s buf a id t, length id <> 20 -> length (kmsg_bytes (ping_query id t)) <= 2600 ->
     on_datagram sha e s buf (Some a) (kmsg_bytes (ping_query id t)) = Panic) /\
  ~ C43_no_abort_always.
Proof.
  assert (forall e s buf a id t, length id <> 20 -> length (kmsg_bytes (ping_query id t)) <= BUF_LEN ->
     on_datagram sha e s buf (Some a) (kmsg_bytes (ping_query id t)) = Panic) as A.
  { intros e s buf a id t N L. unfold on_datagram. rewrite recv_short by auto. rewrite bad_id by auto. reflexivity. }
  split; auto. intro F. apply (F (mk_env true (fun _ => true)) (mk_dcon own secret []) new_buf (Some (mk_addr x00 x00 x00 x00 0%N)) (kmsg_bytes (ping_query [] [])));
    [reflexivity|reflexivity|apply repeat_length|]. apply A; [discriminate|]. apply Nat.leb_le. reflexivity.
Qed.

(** ** C75 *)
Definition C75_asked_node_always : Prop := forall h s e from t y r s' req p, Runs h s ->
  dstep sha e s (EIn from (MResp t y r)) = Val (s', [OResp req p]) ->
  exists q o, In (EQuery req from q t, o) h.
(** An accepted answer belongs to a query of that task with that id and kind
    (to somebody). *)
Theorem C75_asked_partial : forall h s e from t y r s' req p, Runs h s ->
  dstep sha e s (EIn from (MResp t y r)) = Val (s', [OResp req p]) ->
  exists target q o, In (EQuery req target q t, o) h /\ kind_asked q = kind_answered r.
Proof.
  intros h s e from t y r s' req p R D. destruct (@C41_delivery _ _ _ _ _ _ _ _ _ R D) as [(rq & O & E)|(_ & E & _)]; [|discriminate].
  injection E as -> _. destruct (@outstanding_some _ _ _ O) as (x & o & I0 & rq' & a & q & -> & K). injection K as K ->. exists a, q, o. auto.
Qed.
(** Anyone who knows or guesses the id answers in the place of the node asked. *)
Theorem C75_refuted : (forall e s req a b q t r, e_alive e req = true -> kind_asked q = kind_answered r ->
    exists s1 s2, dstep sha e s (EQuery req a q t) = Val (s1, [OSend a (query_message (d_own s) t q)]) /\
      dstep sha e s1 (EIn b (MResp t x72 r)) = Val (s2, [OResp req (told r b)])) /\ ~ C75_asked_node_always.
Proof.
  assert (forall e s req a b q t r, e_alive e req = true -> kind_asked q = kind_answered r ->
    exists s1 s2, dstep sha e s (EQuery req a q t) = Val (s1, [OSend a (query_message (d_own s) t q)]) /\
      dstep sha e s1 (EIn b (MResp t x72 r)) = Val (s2, [OResp req (told r b)])) as P.
  { intros e s req a b q t r A K. rewrite dstep_query. eexists. eexists. split; [reflexivity|]. rewrite dstep_resp. cbn [d_pending].
    rewrite (mget_mset_same _ bspec), K, (proj2 (kind_eqb_eq _ _) eq_refl), A. reflexivity. }
  split; auto. intro F. pose (e := mk_env true (fun _ => true)). pose (a := mk_addr x00 x00 x00 x00 0%N). pose (b := mk_addr x01 x00 x00 x00 0%N).
  destruct (P e (mk_dcon own secret []) 0 a b QPing [] (RPing []) eq_refl eq_refl) as (s1 & s2 & D1 & D2).
  assert (Runs [(EQuery 0 a QPing [], [OSend a (query_message own [] QPing)])] s1) as R by (eapply runs_cons; [apply runs_nil|exact D1]).
  destruct (F _ _ _ _ _ _ _ _ _ _ R D2) as (q & o & [H|[]]). unfold a, b in H. discriminate.
Qed.

(** ** C76 *)
Definition kind_replied (r : to_resp) : kind := match r with PPing => KPing | PFindNode _ => KFindNode | PGetPeers _ => KGetPeers | PAnnounce => KAnnounce end.
Definition wf_reply (r : to_resp) : Prop := match r with PFindNode n => wf_nodes n | PGetPeers v => wf_von v | _ => True end.
Definition C76_reply_delivered_always : Prop := forall h s e buf a t req k r id tok, Runs h s -> outstanding h t = Some (k, req) -> e_alive e req = true ->
  k = kind_replied r -> wf_id id -> wf_reply r -> length (kmsg_bytes (resp_message id t tok r)) <= 2600 ->
  exists s' buf' p, on_datagram sha e s buf (Some a) (kmsg_bytes (resp_message id t tok r)) = Val (s', buf', [OResp req p]).
(** The answer another client of this kind sends to our ping, find_node or
    get_peers reaches the task that asked, with its contents. *)
Lemma reply_wf : forall id t tok r, wf_id id -> wf_reply r -> wf_kmsg (resp_message id t tok r).
Proof. intros id t tok r W V. destruct r; cbn [wf_reply] in V; split; try reflexivity; cbn [wf_resp]; auto. Qed.
Theorem C76_reply_delivered_partial : forall h s e buf a t req k r id tok, Runs h s -> outstanding h t = Some (k, req) -> e_alive e req = true ->
  k = kind_replied r -> k <> KAnnounce -> wf_id id -> wf_reply r -> length (kmsg_bytes (resp_message id t tok r)) <= 2600 ->
  exists s' buf', on_datagram sha e s buf (Some a) (kmsg_bytes (resp_message id t tok r)) =
    Val (s', buf', [OResp req (match r with
       | PPing | PAnnounce => FTouch id a
       | PFindNode n => FNewNodes (seen_nodes n) a id
       | PGetPeers (VValues l) => FGetPeers a tok (VValues l)
       | PGetPeers (VNodes n) => FGetPeers a tok (VNodes (seen_nodes n))
       end)]).
Proof.
  intros h s e buf a t req k r id tok R O A -> K W V L. rewrite on_message by (auto using reply_wf).
  destruct (runs_inv R) as (_ & _ & _ & P).
  destruct r as [|n|[l|n]|]; cbn [kind_replied] in *; try congruence; cbn [resp_message ping_resp find_nodes_resp get_peers_resp seen seen_resp];
    rewrite dstep_resp, (P t), O; cbn [kind_answered kind_eqb]; rewrite A; cbn [rmap fst snd told]; eauto.
Qed.
(** No datagram ever answers an announce: its answer is taken for a pong, and
    the request stays outstanding. *)
Lemma orelse_val : forall A (a b : res A) x, orelse a b = Val x -> a = Val x \/ (a = Fail /\ b = Val x).
Proof. intros A [y| |] b x H; cbn in H; auto. Qed.
Lemma not_announce : forall v id, p_resp v <> Val (RAnnounce id).
Proof.
  intros [z|b|l|d] id H; try discriminate. unfold p_resp in H.
  apply orelse_val in H. destruct H as [H|(_ & H)].
  { unfold rbind, need in H. repeat (match type of H with (match ?x with _ => _ end) = _ => destruct x end; try discriminate). }
  apply orelse_val in H. destruct H as [H|(_ & H)].
  { unfold rbind, need in H. repeat (match type of H with (match ?x with _ => _ end) = _ => destruct x end; try discriminate). }
  apply orelse_val in H. destruct H as [H|(H0 & H)].
  { unfold rbind, need in H. repeat (match type of H with (match ?x with _ => _ end) = _ => destruct x end; try discriminate). }
  unfold rbind, need in *. destruct (field d "id" p_id) as [[x|]| |]; discriminate.
Qed.
Lemma resp_parsed : forall v t y r, p_kmsg v = Val (MResp t y r) -> exists w, p_resp w = Val r.
Proof.
  intros [z|b|l|d] t y r H; try discriminate. unfold p_kmsg in H. apply orelse_val in H. destruct H as [H|(_ & H)].
  { exfalso. unfold rbind, need in H. repeat (match type of H with (match ?x with _ => _ end) = _ => destruct x end; try discriminate). }
  apply orelse_val in H. destruct H as [H|(_ & H)].
  - unfold field at 1 in H. destruct (lookup (str "r") d) as [w|]; cbn [rbind] in H.
    + exists w. destruct (p_resp w) as [r0| |]; cbn [rmap rbind] in H; try discriminate.
      unfold rbind, need in H. repeat (match type of H with (match ?x with _ => _ end) = _ => destruct x end; try discriminate). congruence.
    + exfalso. unfold rbind, need in H. repeat (match type of H with (match ?x with _ => _ end) = _ => destruct x end; try discriminate).
  - exfalso. unfold rbind, need in H. repeat (match type of H with (match ?x with _ => _ end) = _ => destruct x end; try discriminate).
Qed.
Lemma from_bytes_no_announce : forall s t y id, kmsg_from_bytes s <> Val (MResp t y (RAnnounce id)).
Proof.
  intros s t y id H. unfold kmsg_from_bytes in H. destruct (decode s) as [[v tl]|]; [|discriminate]. destruct (ints_ok v); [|discriminate].
  apply resp_parsed in H. destruct H as (w & H). exact (@not_announce _ _ H).
Qed.
Theorem C76_refuted :
  (forall h s e a bs m t req s' o, Runs h s -> outstanding h t = Some (KAnnounce, req) ->
     kmsg_from_bytes bs = Val m -> dstep sha e s (EIn a m) = Val (s', o) ->
     outstanding ((EIn a m, o) :: h) t = Some (KAnnounce, req)) /\ ~ C76_reply_delivered_always.
Proof.
  assert (forall h s e a bs m t req s' o, Runs h s -> outstanding h t = Some (KAnnounce, req) ->
     kmsg_from_bytes bs = Val m -> dstep sha e s (EIn a m) = Val (s', o) ->
     outstanding ((EIn a m, o) :: h) t = Some (KAnnounce, req)) as P.
  { intros h s e a bs m t req s' o R O B D. cbn [outstanding]. destruct m as [t' y q x|t' y r|t' y er]; auto.
    destruct (bytes_eqb t t') eqn:E; auto. apply bspec in E. subst t'.
    destruct (@C41_delivery _ _ _ _ _ _ _ _ _ R D) as [(rq & O' & _)|(_ & -> & _)]; auto.
    rewrite O in O'. injection O' as K _. destruct r; try discriminate. exfalso. exact (@from_bytes_no_announce _ _ _ _ B). }
  split; auto. intro F. pose (e := mk_env true (fun _ => true)). pose (a := mk_addr x00 x00 x00 x00 0%N). pose (id := repeat x00 20).
  destruct (dstep sha e (mk_dcon own secret []) (EQuery 0 a (QAnnounce id 0 []) [])) as [[s1 o1]| |] eqn:D1; try (rewrite dstep_query in D1; discriminate).
  assert (Runs [(EQuery 0 a (QAnnounce id 0 []) [], o1)] s1) as R by (eapply runs_cons; [apply runs_nil|exact D1]).
  destruct (F _ _ e new_buf a [] 0 KAnnounce PAnnounce id [] R eq_refl eq_refl eq_refl eq_refl I ltac:(apply Nat.leb_le; reflexivity)) as (s' & buf' & p & D).
  rewrite on_message in D; [|split; reflexivity|apply Nat.leb_le; reflexivity].
  cbn [resp_message announce_peer_resp seen seen_resp] in D. rewrite dstep_query in D1. injection D1 as <- _. rewrite dstep_resp in D. cbn in D. discriminate.
Qed.
(** Answers to find_node that carry a token, as some clients send, are taken
    for answers to get_peers and dropped as well. *)
Theorem C76_token_refuted : forall h s e buf a t req id tok n, Runs h s -> outstanding h t = Some (KFindNode, req) -> wf_id id -> wf_nodes n ->
  let dg := enc (kdict [(str "t", BStr t); (str "y", BStr (str "r"));
                        (str "r", kdict [(str "id", BStr id); (str "nodes", BStr (flat_map compact_node (nodes_of n))); (str "token", BStr tok)])]) in
  length dg <= 2600 -> on_datagram sha e s buf (Some a) dg = Val (s, recv_into buf dg, []).
Proof.
  intros h s e buf a t req id tok n R O Wi Wn dg L.
  assert (dg = kmsg_bytes (get_peers_resp id tok (VNodes n) t)) as E.
  { unfold dg. rewrite <- nodes_bytes_compact by auto. reflexivity. }
  rewrite E in *. rewrite on_message; [|split; [reflexivity|split; auto]|auto]. destruct (runs_inv R) as (_ & _ & _ & P).
  cbn [get_peers_resp seen seen_resp]. rewrite dstep_resp, (P t), O. reflexivity.
Qed.

(** ** C77 *)
(** Wanted: a bound on the requests remembered. *)
Definition C77_bounded_always : Prop := exists B, (B + 1 < 2 ^ 40)%N /\ forall h s, Runs h s -> (N.of_nat (length (d_pending s)) <= B)%N.
(** Whatever happens, short of an answer to it or a new query with its id, a
    request stays. *)
Theorem C77_refuted :
  (forall h s e x s' o t kr, Runs h s -> outstanding h t = Some kr -> dstep sha e s x = Val (s', o) ->
     (forall req a q, x <> EQuery req a q t) -> (forall from y r, x = EIn from (MResp t y r) -> o = []) ->
     outstanding ((x, o) :: h) t = Some kr) /\
  (forall n, (N.of_nat n < 2 ^ 40)%N -> exists h s, Runs h s /\ length (d_pending s) = n /\ Forall (fun xo => match fst xo with EQuery _ _ _ t => length t = 5 | _ => False end) h) /\
  ~ C77_bounded_always.
Proof.
  assert (forall n, (N.of_nat n < 2 ^ 40)%N -> exists h s, Runs h s /\ length (d_pending s) = n /\ Forall (fun xo => match fst xo with EQuery _ _ _ t => length t = 5 | _ => False end) h) as U.
  { assert (forall n, (N.of_nat n < 2 ^ 40)%N -> exists h s, Runs h s /\ length (d_pending s) = n /\ Forall (fun xo => match fst xo with EQuery _ _ _ t => length t = 5 | _ => False end) h
       /\ forall k, In k (keys (d_pending s)) -> exists i, (i < N.of_nat n)%N /\ k = be_bytes 5 i) as V.
    { pose (e := mk_env true (fun _ => true)). pose (a := mk_addr x00 x00 x00 x00 0%N). induction n as [|n IH]; intro H.
      - exists [], (mk_dcon own secret []). repeat split; try constructor. intros k [].
      - destruct (IH ltac:(lia)) as (h & s & R & L & F & K).
        pose (t := be_bytes 5 (N.of_nat n)).
        assert (~ In t (keys (d_pending s))) as N0.
        { intro Q. destruct (K _ Q) as (i & Hi & E). unfold t in E. apply (f_equal of_be) in E. rewrite !of_be_be_bytes in E.
          change (256 ^ N.of_nat 5)%N with (2 ^ 40)%N in E. rewrite !N.mod_small in E by lia. lia. }
        eexists ((EQuery 0 a QPing t, _) :: h), _. split; [eapply runs_cons; [exact R|apply (dstep_query e)]|]. cbn [d_pending].
        assert (mhas bytes_eqb t (d_pending s) = false) as MH.
        { destruct (mhas bytes_eqb t (d_pending s)) eqn:M; auto. exfalso. apply N0. apply (mhas_in _ bspec). auto. }
        split; [rewrite length_mset, MH, L; reflexivity|]. split; [constructor; auto; apply be_bytes_length|].
        intros k I0. rewrite keys_mset, MH in I0. apply in_app_or in I0. destruct I0 as [I0|[<-|[]]].
        + destruct (K _ I0) as (i & Hi & E). exists i. split; auto. lia.
        + exists (N.of_nat n). split; [lia|reflexivity]. }
    intros n H. destruct (V n H) as (h & s & R & L & F & _). eauto. }
  split; [|split; [exact U|]].
  - intros h s e x s' o t kr R O D NQ NR. cbn [outstanding]. destruct x as [rq a q t'|a t' r|from [t' y q a|t' y r|t' y er]]; auto.
    + destruct (bytes_eqb t t') eqn:E; auto. apply bspec in E. subst. exfalso. exact (NQ _ _ _ eq_refl).
    + destruct (bytes_eqb t t') eqn:E; auto. apply bspec in E. subst. rewrite (NR _ _ _ eq_refl). auto.
  - intros (B & HB & F). destruct (U (N.to_nat (B + 1)) ltac:(rewrite N2Nat.id; exact HB)) as (h & s & R & L & _).
    specialize (F h s R). rewrite L, N2Nat.id in F. lia.
Qed.
End conn.

(** ** a concrete history *)
Definition ex_sha (b : bytes) : bytes := firstn 20 (rev b ++ repeat x00 20).
Definition ex_own : ID := repeat x01 20.
Definition ex_sec : ID := repeat x02 20.
Definition ex_env : env := mk_env true (fun _ => true).
Definition ex_a : addr := mk_addr x0a x00 x00 x01 6881.
Definition ex_b : addr := mk_addr x0a x00 x00 x01 7000.
Definition ex_c : addr := mk_addr x0a x00 x00 x02 7000.
Definition ex_tk (a : addr) : bytes := ex_sha (ex_sec ++ addr_octets a).
(** Task 3 asks with id "k", gets the answer; a stray answer with the wrong kind
    changes nothing; a token is handed to [ex_a]. *)
Definition ex_hist : history :=
  [ (EReply ex_a (str "g") (PGetPeers (VValues [])), [OSend ex_a (get_peers_resp ex_own (ex_tk ex_a) (VValues []) (str "g"))]);
    (EIn ex_a (MResp (str "k") x72 (RFindNode ex_sec (Closest []))), [OResp 3 (FNewNodes (Closest []) ex_a ex_sec)]);
    (EIn ex_c (MResp (str "k") x72 (RPing ex_sec)), []);
    (EQuery 3 ex_a (QFindNode ex_own) (str "k"), [OSend ex_a (find_nodes_query ex_own ex_own (str "k"))]) ].
Lemma ex_runs : runs ex_sha ex_own ex_sec ex_hist (mk_dcon ex_own ex_sec []).
Proof.
  unfold ex_hist. eapply runs_cons with (e := ex_env) (s := mk_dcon ex_own ex_sec []); [|reflexivity].
  eapply runs_cons with (e := ex_env) (s := mk_dcon ex_own ex_sec [(str "k", (KFindNode, 3))]); [|reflexivity].
  eapply runs_cons with (e := ex_env) (s := mk_dcon ex_own ex_sec [(str "k", (KFindNode, 3))]); [|reflexivity].
  eapply runs_cons with (e := ex_env); [apply runs_nil|reflexivity].
Qed.
Example C41_example : runs ex_sha ex_own ex_sec ex_hist (mk_dcon ex_own ex_sec []) /\
  outstanding (skipn 2 ex_hist) (str "k") = Some (KFindNode, 3) /\ outstanding ex_hist (str "k") = None /\
  queries 3 ex_hist = 1 /\ deliveries 3 ex_hist = 1.
Proof. split; [apply ex_runs|]. repeat split; reflexivity. Qed.
Example C42_example : same_ip ex_a ex_b /\ ex_tk ex_a <> ex_tk ex_c /\
  dstep ex_sha ex_env (mk_dcon ex_own ex_sec []) (EIn ex_b (announce_peer_query ex_sec ex_sec 51413 (ex_tk ex_a) (str "z"))) =
    Val (mk_dcon ex_own ex_sec [], [ONewPeer (mk_addr x0a x00 x00 x01 51413) ex_sec; OSend ex_b (announce_peer_resp ex_own (str "z"))]) /\
  dstep ex_sha ex_env (mk_dcon ex_own ex_sec []) (EIn ex_c (announce_peer_query ex_sec ex_sec 51413 (ex_tk ex_a) (str "z"))) = Val (mk_dcon ex_own ex_sec [], []).
Proof. split; [reflexivity|]. split; [discriminate|]. split; reflexivity. Qed.
Example C43_example : (forall v tl, decode (recv_into new_buf (kmsg_bytes (ping_query ex_sec (str "q")))) = Some (v, tl) -> ids_ok v).
Proof.
  intros v tl H. rewrite recv_short in H by (apply Nat.leb_le; reflexivity).
  assert (ordered (kmsg_bval (ping_query ex_sec (str "q")))) as O by (apply wire_kmsg; split; [reflexivity|]; split; [apply utf8_ok_iff; reflexivity|reflexivity]).
  unfold kmsg_bytes, decode in H. rewrite decode_enc in H by (auto; pose proof (nest_kmsg (ping_query ex_sec (str "q"))); pose proof depth3; lia).
  injection H as <- _. intros d k d' k' x E Ik L Ik' L'. injection E as <-. cbn in Ik. destruct Ik as [<-|[<-|[]]]; cbn in L; [|discriminate].
  injection L as <-. cbn in Ik'. destruct Ik' as [<-|[<-|[<-|[]]]]; cbn in L'; try discriminate. injection L' as <-. reflexivity.
Qed.
Example C74_example : decode (kmsg_bytes (ping_query ex_sec (str "q"))) <> None /\ length (kmsg_bytes (ping_query ex_sec (str "q"))) <= BUF_LEN.
Proof.
  split; [|apply Nat.leb_le; reflexivity].
  assert (ordered (kmsg_bval (ping_query ex_sec (str "q")))) as O by (apply wire_kmsg; split; [reflexivity|]; split; [apply utf8_ok_iff; reflexivity|reflexivity]).
  pose proof (@decode_enc MAX_DEPTH _ [] O ltac:(pose proof (nest_kmsg (ping_query ex_sec (str "q"))); pose proof depth3; lia)) as D. rewrite app_nil_r in D.
  unfold decode, kmsg_bytes. rewrite D. discriminate.
Qed.
Example C75_example : dstep ex_sha ex_env (mk_dcon ex_own ex_sec [(str "k", (KFindNode, 3))]) (EIn ex_c (MResp (str "k") x72 (RFindNode ex_sec (Closest [])))) =
  Val (mk_dcon ex_own ex_sec [], [OResp 3 (FNewNodes (Closest []) ex_c ex_sec)]).
Proof. reflexivity. Qed.
Example C76_example : runs ex_sha ex_own ex_sec (skipn 2 ex_hist) (mk_dcon ex_own ex_sec [(str "k", (KFindNode, 3))]) /\
  outstanding (skipn 2 ex_hist) (str "k") = Some (kind_replied (PFindNode (Closest [])), 3) /\
  length (kmsg_bytes (resp_message ex_sec (str "k") [] (PFindNode (Closest [])))) <= BUF_LEN.
Proof.
  split; [|split; [reflexivity|apply Nat.leb_le; reflexivity]]. unfold ex_hist. cbn [skipn].
  eapply runs_cons with (e := ex_env) (s := mk_dcon ex_own ex_sec [(str "k", (KFindNode, 3))]); [|reflexivity].
  eapply runs_cons with (e := ex_env); [apply runs_nil|reflexivity].
Qed.
Print Assumptions C41_delivery.
Print Assumptions C41_progress.
Print Assumptions C41_only_responses.
Print Assumptions C41_at_most_once.
Print Assumptions C41_counts.
Print Assumptions C42_accepted.
Print Assumptions C42_rejected.
Print Assumptions C42_other_ip.
Print Assumptions C42_wire.
Print Assumptions C74_own_bytes_partial.
Print Assumptions C74_refuted.
Print Assumptions C43_no_abort_partial.
Print Assumptions C43_refuted.
Print Assumptions C75_asked_partial.
Print Assumptions C75_refuted.
Print Assumptions C76_reply_delivered_partial.
Print Assumptions C76_refuted.
Print Assumptions C76_token_refuted.
Print Assumptions C77_refuted.
