(** C78: exactly which answers fit; C80: exactly what a lookup of our own hash
    does to the peers. *)
From Coq Require Import Strings.String.
From Coq Require Import List NArith ZArith Lia Bool Arith Permutation.
From Coq Require Import Init.Byte.
From Verif Require Import Base Assoc IdModel IdProofs WireModel WireProofs TableModel TableSpec TableProofs TableProofs2 TableProps LookupProps
  PeersModel PeersSpec PeersProofs PeersProps BencodeModel BencodeSpec BencodeProofs KrpcModel KrpcSpec KrpcProofs KrpcProps DhtModel DhtProps DhtMgrModel DhtMgrSpec DhtMgrProps.
Import ListNotations.
Set Implicit Arguments.
Local Open Scope list_scope.

(** ** C78 *)
(** The length of an answer with peers, to the byte. *)
Theorem C78_values_size : forall h s now pick i s' o to t l own token info m0 t0, wf_id info -> NoDup (map fst m0) -> Forall wf_addr (map fst m0) -> reachable t0 ->
  gruns info m0 t0 h s -> fair pick -> wf_gin s i -> gstep now pick s i = Val (s', o) -> In (CReply to t (PGetPeers (VValues l))) o ->
  wf_id own -> length token = 20 ->
  length (kmsg_bytes (resp_message own t token (PGetPeers (VValues l)))) = 84 + 8 * length l + length t + length (enc_num (N.of_nat (length t))).
Proof.
  intros h s now pick i s' o to t l own token info m0 t0 W0 N0 A0 R0 H F WG E IN W K.
  destruct (@answers_ok info m0 t0 W0 N0 A0 R0 h s now pick i s' o to t _ H F WG E IN) as (WA & _).
  rewrite (proj2 (@C73_sent own t W) token _ WA). cbn [bep5_answer]. rewrite ?len_app, values_len. unfold wf_id in W. rewrite W.
  unfold ostr. rewrite !app_length, K. cbn [length str String.list_byte_of_string].
  change (length (enc_num (N.of_nat 20))) with 2. change ID_LEN with 20.
  change (length (str "d1:rd2:id20:")) with 12. change (length (str "5:token")) with 7. change (length (str "6:valuesl")) with 9.
  change (length (str "ee1:t")) with 5. change (length (str "1:y1:re")) with 7. lia.
Qed.
(** Exactly: whatever the transaction id, the answer
    fits if and only if it holds no more peers than there is room for; without
    peers it always fits for transaction ids of up to 64 bytes (C78). *)
Theorem C78_exact : forall h s now pick i s' o to t l own token info m0 t0, wf_id info -> NoDup (map fst m0) -> Forall wf_addr (map fst m0) -> reachable t0 ->
  gruns info m0 t0 h s -> fair pick -> wf_gin s i -> gstep now pick s i = Val (s', o) -> In (CReply to t (PGetPeers (VValues l))) o ->
  wf_id own -> length token = 20 ->
  (length (kmsg_bytes (resp_message own t token (PGetPeers (VValues l)))) <= 1300 <->
   8 * length l + length t + length (enc_num (N.of_nat (length t))) <= 1216).
Proof.
  intros h s now pick i s' o to t l own token info m0 t0 W0 N0 A0 R0 H F WG E IN W K.
  rewrite (@C78_values_size h s now pick i s' o to t l own token info m0 t0) by auto. lia.
Qed.
(** The client's own transaction ids have two bytes. A lookup of a hash for
    which more than 151 different peers have been announced, with such an id,
    always gets an answer that is too long; with 151 or fewer it never does. *)
Theorem C78_crowd_always : forall h s now pick ih from t own token info m0 t0, wf_id info -> NoDup (map fst m0) -> Forall wf_addr (map fst m0) -> reachable t0 ->
  gruns info m0 t0 h s -> fair pick -> wf_id ih -> ih <> info -> announced ih h <> [] -> length t = 2 -> wf_id own -> length token = 20 ->
  exists s' r, gstep now pick s (GGetPeers ih from t) = Val (s', [CReply from t r]) /\
    (length (kmsg_bytes (resp_message own t token r)) <= 1300 <-> length (nodup addr_dec (announced ih h)) <= 151).
Proof.
  intros h s now pick ih from t own token info m0 t0 W0 N0 A0 R0 H F WI NE AN T W K.
  destruct (@C50_foreign_partial info m0 t0 N0 R0 h s ih now pick from t H NE WI F) as (s' & o & E & _ & V).
  destruct (V AN) as (v & -> & _ & _ & L & _). exists s', (PGetPeers (VValues v)). split; [exact E|].
  rewrite (@C78_exact h s now pick (GGetPeers ih from t) s' _ from t v own token info m0 t0 W0 N0 A0 R0 H F WI E (or_introl eq_refl) W K).
  rewrite T, L. change (length (enc_num (N.of_nat 2))) with 1. lia.
Qed.
(** 151 peers fit, 152 do not. *)
Example C78_crowd_example : exists s151 s152,
  gruns ih_own [] nobody (announces ih_other (crowd_of 151)) s151 /\ gruns ih_own [] nobody (announces ih_other (crowd_of 152)) s152 /\
  (forall now pick from own token, fair pick -> wf_id own -> length token = 20 ->
     exists s' r, gstep now pick s151 (GGetPeers ih_other from (str "aa")) = Val (s', [CReply from (str "aa") r]) /\
       length (kmsg_bytes (resp_message own (str "aa") token r)) <= 1300) /\
  (forall now pick from own token, fair pick -> wf_id own -> length token = 20 ->
     exists s' r, gstep now pick s152 (GGetPeers ih_other from (str "aa")) = Val (s', [CReply from (str "aa") r]) /\
       1300 < length (kmsg_bytes (resp_message own (str "aa") token r))).
Proof.
  destruct (@announces_run ih_other (crowd_of 151) eq_refl) as (s151 & H1); [apply crowd_wf; cbn; lia|].
  destruct (@announces_run ih_other (crowd_of 152) eq_refl) as (s152 & H2); [apply crowd_wf; cbn; lia|].
  exists s151, s152. split; [exact H1|]. split; [exact H2|].
  assert (ND : forall n, nodup addr_dec (announced ih_other (announces ih_other (crowd_of n))) = crowd_of n \/ length (nodup addr_dec (announced ih_other (announces ih_other (crowd_of n)))) = n).
  { intro n. right. rewrite announces_announced.
    assert (X : forall l : list addr, NoDup l -> length (nodup addr_dec l) = length l) by (intros l NL; rewrite nodup_fixed_point by exact NL; reflexivity).
    rewrite X by first [apply NoDup_rev, crowd_nodup|apply crowd_nodup]. rewrite ?rev_length. apply crowd_length. }
  assert (LN : forall n, length (nodup addr_dec (announced ih_other (announces ih_other (crowd_of n)))) = n).
  { intro n. destruct (ND n) as [->|X]; auto. apply crowd_length. }
  assert (G : forall n s, gruns ih_own [] nobody (announces ih_other (crowd_of n)) s -> n <> 0 -> forall now pick from own token, fair pick -> wf_id own -> length token = 20 ->
     exists s' r, gstep now pick s (GGetPeers ih_other from (str "aa")) = Val (s', [CReply from (str "aa") r]) /\
       (length (kmsg_bytes (resp_message own (str "aa") token r)) <= 1300 <-> n <= 151)).
  { intros n s H Z now pick from own token F W K.
    destruct (@C78_crowd_always _ s now pick ih_other from (str "aa") own token ih_own [] nobody eq_refl (NoDup_nil _) (Forall_nil _) nobody_reachable H F eq_refl) as (s' & r & E & X); auto.
    - discriminate.
    - intro E. pose proof (LN n) as LL. rewrite E in LL. cbn in LL. congruence.
    - exists s', r. split; [exact E|]. rewrite X, LN. reflexivity. }
  split; intros now pick from own token F W K.
  - destruct (@G 151 s151 H1 ltac:(discriminate) now pick from own token F W K) as (s' & r & E & X). exists s', r. split; [exact E|]. apply X. lia.
  - destruct (@G 152 s152 H2 ltac:(discriminate) now pick from own token F W K) as (s' & r & E & X). exists s', r. split; [exact E|].
    destruct (le_lt_dec (length (kmsg_bytes (resp_message own (str "aa") token r))) 1300) as [L|L]; [|exact L]. apply X in L. lia.
Qed.

(** ** C80 *)
(** The peers of a table not known to be unreachable. *)
Definition usable_peers (m : peers) : list addr :=
  flat_map (fun ps => match snd ps with UnableToConnect => [] | _ => [fst ps] end) m.
Lemma usable_in : forall m p, In p (usable_peers m) <-> exists st, status_of m p st /\ st <> UnableToConnect.
Proof.
  intros m p. unfold usable_peers. rewrite in_flat_map. split.
  - intros ((q & st) & I & J). cbn [snd fst] in J. exists st. destruct st; cbn in J; try (destruct J as [<-|[]]; split; [exact I|discriminate]); destruct J.
  - intros (st & I & J). exists (p, st). split; [exact I|]. cbn [snd fst]. destruct st; try (left; reflexivity). congruence.
Qed.
Lemma usable_nodup : forall m, NoDup (map fst m) -> NoDup (usable_peers m).
Proof.
  intros m N. induction m as [|(p & st) m IH]; cbn [usable_peers flat_map]; [constructor|]. cbn [map fst] in N. inversion N as [|? ? NI N']; subst.
  fold (usable_peers m). specialize (IH N'). cbn [snd fst].
  assert (Q : ~ In p (usable_peers m)). { intro I. apply usable_in in I. destruct I as (s & I & _). apply NI. apply in_map_iff. exists (p, s). auto. }
  destruct st; cbn [app]; try (constructor; assumption). exact IH.
Qed.
(** Whoever asks: the peers named in the answer are marked as in use, all
    others keep their status. The answer names as many of the usable peers as
    fit (216), those in use first. *)
Theorem C80_own_always : forall info m0 t0 h s now pick from t s' o, wf_id info -> NoDup (map fst m0) -> reachable t0 ->
  gruns info m0 t0 h s -> gstep now pick s (GGetPeers info from t) = Val (s', o) ->
  exists v, (v <> [] -> o = [CReply from t (PGetPeers (VValues v))]) /\ NoDup v /\ incl v (usable_peers (g_peers s)) /\
    length v = Nat.min 216 (length (usable_peers (g_peers s))) /\
    (forall p q, In p v -> ~ status_of (g_peers s) p Active -> status_of (g_peers s) q Active -> In q v) /\
    forall p st, status_of (g_peers s') p st <-> (In p v /\ st = Active) \/ (~ In p v /\ status_of (g_peers s) p st).
Proof.
  intros info m0 t0 h s now pick from t s' o W N R H E. pose proof (runs_inv N R H) as G. cbn [gstep] in E. unfold on_get_peers, find_peers, q_serve in E.
  rewrite (gi_info G), bytes_eqb_refl in E. change (DHT_MTU / COMPACT_PEER_LEN) with 216 in E.
  destruct (@C25_good_peers (g_peers s) 216 (gi_nodup G)) as (m' & v & EQ & GB). rewrite EQ in E. cbn [rbind fst snd] in E.
  assert (ES : s' = mk_dmgr info m' (g_map s) (g_table s) /\ (v <> [] -> o = [CReply from t (PGetPeers (VValues v))])).
  { destruct v; [|injection E as <- <-; split; auto]. destruct (find_node now (g_table s) info); try discriminate. injection E as <- _. split; [reflexivity|congruence]. }
  destruct ES as (-> & OUT). exists v. split; [exact OUT|]. split; [apply (gb_nodup GB)|]. cbn [g_peers].
  assert (IC : incl v (usable_peers (g_peers s))).
  { intros p I. apply usable_in. destruct (gb_eligible GB p I) as (st & r & S & RK). exists st. split; [exact S|]. intros ->. discriminate RK. }
  split; [exact IC|]. split; [|split].
  - pose proof (NoDup_incl_length (gb_nodup GB) IC) as L1. pose proof (gb_size GB) as L2. destruct (gb_maximal GB) as [MX|MX]; [lia|].
    assert (IC2 : incl (usable_peers (g_peers s)) v).
    { intros p I. apply usable_in in I. destruct I as (st & S & NU). destruct st; try (eapply MX; [exact S|reflexivity]). congruence. }
    pose proof (NoDup_incl_length (usable_nodup _ (gi_nodup G)) IC2). lia.
  - intros p q I NA A. destruct (in_dec addr_dec q v) as [J|J]; [exact J|exfalso]. destruct (gb_eligible GB p I) as (st & r & S & RK).
    assert (LE : r <= 0) by (eapply (gb_priority GB); [exact I|exact S|exact RK|exact J|exact A|reflexivity]). destruct st; cbn in RK; try discriminate; injection RK as <-; try lia. contradiction.
  - intros p st. assert (ND : NoDup (map fst m')) by (rewrite (gb_same_peers GB); apply (gi_nodup G)).
    destruct (in_dec addr_dec p v) as [J|J].
    + pose proof (gb_marked GB p J) as A. split.
      * intro S. left. split; [exact J|]. exact (@status_fun _ _ _ _ ND S A).
      * intros [(_ & ->)|(X & _)]; [exact A|contradiction].
    + rewrite (gb_frame GB p st J). split; [right; auto|]. intros [(X & _)|(_ & X)]; [contradiction|exact X].
Qed.
(** So a lookup changes something exactly if it is for our hash and a peer it
    names was not in use; with up to 216 usable peers: exactly if some usable
    peer was not in use. *)
Theorem C80_exact : forall info m0 t0 h s now pick ih from t s' o, wf_id info -> NoDup (map fst m0) -> reachable t0 ->
  gruns info m0 t0 h s -> gstep now pick s (GGetPeers ih from t) = Val (s', o) -> length (usable_peers (g_peers s)) <= 216 ->
  ((forall p st, status_of (g_peers s') p st <-> status_of (g_peers s) p st) <->
   (ih <> info \/ forall p st, status_of (g_peers s) p st -> st = Active \/ st = UnableToConnect)).
Proof.
  intros info m0 t0 h s now pick ih from t s' o W N R H E L. pose proof (runs_inv N R H) as G.
  destruct (bytes_eq_dec ih info) as [->|NE].
  2:{ split; [left; exact NE|intros _]. apply (@C80_lookup_harmless_partial info m0 t0 h s now pick ih from t s' o W N R H E). exact NE. }
  destruct (@C80_own_always info m0 t0 h s now pick from t s' o W N R H E) as (v & _ & ND & IC & LV & _ & ST).
  assert (AL : incl (usable_peers (g_peers s)) v) by (apply NoDup_length_incl; [exact ND|lia|exact IC]).
  split.
  - intro SAME. right. intros p st S. destruct st; auto; left;
    (assert (I : In p v) by (apply AL, usable_in; eexists; split; [exact S|discriminate]);
     assert (A : status_of (g_peers s) p Active) by (apply SAME, ST; left; auto);
     exact (@status_fun _ _ _ _ (gi_nodup G) S A)).
  - intros [X|X]; [congruence|]. intros p st. rewrite ST. split.
    + intros [(I & ->)|(_ & S)]; [|exact S]. apply IC, usable_in in I. destruct I as (st & S & NU). destruct (X p st S) as [->| ->]; [exact S|congruence].
    + intro S. destruct (in_dec addr_dec p v) as [I|I]; [left|right; auto]. split; [exact I|]. destruct (X p st S) as [->| ->]; [reflexivity|].
      apply IC, usable_in in I. destruct I as (st & S2 & NU). rewrite (@status_fun _ _ _ _ (gi_nodup G) S2 S) in NU. congruence.
Qed.
Example C80_exact_example : exists s, gruns ih_own [] nobody [(GNewPeer (crowd_peer 1) ih_own, [])] s /\ usable_peers (g_peers s) = [crowd_peer 1] /\
  exists s' o, gstep 0%N (fun k l => firstn k l) s (GGetPeers ih_own (crowd_peer 0) []) = Val (s', o) /\ g_peers s' = [(crowd_peer 1, Active)].
Proof.
  exists (mk_dmgr ih_own [(crowd_peer 1, Unknown)] [(ih_own, [])] nobody). split.
  - eapply gr_step with (now := 0%N) (pick := fun k l => firstn k l); [apply gr_nil| | |reflexivity].
    + intros k l N. split; [|split].
      * rewrite <- (firstn_skipn k l) in N. eapply NoDup_app_l; eauto.
      * intros x X. rewrite <- (firstn_skipn k l). apply in_or_app. auto.
      * apply firstn_length.
    + split; reflexivity.
  - split; [reflexivity|]. do 2 eexists. split; reflexivity.
Qed.
Print Assumptions C78_values_size.
Print Assumptions C78_exact.
Print Assumptions C78_crowd_always.
Print Assumptions C80_own_always.
Print Assumptions C80_exact.
