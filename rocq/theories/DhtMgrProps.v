(** C50, C78-C80: the DHT task. *)
From Coq Require Import Strings.String.
From Coq Require Import List NArith ZArith Lia Bool Arith Permutation.
From Coq Require Import Init.Byte.
From Verif Require Import Base Assoc IdModel IdProofs WireModel WireProofs TableModel TableSpec TableProofs TableProofs2 TableProps LookupProps
  PeersModel PeersSpec PeersProofs PeersProps BencodeModel BencodeSpec BencodeProofs KrpcModel KrpcSpec KrpcProofs KrpcProps DhtModel DhtProps DhtMgrModel DhtMgrSpec.
Import ListNotations.
Set Implicit Arguments.
Local Open Scope list_scope.

(** ** the invariant *)
Section inv.
Variables (info : ID) (m0 : peers) (t0 : table).
Hypothesis W0 : wf_id info.
Hypothesis N0 : NoDup (map fst m0).
Hypothesis R0 : reachable t0.

Record ginv (h : ghist) (s : dmgr) : Prop := {
  gi_info : g_info s = info;
  gi_table : reachable (g_table s);
  gi_own : t_own (g_table s) = t_own t0;
  gi_nodup : NoDup (map fst (g_peers s));
  gi_peers : forall p, In p (map fst (g_peers s)) <-> In p (map fst m0) \/ In p (announced info h) \/ In p (shared_names h);
  gi_map : forall ih, ih <> info ->
    match mget bytes_eqb ih (g_map s) with
    | None => announced ih h = []
    | Some l => l <> [] /\ NoDup l /\ forall p, In p l <-> In p (announced ih h)
    end;
  gi_origin : forall n, In n (t_nodes (g_table s)) ->
    (exists m, In m (t_nodes t0) /\ n_id m = n_id n /\ n_addr m = n_addr n) \/ In (n_id n, n_addr n) (answered h) }.

Lemma set_add_spec : forall p l, NoDup l -> set_add p l <> [] /\ NoDup (set_add p l) /\ forall q, In q (set_add p l) <-> q = p \/ In q l.
Proof.
  intros p l N. unfold set_add. destruct (existsb (addr_eqb p) l) eqn:E.
  - apply existsb_exists in E. destruct E as (x & X & Y). apply addr_eqb_spec in Y. subst x.
    split; [intro Q; subst l; destruct X|]. split; auto. intro q. split; auto. intros [->|H]; auto.
  - split; [discriminate|]. split.
    + constructor; auto. intro H. apply not_true_iff_false in E. apply E. apply existsb_exists. exists p. split; auto. apply addr_eqb_spec. auto.
    + intro q. cbn. split; intros [H|H]; auto.
Qed.
Lemma ann_cons : forall ih i o h, announced ih ((i, o) :: h) =
  match i with GNewPeer p ih' => if bytes_eqb ih ih' then [p] else [] | _ => [] end ++ announced ih h.
Proof. reflexivity. Qed.

(** Every input is handled, and the invariant kept. *)
Lemma unknown_spec : forall t l, reachable t -> Forall wf_node l ->
  exists r, unknown_addrs t l = Val r /\ forall a, In a r <-> exists n, In n l /\ n_addr n = a /\ ~ TableSpec.known t (n_id n).
Proof.
  intros t l R F. induction l as [|n l IH]; cbn [unknown_addrs].
  - eexists. split; [reflexivity|]. intro a. split; [intros []|intros (n & [] & _)].
  - destruct (Forall_inv F) as (W & _). destruct (@C44_contains t (n_id n) R W) as (b & -> & B). cbn [rbind].
    destruct (IH (Forall_inv_tail F)) as (r & -> & Q). cbn [rmap]. eexists. split; [reflexivity|].
    intro a. destruct b.
    + rewrite Q. split.
      * intros (m & M1 & M2). exists m. split; [right; auto|auto].
      * intros (m & [->|M1] & M2 & M3); [exfalso; apply M3, B; auto|eauto].
    + cbn [In]. rewrite Q. split.
      * intros [<-|(m & M1 & M2)]; [exists n; split; [left; auto|split; auto]|exists m; split; [right; auto|auto]].
        intro K. apply B in K. discriminate.
      * intros (m & [->|M1] & M2 & M3); [left; auto|right; eauto].
Qed.
Lemma find_nodes_for_spec : forall now t ids, reachable t -> Forall wf_id ids -> exists o, find_nodes_for now t ids = Val o.
Proof.
  intros now t ids R F. induction ids as [|i ids IH]; cbn [find_nodes_for]; [eauto|].
  destruct (@closest_spec now t i (reachable_inv R) (Forall_inv F)) as (c & -> & _). cbn [rbind].
  destruct (IH (Forall_inv_tail F)) as (o & ->). cbn [rmap]. eauto.
Qed.
Lemma iter_ids_spec : forall now t draws, reachable t -> n_buckets t <= length draws ->
  (forall d, In d draws -> 20 <= length (fst d) /\ 8 <= length (snd d)) ->
  exists ids, iter_over_ids now t draws = Val ids /\ Forall wf_id ids.
Proof.
  intros now t draws R L E. destruct (@C49_refresh_targets t now draws R) as (l & H & F & _); auto.
  { apply Forall_forall. intros d D. auto. }
  exists (l ++ (if n_buckets t <=? 160 then [t_own t] else [])). split; [exact H|]. apply Forall_app. split.
  - apply Forall_forall. intros x X. clear - F X. induction F as [|i y L1 L2 (Q & _) F IH]; [destruct X|]. destruct X as [X|X]; subst; auto.
  - destruct (n_buckets t <=? 160); repeat constructor. apply (i_own (reachable_inv R)).
Qed.
Lemma find_node_total : forall now t id, reachable t -> wf_id id -> exists o, find_node now t id = Val o /\
  match o with None => count (fresh now) (t_nodes t) = 0 | Some n => length (nodes_list n) <= 15 /\ Forall (fun x => In x (t_nodes t)) (nodes_list n) end.
Proof.
  intros now t id R W. destruct (in_dec bytes_eq_dec id (map n_id (t_nodes t))) as [K|K].
  - destruct (@C47_exact now t id R W K) as (n & H & IN & _). exists (Some (Exact n)). split; [exact H|]. cbn. split; [lia|repeat constructor; auto].
  - destruct (@C47_closest_partial now t id R W K) as (o & H & O). exists o. split; [exact H|]. destruct o as [[n|l]|]; [destruct O| |exact O].
    cbn [nodes_list]. revert O. clear. intro O. repeat match goal with H : _ /\ _ |- _ => destruct H end.
    split; [lia|]. apply Forall_forall. intros x X. match goal with H : forall n, In n l -> _ |- _ => destruct (H x X); auto end.
Qed.

Lemma fresh_map : forall h i o s ih, ginv h s -> ih <> info ->
  (forall p ih', i = GNewPeer p ih' -> ih' <> ih) ->
  match mget bytes_eqb ih (g_map s) with
  | None => announced ih ((i, o) :: h) = []
  | Some l => l <> [] /\ NoDup l /\ forall p, In p l <-> In p (announced ih ((i, o) :: h))
  end.
Proof.
  intros h i o s ih G NE H. rewrite ann_cons.
  replace (match i with GNewPeer p ih' => if bytes_eqb ih ih' then [p] else [] | _ => [] end) with (@nil addr); [exact (gi_map G NE)|].
  destruct i as [| |p ih'| | | |]; auto. destruct (bytes_eqb ih ih') eqn:E; auto. apply bytes_eqb_eq in E. exfalso. eapply H; eauto.
Qed.
Lemma step_inv : forall h s now pick i, ginv h s -> fair pick -> wf_gin s i ->
  exists s' o, gstep now pick s i = Val (s', o) /\ ginv ((i, o) :: h) s'.
Proof.
  intros h s now pick i G F W. pose proof (gi_table G) as R. pose proof (gi_nodup G) as ND.
  assert (SAME : forall o m, NoDup (map fst m) -> (forall p, In p (map fst m) <-> In p (map fst (g_peers s))) ->
    (match i with GFindNode _ _ _ | GGetPeers _ _ _ | GRefresh _ | GPort _ | GResp (FGetPeers _ _ _) => True | _ => False end) ->
    ginv ((i, o) :: h) (mk_dmgr (g_info s) m (g_map s) (g_table s))).
  { intros o m N1 K Q. split; cbn [g_info g_table g_peers g_map].
    - apply (gi_info G). - exact R. - apply (gi_own G). - exact N1.
    - intro p. rewrite K, (gi_peers G). destruct i as [| | |[| |]| | |]; try destruct Q; reflexivity.
    - intros ih NE. apply fresh_map; auto. intros p ih' ->. destruct Q.
    - intros n Hn. destruct (gi_origin G n Hn) as [A|A]; [left; auto|right].
      destruct i as [| | |[| |]| | |]; try destruct Q; exact A. }
  assert (SAME1 : forall o,
    (match i with GFindNode _ _ _ | GGetPeers _ _ _ | GRefresh _ | GPort _ | GResp (FGetPeers _ _ _) => True | _ => False end) ->
    ginv ((i, o) :: h) s).
  { intros o Q. specialize (SAME o (g_peers s) ND ltac:(intro; reflexivity) Q). destruct s; exact SAME. }
  assert (TOUCH : forall id from o, wf_id id -> wf_addr from ->
    (match i with GResp (FTouch a b) => a = id /\ b = from | GResp (FNewNodes _ b a) => a = id /\ b = from | _ => False end) ->
    exists t, touch_node now id from (g_table s) = Val t /\ reachable t /\ ginv ((i, o) :: h) (set_table s t)).
  { intros id from o W1 W2 Q. destruct (@C44_total_restarts (g_table s) [mk_touch now id from] R) as (t & H & O & RT).
    { repeat constructor; auto. }
    cbn [run te_now te_id te_addr] in H. destruct (touch_node now id from (g_table s)) as [t'| |] eqn:T; try discriminate.
    cbn [rbind] in H. injection H as ->. exists t. split; [auto|]. split; [auto|]. unfold set_table. split; cbn [g_info g_table g_peers g_map].
    - apply (gi_info G). - exact RT. - rewrite O. apply (gi_own G). - exact ND.
    - intro p. rewrite (gi_peers G). destruct i as [| | |[| |]| | |]; try destruct Q; reflexivity.
    - intros ih NE. apply fresh_map; auto. intros p ih' ->. destruct Q.
    - intros n Hn. destruct (@touch_origin _ _ _ _ _ n (reachable_inv R) W1 T Hn) as [(A & B)|(m & A & B & C)].
      + right. destruct i as [| | |[| |]| | |]; try (exfalso; exact Q); destruct Q as (-> & ->); left; congruence.
      + rewrite <- B, <- C. destruct (gi_origin G m A) as [D|D]; [left; auto|right].
        destruct i as [| | |[| |]| | |]; try (exfalso; exact Q); right; exact D. }
  destruct i as [target from t|ih from t|p ih|[id from|n from id|from tk v]|draws|a|o]; cbn [gstep wf_gin] in *.
  - unfold on_find_node. destruct (@find_node_total now _ target R W) as (o & -> & _). cbn [rmap]. do 2 eexists. split; [reflexivity|]. auto.
  - unfold on_get_peers, find_peers. destruct (q_serve (g_info s) ih) eqn:SV.
    + destruct (@C25_good_peers (g_peers s) (DHT_MTU / COMPACT_PEER_LEN) ND) as (m' & out & -> & GB). cbn [rbind fst snd].
      assert (GI : forall o, ginv ((GGetPeers ih from t, o) :: h) (mk_dmgr (g_info s) m' (g_map s) (g_table s))).
      { intro o. apply SAME; auto; rewrite (gb_same_peers GB); auto. intro; reflexivity. }
      destruct out as [|x out]; [|do 2 eexists; split; [reflexivity|apply GI]].
      destruct (@find_node_total now _ ih R W) as (o & -> & _). cbn [rmap]. do 2 eexists. split; [reflexivity|]. auto.
    + cbn [rbind fst snd]. destruct (mget bytes_eqb ih (g_map s)) as [l|]; cbn [option_map].
      * do 2 eexists. split; [reflexivity|]. apply SAME; auto. intro; reflexivity.
      * destruct (@find_node_total now _ ih R W) as (o & -> & _). cbn [rmap]. do 2 eexists. split; [reflexivity|].
        apply SAME; auto. intro; reflexivity.
  - do 2 eexists. split; [reflexivity|]. unfold store_new_peer, q_serve. rewrite (gi_info G). destruct (bytes_eqb ih info) eqn:E.
    + apply bytes_eqb_eq in E. subst ih. split; cbn [g_info g_table g_peers g_map]; auto.
      * apply (gi_own G).
      * apply NoDup_qset; auto.
      * intro q. unfold q_insert. rewrite in_keys_qset, (gi_peers G), ann_cons, bytes_eqb_refl. cbn [app In].
        change (shared_names ((GNewPeer p info, []) :: h)) with (shared_names h). intuition.
      * intros ih NE. apply fresh_map; auto. intros p' ih' Q. injection Q as <- <-. auto.
      * intros n Hn. exact (gi_origin G n Hn).
    + split; cbn [g_info g_table g_peers g_map]; auto.
      * apply (gi_own G).
      * intro q. rewrite (gi_peers G), ann_cons. destruct (bytes_eqb info ih) eqn:E2; [|reflexivity].
        apply bytes_eqb_eq in E2. subst ih. rewrite bytes_eqb_refl in E. discriminate.
      * intros ih' NE. destruct (bytes_eq_dec ih' ih) as [->|NI].
        -- rewrite (mget_mset_same _ bytes_eqb_eq), ann_cons, bytes_eqb_refl. pose proof (gi_map G NE) as M.
           destruct (mget bytes_eqb ih (g_map s)) as [l|].
           ++ destruct M as (M1 & M2 & M3). destruct (set_add_spec p M2) as (A & B & C). split; [exact A|]. split; [exact B|].
              intro q. rewrite C, M3. cbn [app In]. intuition.
           ++ rewrite M. split; [discriminate|]. split; [repeat constructor; intros []|]. intro q. reflexivity.
        -- rewrite (mget_mset_other _ bytes_eqb_eq) by auto. apply fresh_map; auto. intros p' ih2 Q. injection Q as <- <-. auto.
      * intros n Hn. exact (gi_origin G n Hn).
  - destruct W as (W1 & W2). destruct (TOUCH id from [] W1 W2) as (t & T & RT & GI); [auto|]. unfold on_resp. rewrite T. cbn [rmap].
    do 2 eexists. split; [reflexivity|exact GI].
  - destruct W as (W1 & W2 & W3). unfold on_resp.
    destruct (TOUCH id from [] W1 W2) as (t & T & RT & _); [auto|]. rewrite T. cbn [rbind].
    destruct (@unknown_spec t (nodes_list n) RT W3) as (l & -> & _). cbn [rmap]. do 2 eexists. split; [reflexivity|].
    destruct (TOUCH id from (map (fun a => CQuery a QPing) l) W1 W2) as (t' & T' & _ & GI); [auto|]. rewrite T in T'. injection T' as <-. exact GI.
  - do 2 eexists. split; [reflexivity|]. auto.
  - unfold refresh_table. destruct W as (W1 & W2). destruct (@iter_ids_spec now _ draws R W1 W2) as (ids & -> & WI). cbn [rbind].
    destruct (@find_nodes_for_spec now _ ids R WI) as (o & ->). cbn [rmap]. do 2 eexists. split; [reflexivity|]. auto.
  - do 2 eexists. split; [reflexivity|]. auto.
  - destruct (@step_keys (g_peers s) o ND) as (m' & out & -> & N1 & K). cbn [rmap fst]. do 2 eexists. split; [reflexivity|].
    split; cbn [g_info g_table g_peers g_map]; auto.
    + apply (gi_info G).
    + apply (gi_own G).
    + intro p. rewrite K, (gi_peers G). rewrite ann_cons. cbn [app].
      change (shared_names ((GShared o, []) :: h)) with (names o ++ shared_names h). rewrite in_app_iff. tauto.
    + intros ih NE. apply fresh_map; auto. discriminate.
    + intros n Hn. exact (gi_origin G n Hn).
Qed.
Lemma runs_inv : forall h s, gruns info m0 t0 h s -> ginv h s.
Proof.
  intros h s H. induction H as [|h s now pick i s' o H IH F W E|h s m H IH P].
  - split; cbn [g_start g_info g_table g_peers g_map]; auto.
    + intro p. cbn. tauto.
    + intros ih NE. cbn [mget]. destruct (bytes_eqb ih info) eqn:Q; [apply bytes_eqb_eq in Q; contradiction|]. reflexivity.
    + intros n Hn. left. eauto.
  - destruct (@step_inv h s now pick i IH F W) as (s1 & o1 & E1 & G). rewrite E in E1. injection E1 as <- <-. exact G.
  - assert (P2 : Permutation (map fst (g_peers s)) (map fst m)) by (apply Permutation_map; auto).
    destruct IH. split; cbn [g_info g_table g_peers g_map]; auto.
    + eapply Permutation_NoDup; eauto.
    + intro p. rewrite <- gi_peers0. split; apply Permutation_in; auto. symmetry. auto.
Qed.
End inv.

(** ** C50 *)
Lemma last_returned_in : forall bad p st, last_returned bad p = Some st -> In (p, st) bad.
Proof.
  induction bad as [|[q sq] t IH] using rev_ind; intros p st; [discriminate|]. unfold last_returned. rewrite fold_left_app. cbn [fold_left fst snd].
  fold (last_returned t p). destruct (addr_eqb q p) eqn:E.
  - apply addr_eqb_spec in E. intro H. injection H as <-. subst q. apply in_or_app. right. left. auto.
  - intro H. apply in_or_app. left. auto.
Qed.
(** Peers marked as unreachable were reported so by another task. *)
Lemma utc_step : forall m o m' out p, NoDup (map fst m) -> q_step m o = Val (m', out) -> status_of m' p UnableToConnect ->
  status_of m p UnableToConnect \/ exists bad l, o = QBatch bad l /\ In (p, UnableToConnect) bad.
Proof.
  intros m o m' out p N E U. destruct o as [q|ps|bad l|l|u]; cbn [q_step] in E.
  - injection E as <- <-. left. destruct (addr_dec p q) as [->|NE].
    + unfold q_insert in U. rewrite status_get in U by (apply NoDup_qset; auto). unfold qget, qset in U. rewrite (mget_mset_same _ addr_eqb_spec) in U. discriminate.
    + unfold q_insert in U. apply (@qset_status_other q Unknown m p UnableToConnect N NE) in U. exact U.
  - injection E as <- <-. left. destruct (@C25_learnt_available m ps N) as (m1 & E1 & P). cbn [q_step] in E1. injection E1 as <-.
    destruct (P p UnableToConnect) as (P1 & P2). destruct (in_dec addr_dec p ps) as [I|I]; [apply (P1 I) in U; discriminate|apply (P2 I); auto].
  - destruct (@C25_batch m bad l N) as (m1 & m2 & o2 & E1 & N1 & S1 & GB). rewrite E in E1. injection E1 as <- <-.
    assert (N2 : NoDup (map fst m')) by (rewrite (gb_same_peers GB); auto).
    destruct (in_dec addr_dec p out) as [I|I].
    { apply (gb_marked GB) in I. pose proof (@status_fun _ _ _ _ N2 U I). discriminate. }
    apply (gb_frame GB) in U; auto. apply S1 in U. destruct (last_returned bad p) as [st|] eqn:L; auto.
    right. exists bad, l. split; auto. subst st. apply last_returned_in. exact L.
  - left. destruct (@C25_good_peers m l N) as (m1 & o1 & E1 & GB). rewrite E1 in E. cbn [rmap fst snd] in E. injection E as <- E.
    assert (N2 : NoDup (map fst m1)) by (rewrite (gb_same_peers GB); auto).
    destruct (in_dec addr_dec p o1) as [I|I].
    { apply (gb_marked GB) in I. pose proof (@status_fun _ _ _ _ N2 U I). discriminate. }
    apply (gb_frame GB) in U; auto.
  - left. unfold q_enough in E. destruct (@C25_good_peers m u N) as (m1 & o1 & E1 & GB). rewrite E1 in E. cbn [rmap fst snd] in E. injection E as <- E.
    assert (N2 : NoDup (map fst m1)) by (rewrite (gb_same_peers GB); auto).
    destruct (in_dec addr_dec p o1) as [I|I].
    { apply (gb_marked GB) in I. pose proof (@status_fun _ _ _ _ N2 U I). discriminate. }
    apply (gb_frame GB) in U; auto.
Qed.

(** Peers another task reported as unreachable. *)
Definition unreachable (h : ghist) (p : addr) : Prop :=
  exists bad l o, In (GShared (QBatch bad l), o) h /\ In (p, UnableToConnect) bad.

Section props.
Variables (info : ID) (m0 : peers) (t0 : table).
Hypothesis W0 : wf_id info.
Hypothesis N0 : NoDup (map fst m0).
Hypothesis R0 : reachable t0.
Notation Runs := (gruns info m0 t0).

Lemma utc_runs : forall h s p, Runs h s -> status_of (g_peers s) p UnableToConnect -> In (p, UnableToConnect) m0 \/ unreachable h p.
Proof.
  intros h s p H. induction H as [|h s now pick i s' o H IH F W E|h s m H IH P]; intro U.
  - left. exact U.
  - pose proof (runs_inv N0 R0 H) as G.
    assert (D : status_of (g_peers s) p UnableToConnect \/ exists bad l, i = GShared (QBatch bad l) /\ In (p, UnableToConnect) bad).
    { destruct i as [target from t|ih from t|q ih|r|draws|a|x]; cbn [gstep] in E.
      - unfold on_find_node in E. destruct (find_node now (g_table s) target); try discriminate. injection E as <- _. auto.
      - unfold on_get_peers, find_peers in E. destruct (q_serve (g_info s) ih).
        + destruct (@C25_good_peers (g_peers s) (DHT_MTU / COMPACT_PEER_LEN) (gi_nodup G)) as (m' & out & EG & GB). rewrite EG in E.
          assert (EP : g_peers s' = m').
          { cbn [rbind fst snd] in E. destruct out; [|injection E as <- _; reflexivity].
            destruct (find_node now (g_table s) ih); try discriminate. injection E as <- _. reflexivity. }
          rewrite EP in U. clear E. destruct (@utc_step (g_peers s) (QGood (DHT_MTU / COMPACT_PEER_LEN)) m' out p (gi_nodup G)) as [Q|(b & l & Q & _)]; auto; try discriminate.
          cbn [q_step]. rewrite EG. cbn [rmap fst snd]. destruct out; reflexivity.
        + cbn [rbind fst snd] in E. destruct (option_map _ _); [injection E as <- _; auto|].
          destruct (find_node now (g_table s) ih); try discriminate. injection E as <- _. auto.
      - injection E as <- _. unfold store_new_peer in U. destruct (q_serve (g_info s) ih); auto. cbn [g_peers] in U.
        destruct (@utc_step (g_peers s) (QInsert q) _ [] p (gi_nodup G) eq_refl U) as [Q|(b & l & Q & _)]; [auto|discriminate].
      - assert (EP : g_peers s' = g_peers s).
        { destruct r as [id from|n from id|]; cbn [on_resp] in E.
          - destruct (touch_node _ _ _ _); try discriminate. injection E as <- _. reflexivity.
          - destruct (touch_node _ _ _ _) as [t| |]; try discriminate. cbn [rbind] in E. destruct (unknown_addrs _ _); try discriminate.
            injection E as <- _. reflexivity.
          - injection E as <- _. reflexivity. }
        rewrite EP in U. auto.
      - unfold refresh_table in E. destruct (iter_over_ids _ _ _); try discriminate. cbn [rbind] in E.
        destruct (find_nodes_for _ _ _); try discriminate. injection E as <- _. auto.
      - injection E as <- _. auto.
      - destruct (q_step (g_peers s) x) as [[m' out]| |] eqn:Q; try discriminate. cbn [rmap fst] in E. injection E as <- _. cbn [g_peers] in U.
        destruct (@utc_step _ _ _ _ p (gi_nodup G) Q U) as [|(b & l & -> & I)]; eauto. }
    destruct D as [D|(bad & l & -> & I)].
    + destruct (IH D) as [A|(bad & l & o' & A & B)]; [left; auto|right; exists bad, l, o'; split; [right; auto|auto]].
    + right. exists bad, l, o. split; [left; auto|auto].
  - apply IH. unfold status_of in *. cbn [g_peers] in U. eapply Permutation_in; [symmetry; eauto|auto].
Qed.

(** Full statement: an announced peer is in every later answer for that hash. *)
Definition C50_served_always (h : ghist) (s : dmgr) : Prop := forall ih p now pick from t,
  wf_id ih -> fair pick -> In p (announced ih h) ->
  exists s' v, gstep now pick s (GGetPeers ih from t) = Val (s', [CReply from t (PGetPeers (VValues v))]) /\ In p v.
(** Another torrent's hash: up to 216 of the announced peers, all of them if
    there are no more, none of another hash; nodes if there are none. *)
Theorem C50_foreign_partial : forall h s ih now pick from t, Runs h s -> ih <> info -> wf_id ih -> fair pick ->
  exists s' o, gstep now pick s (GGetPeers ih from t) = Val (s', o) /\
    (announced ih h = [] -> forall v, ~ In (CReply from t (PGetPeers (VValues v))) o) /\
    (announced ih h <> [] -> exists v, o = [CReply from t (PGetPeers (VValues v))] /\ NoDup v /\ incl v (announced ih h) /\
       length v = Nat.min 216 (length (nodup addr_dec (announced ih h))) /\
       (length (nodup addr_dec (announced ih h)) <= 216 -> incl (announced ih h) v)).
Proof.
  intros h s ih now pick from t H NE W F. pose proof (runs_inv N0 R0 H) as G. cbn [gstep]. unfold on_get_peers, find_peers, q_serve.
  rewrite (gi_info G). destruct (bytes_eqb ih info) eqn:E; [apply bytes_eqb_eq in E; contradiction|]. cbn [rbind fst snd].
  pose proof (gi_map G NE) as M. destruct (mget bytes_eqb ih (g_map s)) as [l|]; cbn [option_map].
  - destruct M as (M1 & M2 & M3). do 2 eexists. split; [reflexivity|]. split.
    { intro Z. exfalso. destruct l as [|x l]; [congruence|]. specialize (M3 x). rewrite Z in M3. apply M3. left. auto. }
    intros _. destruct (F (DHT_MTU / COMPACT_PEER_LEN) l M2) as (C1 & C2 & C3). change (DHT_MTU / COMPACT_PEER_LEN) with 216 in *.
    eexists. split; [reflexivity|]. split; [exact C1|].
    assert (LL : length l = length (nodup addr_dec (announced ih h))).
    { apply Permutation_length. apply NoDup_Permutation; auto; [apply NoDup_nodup|]. intro x. rewrite M3, nodup_In. tauto. }
    rewrite <- LL. split; [intros x X; apply M3; auto|]. split; [exact C3|]. intro L. intros x X. apply M3 in X.
    assert (incl l (pick 216 l)) as Q; [|apply Q; auto]. apply NoDup_length_incl; auto. rewrite C3. lia.
  - destruct (@find_node_total now _ ih (gi_table G) W) as (o & -> & _). cbn [rmap]. do 2 eexists. split; [reflexivity|]. split; [|congruence].
    intros _ v. destruct o; cbn; intuition; discriminate.
Qed.
(** Our own torrent: only peers of this torrent, at most 216; an announced peer
    is among them unless it was found unreachable or there are more than 216. *)
Theorem C50_own_partial : forall h s now pick from t, Runs h s -> fair pick ->
  exists s' o v, gstep now pick s (GGetPeers info from t) = Val (s', o) /\
    (v <> [] -> o = [CReply from t (PGetPeers (VValues v))]) /\
    (v = [] -> forall w, ~ In (CReply from t (PGetPeers (VValues w))) o) /\
    NoDup v /\ length v <= 216 /\
    (forall p, In p v -> In p (map fst m0) \/ In p (announced info h) \/ In p (shared_names h)) /\
    (forall p, In p (announced info h) -> ~ In (p, UnableToConnect) m0 -> ~ unreachable h p ->
       length (nodup addr_dec (map fst m0 ++ announced info h ++ shared_names h)) <= 216 -> In p v).
Proof.
  intros h s now pick from t H F. pose proof (runs_inv N0 R0 H) as G. cbn [gstep]. unfold on_get_peers, find_peers, q_serve.
  rewrite (gi_info G), bytes_eqb_refl. change (DHT_MTU / COMPACT_PEER_LEN) with 216.
  destruct (@C25_good_peers (g_peers s) 216 (gi_nodup G)) as (m' & v & -> & GB). cbn [rbind fst snd].
  assert (K : forall p, In p v -> In p (map fst m0) \/ In p (announced info h) \/ In p (shared_names h)).
  { intros p P. apply (gi_peers G). destruct (gb_eligible GB p P) as (st & r & S & _). apply in_map_iff. exists (p, st). auto. }
  assert (LN : length (g_peers s) = length (nodup addr_dec (map fst m0 ++ announced info h ++ shared_names h))).
  { rewrite <- (map_length fst). apply Permutation_length. apply NoDup_Permutation; [apply (gi_nodup G)|apply NoDup_nodup|].
    intro p. rewrite nodup_In, !in_app_iff. apply (gi_peers G). }
  assert (L : forall p, In p (announced info h) -> ~ In (p, UnableToConnect) m0 -> ~ unreachable h p ->
       length (nodup addr_dec (map fst m0 ++ announced info h ++ shared_names h)) <= 216 -> In p v).
  { intros p P U1 U2 LE. rewrite <- LN in LE. assert (IP : In p (map fst (g_peers s))) by (apply (gi_peers G); auto).
    destruct (gb_maximal GB) as [MX|MX].
    - assert (incl (map fst (g_peers s)) v); [|auto]. apply NoDup_length_incl; [apply (gb_nodup GB)|rewrite map_length; lia|].
      intros x X. apply (gi_peers G). auto.
    - apply in_map_iff in IP. destruct IP as ((q & st) & <- & IP). cbn [fst] in *. destruct st; try (eapply MX; [exact IP|reflexivity]).
      exfalso. destruct (@utc_runs h s q H IP); auto. }
  destruct v as [|x v].
  - destruct (@find_node_total now _ info (gi_table G) W0) as (o & -> & _). cbn [rmap]. do 2 eexists. exists []. split; [reflexivity|].
    split; [congruence|]. split; [intros _ w; destruct o; cbn; intuition; discriminate|]. split; [constructor|]. split; [cbn; lia|]. split; auto.
  - do 2 eexists. exists (x :: v). split; [reflexivity|]. split; [auto|]. split; [discriminate|]. split; [apply (gb_nodup GB)|].
    split; [apply (gb_size GB)|]. split; auto.
Qed.

(** ** C79 *)
(** Whatever arrives is handled, the table stays one of those the table
    properties speak about, and it holds only nodes that answered a query or
    were there at the start. *)
Theorem C79_only_answering_nodes : forall h s, Runs h s ->
  reachable (g_table s) /\ t_own (g_table s) = t_own t0 /\
  (forall n, In n (t_nodes (g_table s)) ->
     (exists m, In m (t_nodes t0) /\ n_id m = n_id n /\ n_addr m = n_addr n) \/ In (n_id n, n_addr n) (answered h)) /\
  (forall now pick i, fair pick -> wf_gin s i -> exists s' o, gstep now pick s i = Val (s', o)).
Proof.
  intros h s H. pose proof (runs_inv N0 R0 H) as G. split; [apply (gi_table G)|]. split; [apply (gi_own G)|]. split; [apply (gi_origin G)|].
  intros now pick i F W. destruct (@step_inv info m0 t0 h s now pick i G F W) as (s' & o & E & _). eauto.
Qed.
(** Nodes named in an answer are pinged exactly if they are not in the table;
    they are not added by being named. *)
Theorem C79_named_nodes_pinged : forall h s now pick n from id, Runs h s -> fair pick -> wf_gin s (GResp (FNewNodes n from id)) ->
  exists s' o, gstep now pick s (GResp (FNewNodes n from id)) = Val (s', o) /\
    (forall c, In c o <-> exists x, In x (nodes_list n) /\ ~ TableSpec.known (g_table s') (n_id x) /\ c = CQuery (n_addr x) QPing) /\
    (forall i, TableSpec.known (g_table s') i -> i = id \/ TableSpec.known (g_table s) i).
Proof.
  intros h s now pick n from id H F (W1 & W2 & W3). pose proof (runs_inv N0 R0 H) as G. cbn [gstep on_resp].
  destruct (@C44_total_restarts (g_table s) [mk_touch now id from] (gi_table G)) as (t & T & _ & RT). { repeat constructor; auto. }
  cbn [run te_now te_id te_addr] in T. destruct (touch_node now id from (g_table s)) as [t'| |] eqn:E; try discriminate. cbn [rbind] in T.
  injection T as ->. cbn [rbind]. destruct (@unknown_spec t (nodes_list n) RT W3) as (l & -> & L). cbn [rmap].
  do 2 eexists. split; [reflexivity|]. split.
  - intro c. rewrite in_map_iff. split.
    + intros (a & <- & A). apply L in A. destruct A as (x & X1 & X2 & X3). exists x. subst a. auto.
    + intros (x & X1 & X2 & ->). exists (n_addr x). split; auto. apply L. eauto.
  - intros i K. unfold TableSpec.known in K. apply in_map_iff in K. destruct K as (x & <- & X).
    destruct (@touch_origin _ _ _ _ _ x (reachable_inv (gi_table G)) W1 E X) as [(A & _)|(m & A & B & _)]; auto.
    right. unfold TableSpec.known. rewrite <- B. apply in_map. auto.
Qed.
End props.

(** *** the refutations of C50 *)
Definition nobody : table := t_default (repeat x00 20).
Lemma nobody_reachable : reachable nobody.
Proof. apply rc_new. reflexivity. Qed.
Definition ih_own : ID := repeat x01 20.
Definition ih_other : ID := repeat x02 20.
Definition crowd_peer (k : nat) : addr := mk_addr x0a x00 x00 x01 (N.of_nat k).
Definition crowd_of (n : nat) : list addr := map crowd_peer (seq 0 n).
Definition announces (ih : ID) (ps : list addr) : ghist := map (fun p => (GNewPeer p ih, [])) ps.
Lemma announces_run : forall ih ps, wf_id ih -> Forall wf_addr ps -> exists s, gruns ih_own [] nobody (announces ih ps) s.
Proof.
  intros ih ps W F. induction ps as [|p ps IH]; [eexists; apply gr_nil|]. destruct (IH (Forall_inv_tail F)) as (s & H).
  exists (store_new_peer s p ih). change (announces ih (p :: ps)) with ((GNewPeer p ih, []) :: announces ih ps).
  eapply gr_step with (now := 0%N) (pick := fun k l => firstn k l); [exact H| | |reflexivity].
  - intros k l N. split; [|split].
    + rewrite <- (firstn_skipn k l) in N. eapply NoDup_app_l; eauto.
    + intros x X. rewrite <- (firstn_skipn k l). apply in_or_app. auto.
    + apply firstn_length.
  - split; auto. apply (Forall_inv F).
Qed.
Lemma announces_announced : forall ih ps, announced ih (announces ih ps) = ps.
Proof. intros ih ps. induction ps as [|p ps IH]; [reflexivity|]. unfold announces. cbn [map]. rewrite ann_cons, bytes_eqb_refl. cbn [app]. f_equal. exact IH. Qed.
Lemma crowd_nodup : forall n, NoDup (crowd_of n).
Proof.
  intro n. unfold crowd_of. apply FinFun.Injective_map_NoDup; [|apply seq_NoDup]. intros a b E. apply (f_equal port) in E. cbn [port crowd_peer] in E. lia.
Qed.
Lemma crowd_wf : forall n, (N.of_nat n <= 65536)%N -> Forall wf_addr (crowd_of n).
Proof.
  intros n L. apply Forall_forall. intros x X. unfold crowd_of in X. apply in_map_iff in X. destruct X as (k & <- & K). apply in_seq in K.
  unfold wf_addr, crowd_peer. cbn [port]. lia.
Qed.
Lemma crowd_length : forall n, length (crowd_of n) = n.
Proof. intro n. unfold crowd_of. rewrite map_length, seq_length. reflexivity. Qed.
(** With more than 216 announced peers every answer misses one. *)
Theorem C50_too_many_refuted : exists info m0 t0 h s ih, ~ C50_served_always h s /\ gruns info m0 t0 h s /\ ih <> info /\
  wf_id ih /\ NoDup (announced ih h) /\ length (announced ih h) = 217 /\
  forall now pick from t s' v, fair pick -> gstep now pick s (GGetPeers ih from t) = Val (s', [CReply from t (PGetPeers (VValues v))]) ->
    exists p, In p (announced ih h) /\ ~ In p v.
Proof.
  destruct (@announces_run ih_other (crowd_of 217) eq_refl) as (s & H); [apply crowd_wf; cbn; lia|].
  assert (NE : ih_other <> ih_own) by (intro E; discriminate).
  assert (MISS : forall now pick from t s' v, fair pick -> gstep now pick s (GGetPeers ih_other from t) = Val (s', [CReply from t (PGetPeers (VValues v))]) ->
    exists p, In p (crowd_of 217) /\ ~ In p v).
  { intros now pick from t s' v F E. pose proof (@C50_foreign_partial ih_own [] nobody (NoDup_nil _) nobody_reachable _ s ih_other now pick from t H NE eq_refl F) as (s1 & o1 & E1 & _ & P).
    rewrite E in E1. injection E1 as <- <-. rewrite announces_announced in P. destruct P as (v' & EV & ND & I & L & _).
    { intro Z. apply (f_equal (@length _)) in Z. rewrite crowd_length in Z. discriminate. }
    injection EV as <-. rewrite (nodup_fixed_point addr_dec (crowd_nodup 217)), crowd_length in L. change (Nat.min 216 217) with 216 in L.
    destruct (forallb (fun p => if in_dec addr_dec p v then true else false) (crowd_of 217)) eqn:A.
    - exfalso. rewrite forallb_forall in A. assert (incl (crowd_of 217) v) as IC.
      { intros x X. specialize (A x X). destruct (in_dec addr_dec x v); [auto|discriminate]. }
      pose proof (NoDup_incl_length (crowd_nodup 217) IC) as Q. rewrite crowd_length in Q. lia.
    - assert (EX : existsb (fun p => if in_dec addr_dec p v then false else true) (crowd_of 217) = true).
      { clear - A. induction (crowd_of 217) as [|x l IH]; [discriminate|]. cbn [forallb existsb] in *. destruct (in_dec addr_dec x v); auto. }
      apply existsb_exists in EX. destruct EX as (p & P1 & P2). exists p. split; auto. destruct (in_dec addr_dec p v); [discriminate|auto]. }
  exists ih_own, [], nobody, (announces ih_other (crowd_of 217)), s, ih_other. rewrite announces_announced. split.
  { intro A. pose (pick := fun k (l : list addr) => firstn k l).
    assert (F : fair pick).
    { intros k l N. split; [|split].
      + rewrite <- (firstn_skipn k l) in N. eapply NoDup_app_l; eauto.
      + intros x X. rewrite <- (firstn_skipn k l). apply in_or_app. auto.
      + apply firstn_length. }
    pose (a := crowd_peer 0). destruct (A ih_other a 0%N pick a [] eq_refl F) as (s' & v & E & _).
    { rewrite announces_announced. left. reflexivity. }
    destruct (MISS _ _ _ _ _ _ F E) as (p & P1 & P2). destruct (A ih_other p 0%N pick a [] eq_refl F) as (s2 & v2 & E2 & I2).
    { rewrite announces_announced. exact P1. }
    rewrite E in E2. injection E2 as <- <-. contradiction. }
  split; [exact H|]. split; [exact NE|]. split; [reflexivity|]. split; [apply crowd_nodup|]. split; [apply crowd_length|]. exact MISS.
Qed.
(** A peer that could not be reached once is not handed out any more. *)
Theorem C50_unreachable_refuted : exists h s, gruns ih_own [] nobody h s /\ announced ih_own h = [crowd_peer 1] /\
  (forall now pick from t, gstep now pick s (GGetPeers ih_own from t) = Val (s, [])) /\ ~ C50_served_always h s.
Proof.
  pose (p := crowd_peer 1).
  exists [(GShared (QBatch [(p, UnableToConnect)] 0), []); (GNewPeer p ih_own, [])].
  exists (mk_dmgr ih_own [(p, UnableToConnect)] [(ih_own, [])] nobody).
  assert (F : fair (fun k l => firstn k l)).
  { intros k l N. split; [|split].
    + rewrite <- (firstn_skipn k l) in N. eapply NoDup_app_l; eauto.
    + intros x X. rewrite <- (firstn_skipn k l). apply in_or_app. auto.
    + apply firstn_length. }
  assert (G : forall now pick from t, gstep now pick (mk_dmgr ih_own [(p, UnableToConnect)] [(ih_own, [])] nobody) (GGetPeers ih_own from t) =
    Val (mk_dmgr ih_own [(p, UnableToConnect)] [(ih_own, [])] nobody, [])).
  { intros. cbn [gstep]. unfold on_get_peers. reflexivity. }
  split; [|split; [reflexivity|split; [exact G|]]].
  - eapply gr_step with (now := 0%N) (pick := fun k l => firstn k l) (s := mk_dmgr ih_own [(p, Unknown)] [(ih_own, [])] nobody);
      [|exact F|repeat constructor|reflexivity].
    eapply gr_step with (now := 0%N) (pick := fun k l => firstn k l); [apply gr_nil|exact F| |reflexivity]. split; reflexivity.
  - intro A. destruct (A ih_own p 0%N _ p [] eq_refl F) as (s' & v & E & _); [left; reflexivity|]. rewrite G in E. discriminate.
Qed.

(** ** C78 *)
Lemma len_app : forall (a b : bytes), length (a ++ b) = length a + length b.
Proof. intros. apply app_length. Qed.
Lemma compact_nodes_len : forall l, Forall (fun n => wf_id (n_id n)) l -> length (flat_map compact_node l) = 26 * length l.
Proof.
  induction l as [|n l IH]; intro F; [reflexivity|]. cbn [flat_map length]. rewrite app_length, IH by (eapply Forall_inv_tail; eauto).
  unfold compact_node. rewrite app_length. pose proof (Forall_inv F) as W. unfold wf_id in W. rewrite W. unfold compact_peer.
  rewrite app_length, be_bytes_length. cbn. lia.
Qed.
Lemma values_len : forall l, length (flat_map (fun a => str "6:" ++ compact_peer a) l) = 8 * length l.
Proof.
  induction l as [|a l IH]; [reflexivity|]. cbn [flat_map length]. rewrite app_length, IH. rewrite app_length. unfold compact_peer.
  rewrite app_length, be_bytes_length. cbn. lia.
Qed.
Definition n_values (r : to_resp) : nat := match r with PGetPeers (VValues l) => length l | _ => 0 end.
Definition n_nodes (r : to_resp) : nat := match r with PFindNode n | PGetPeers (VNodes n) => length (nodes_list n) | _ => 0 end.
Lemma answer_len : forall own t token r, wf_id own -> length t <= 64 -> length token = 20 -> wf_answer r ->
  n_values r <= 140 -> n_nodes r <= 15 -> length (kmsg_bytes (resp_message own t token r)) <= 1300.
Proof.
  intros own t token r W T K A NV NN. rewrite (proj2 (@C73_sent own t W) token r A).
  pose proof (@ostr_len t 2 ltac:(change (10 ^ N.of_nat 2)%N with 100%N; lia) ltac:(lia)) as LT.
  pose proof (@ostr_len token 2 ltac:(change (10 ^ N.of_nat 2)%N with 100%N; lia) ltac:(lia)) as LK. unfold wf_id in W. change ID_LEN with 20 in W.
  assert (LN : forall n, wf_nodes n -> length (nodes_list n) <= 15 -> length (ostr (flat_map compact_node (nodes_of n))) <= 394).
  { intros n WN LE. change (nodes_list n) with (nodes_of n) in LE.
    assert (FL : length (flat_map compact_node (nodes_of n)) = 26 * length (nodes_of n)).
    { apply compact_nodes_len. eapply Forall_impl; [|exact WN]. intros x (X & _). exact X. }
    pose proof (@ostr_len (flat_map compact_node (nodes_of n)) 3 ltac:(change (10 ^ N.of_nat 3)%N with 1000%N; lia) ltac:(lia)). lia. }
  destruct r as [|n|[l|n]|]; cbn [bep5_answer wf_answer n_values n_nodes] in *; rewrite ?len_app, ?values_len, ?W;
    try (pose proof (LN n A NN)); rewrite ?K in *; cbn [length str String.list_byte_of_string]; cbn; lia.
Qed.
Section size.
Variables (info : ID) (m0 : peers) (t0 : table).
Hypothesis W0 : wf_id info.
Hypothesis N0 : NoDup (map fst m0).
Hypothesis A0 : Forall wf_addr (map fst m0).
Hypothesis R0 : reachable t0.
Notation Runs := (gruns info m0 t0).

Lemma given_wf : forall h s, Runs h s -> (forall ih, Forall wf_addr (announced ih h)) /\ Forall wf_addr (shared_names h).
Proof.
  intros h s H. induction H as [|h s now pick i s' o H (I1 & I2) F W E|h s m H IH P]; auto.
  - split; [intro ih|]; constructor.
  - split.
    + intro ih. rewrite ann_cons. apply Forall_app. split; auto. destruct i; try constructor. destruct (bytes_eqb ih ih0); repeat constructor. apply W.
    + cbn [shared_names flat_map fst]. apply Forall_app. split; auto. destruct i; try constructor. exact W.
Qed.
(** Answers are well-formed, with at most 15 nodes or 216 peers. *)
Lemma answers_ok : forall h s now pick i s' o to t r, Runs h s -> fair pick -> wf_gin s i -> gstep now pick s i = Val (s', o) ->
  In (CReply to t r) o -> wf_answer r /\ n_nodes r <= 15 /\ n_values r <= 216.
Proof.
  intros h s now pick i s' o to t r H F W E IN. pose proof (runs_inv N0 R0 H) as G. destruct (given_wf H) as (GW1 & GW2).
  assert (FN : forall id n, wf_id id -> find_node now (g_table s) id = Val (Some n) -> wf_nodes n /\ length (nodes_list n) <= 15).
  { intros id n WI Q. destruct (@find_node_total now _ id (gi_table G) WI) as (o1 & Q1 & Q2). rewrite Q in Q1. injection Q1 as <-.
    destruct Q2 as (Q2 & Q3). split; auto. unfold wf_nodes. change (nodes_of n) with (nodes_list n). eapply Forall_impl; [|exact Q3]. intros x X.
    split; [|apply (reachable_addrs (gi_table G)); auto].
    apply in_nodes in X. destruct X as (j & b & X1 & X2). destruct (i_bkt (reachable_inv (gi_table G)) _ X1) as (_ & _ & Q5). apply (Q5 x X2). }
  destruct i as [target from u|ih from u|q ih|rr|draws|a|x]; cbn [gstep wf_gin] in *.
  - unfold on_find_node in E. destruct (find_node now (g_table s) target) as [[n|]| |] eqn:Q; try discriminate; injection E as <- <-; [|destruct IN].
    destruct IN as [IN|[]]. injection IN as <- <- <-. cbn [wf_answer wf_von n_nodes n_values]. destruct (FN _ _ W Q) as (Q1 & Q2). split; [exact Q1|split; [exact Q2|apply Nat.le_0_l]].
  - destruct (bytes_eq_dec ih info) as [->|NE].
    + destruct (@C50_own_partial info m0 t0 W0 N0 R0 h s now pick from u H F) as (s1 & o1 & v & E1 & V1 & V2 & _ & V3 & V4 & _).
      cbn [gstep] in E1. rewrite E in E1. injection E1 as <- <-. destruct v as [|x v].
      * unfold on_get_peers in E. destruct (find_peers pick s info) as [[m' [l|]]| |] eqn:FP; try discriminate; cbn [rbind fst snd] in E.
        { injection E as <- <-. exfalso. apply (V2 eq_refl l). left. auto. }
        destruct (find_node now (g_table s) info) as [[n|]| |] eqn:Q; try discriminate; injection E as <- <-; [|destruct IN].
        destruct IN as [IN|[]]. injection IN as <- <- <-. cbn [wf_answer wf_von n_nodes n_values]. destruct (FN _ _ W0 Q) as (Q1 & Q2). split; [exact Q1|split; [exact Q2|apply Nat.le_0_l]].
      * rewrite (V1 ltac:(discriminate)) in IN. destruct IN as [IN|[]]. injection IN as <- <- <-. cbn [wf_answer wf_von n_nodes n_values].
        split; [|split; [lia|exact V3]]. apply Forall_forall. intros y Y. specialize (GW1 info). rewrite Forall_forall in GW1, GW2.
        destruct (V4 y Y) as [Z|[Z|Z]]; auto. rewrite Forall_forall in A0. auto.
    + destruct (@C50_foreign_partial info m0 t0 N0 R0 h s ih now pick from u H NE W F) as (s1 & o1 & E1 & V1 & V2).
      cbn [gstep] in E1. rewrite E in E1. injection E1 as <- <-.
      assert (D : announced ih h = [] \/ announced ih h <> []) by (destruct (announced ih h); [left; auto|right; discriminate]).
      destruct D as [D|D].
      * specialize (V1 D). unfold on_get_peers in E. destruct (find_peers pick s ih) as [[m' [l|]]| |] eqn:FP; try discriminate; cbn [rbind fst snd] in E.
        { injection E as <- <-. exfalso. apply (V1 l). left. auto. }
        destruct (find_node now (g_table s) ih) as [[n|]| |] eqn:Q; try discriminate; injection E as <- <-; [|destruct IN].
        destruct IN as [IN|[]]. injection IN as <- <- <-. cbn [wf_answer wf_von n_nodes n_values]. destruct (FN _ _ W Q) as (Q1 & Q2). split; [exact Q1|split; [exact Q2|apply Nat.le_0_l]].
      * destruct (V2 D) as (v & -> & _ & V3 & V4 & _). destruct IN as [IN|[]]. injection IN as <- <- <-. cbn [wf_answer wf_von n_nodes n_values].
        split; [|split; [lia|rewrite V4; lia]]. apply Forall_forall. intros y Y. specialize (GW1 ih). rewrite Forall_forall in GW1. auto.
  - injection E as <- <-. destruct IN.
  - exfalso. destruct rr as [id from|n from id|]; cbn [on_resp] in E.
    + destruct (touch_node _ _ _ _); try discriminate. injection E as <- <-. destruct IN.
    + destruct (touch_node _ _ _ _) as [t1| |]; try discriminate. cbn [rbind] in E. destruct (unknown_addrs _ _); try discriminate.
      injection E as <- <-. apply in_map_iff in IN. destruct IN as (? & ? & _). discriminate.
    + injection E as <- <-. destruct IN.
  - exfalso. unfold refresh_table in E. destruct (iter_over_ids _ _ _) as [ids| |]; try discriminate. cbn [rbind] in E.
    destruct (find_nodes_for now (g_table s) ids) as [o1| |] eqn:Q; try discriminate. injection E as <- <-.
    clear - Q IN. revert o1 Q IN. induction ids as [|i ids IH]; intros o1 Q IN; cbn [find_nodes_for] in Q; [injection Q as <-; destruct IN|].
    destruct (get_closest_nodes now (g_table s) i) as [c| |]; try discriminate. cbn [rbind] in Q.
    destruct (find_nodes_for now (g_table s) ids) as [o2| |]; try discriminate. injection Q as <-. apply in_app_or in IN. destruct IN as [IN|IN].
    + destruct c as [[|n l]|]; try (destruct IN; fail). destruct IN as [IN|[]]. discriminate.
    + eapply IH; eauto.
  - injection E as <- <-. destruct IN as [IN|[]]. discriminate.
  - destruct (q_step (g_peers s) x) as [[? ?]| |]; try discriminate. injection E as <- <-. destruct IN.
Qed.
(** Wanted: every answer of the task fits the 1300 bytes set aside for a
    datagram (transaction ids of at most 64 bytes; BEP 5 uses 2). *)
Definition C78_fits_always (s : dmgr) : Prop := forall now pick i s' o to t r own token,
  fair pick -> wf_gin s i -> gstep now pick s i = Val (s', o) -> In (CReply to t r) o ->
  wf_id own -> length t <= 64 -> length token = 20 -> length (kmsg_bytes (resp_message own t token r)) <= 1300.
(** Proved for answers with nodes and for answers with up to 140 peers. *)
Theorem C78_fits_partial : forall h s now pick i s' o to t r own token, Runs h s ->
  fair pick -> wf_gin s i -> gstep now pick s i = Val (s', o) -> In (CReply to t r) o ->
  wf_id own -> length t <= 64 -> length token = 20 -> (forall l, r = PGetPeers (VValues l) -> length l <= 140) ->
  length (kmsg_bytes (resp_message own t token r)) <= 1300.
Proof.
  intros h s now pick i s' o to t r own token H F W E IN WO LT LK LV.
  destruct (@answers_ok _ _ _ _ _ _ _ _ _ _ H F W E IN) as (A & B & _). apply answer_len; auto. destruct r as [| |[l|]|]; cbn; try lia. apply LV. auto.
Qed.
End size.
(** 216 announced peers: the answer has over 1700 bytes, for any transaction
    id and token. *)
Theorem C78_fits_refuted : exists info m0 t0 h s, ~ C78_fits_always s /\ gruns info m0 t0 h s /\
  exists ih, forall now pick from t, fair pick -> exists s' r, gstep now pick s (GGetPeers ih from t) = Val (s', [CReply from t r]) /\
    forall own token, wf_id own -> 1728 <= length (kmsg_bytes (resp_message own t token r)).
Proof.
  destruct (@announces_run ih_other (crowd_of 216) eq_refl) as (s & H); [apply crowd_wf; cbn; lia|].
  assert (NE : ih_other <> ih_own) by (intro E; discriminate).
  assert (BIG : forall now pick from t, fair pick -> exists s' r, gstep now pick s (GGetPeers ih_other from t) = Val (s', [CReply from t r]) /\
    forall own token, wf_id own -> 1728 <= length (kmsg_bytes (resp_message own t token r))).
  { intros now pick from t F.
    destruct (@C50_foreign_partial ih_own [] nobody (NoDup_nil _) nobody_reachable _ s ih_other now pick from t H NE eq_refl F) as (s' & o & E & _ & P).
    rewrite announces_announced in P. destruct P as (v & -> & _ & I & L & _).
    { intro Z. apply (f_equal (@length _)) in Z. rewrite crowd_length in Z. discriminate. }
    rewrite (nodup_fixed_point addr_dec (crowd_nodup 216)), crowd_length in L. change (Nat.min 216 216) with 216 in L.
    do 2 eexists. split; [exact E|]. intros own token W. rewrite (proj2 (@C73_sent own t W)).
    - cbn [bep5_answer]. rewrite !app_length, values_len, L. lia.
    - cbn [wf_answer wf_von]. apply Forall_forall. intros x X. assert (C : Forall wf_addr (crowd_of 216)) by (apply crowd_wf; cbn; lia).
      rewrite Forall_forall in C. auto. }
  exists ih_own, [], nobody, (announces ih_other (crowd_of 216)), s. split; [|split; [exact H|exists ih_other; exact BIG]].
  intro A. assert (F : fair (fun k l => firstn k l)).
  { intros k l N. split; [|split].
    + rewrite <- (firstn_skipn k l) in N. eapply NoDup_app_l; eauto.
    + intros x X. rewrite <- (firstn_skipn k l). apply in_or_app. auto.
    + apply firstn_length. }
  destruct (BIG 0%N _ (crowd_peer 0) [] F) as (s' & r & E & L). specialize (L ih_own (repeat x00 20) eq_refl).
  specialize (A 0%N _ (GGetPeers ih_other (crowd_peer 0) []) s' _ (crowd_peer 0) [] r ih_own (repeat x00 20) F eq_refl E (or_introl eq_refl) eq_refl).
  specialize (A ltac:(cbn; lia) eq_refl). lia.
Qed.

(** ** C80 *)
(** Wanted: a lookup by another node changes nothing about our peers. *)
Definition C80_lookup_harmless_always (s : dmgr) : Prop := forall now pick ih from t s' o, fair pick -> wf_id ih ->
  gstep now pick s (GGetPeers ih from t) = Val (s', o) -> forall p st, status_of (g_peers s') p st <-> status_of (g_peers s) p st.
(** Holds for lookups of other hashes; the set of peers stays the same in any
    case. *)
Theorem C80_lookup_harmless_partial : forall info m0 t0 h s now pick ih from t s' o, wf_id info -> NoDup (map fst m0) -> reachable t0 ->
  gruns info m0 t0 h s -> gstep now pick s (GGetPeers ih from t) = Val (s', o) ->
  map fst (g_peers s') = map fst (g_peers s) /\ g_map s' = g_map s /\ g_table s' = g_table s /\
  (ih <> info -> forall p st, status_of (g_peers s') p st <-> status_of (g_peers s) p st).
Proof.
  intros info m0 t0 h s now pick ih from t s' o W N R H E. pose proof (runs_inv N R H) as G. cbn [gstep] in E. unfold on_get_peers, find_peers, q_serve in E.
  rewrite (gi_info G) in E.
  destruct (bytes_eqb ih info) eqn:Q.
  - apply bytes_eqb_eq in Q. destruct (@C25_good_peers (g_peers s) (DHT_MTU / COMPACT_PEER_LEN) (gi_nodup G)) as (m' & v & EQ & GB).
    rewrite EQ in E. cbn [rbind fst snd] in E.
    assert (ES : s' = mk_dmgr info m' (g_map s) (g_table s)).
    { destruct v; [|injection E as <- _; reflexivity]. destruct (find_node now (g_table s) ih); try discriminate. injection E as <- _. reflexivity. }
    subst s'. cbn [g_peers g_map g_table]. rewrite (gb_same_peers GB). repeat split; congruence.
  - cbn [rbind fst snd] in E. assert (ES : s' = mk_dmgr info (g_peers s) (g_map s) (g_table s)).
    { destruct (option_map _ _); [injection E as <- _; reflexivity|]. destruct (find_node now (g_table s) ih); try discriminate. injection E as <- _. reflexivity. }
    subst s'. cbn [g_peers g_map g_table]. repeat split; auto.
Qed.
(** A lookup of our own hash by anyone takes all our peers (up to 216): the
    torrent manager is offered none of them afterwards. *)
Theorem C80_starvation : forall info m0 t0 h s now pick from t s' o limit, wf_id info -> NoDup (map fst m0) -> reachable t0 ->
  gruns info m0 t0 h s -> length (g_peers s) <= 216 -> (forall p, ~ status_of (g_peers s) p UnableToConnect) ->
  gstep now pick s (GGetPeers info from t) = Val (s', o) ->
  exists m, q_step (g_peers s') (QBatch [] limit) = Val (m, []).
Proof.
  intros info m0 t0 h s now pick from t s' o limit W N R H L U E. pose proof (runs_inv N R H) as G. cbn [gstep] in E. unfold on_get_peers, find_peers, q_serve in E.
  rewrite (gi_info G), bytes_eqb_refl in E. change (DHT_MTU / COMPACT_PEER_LEN) with 216 in E.
  destruct (@C25_good_peers (g_peers s) 216 (gi_nodup G)) as (m' & v & EQ & GB). rewrite EQ in E. cbn [rbind fst snd] in E.
  assert (ES : s' = mk_dmgr info m' (g_map s) (g_table s)).
  { destruct v; [|injection E as <- _; reflexivity]. destruct (find_node now (g_table s) info); try discriminate. injection E as <- _. reflexivity. }
  subst s'. cbn [g_peers q_step]. assert (ND : NoDup (map fst m')) by (rewrite (gb_same_peers GB); apply (gi_nodup G)).
  assert (AL : incl (map fst (g_peers s)) v).
  { destruct (gb_maximal GB) as [MX|MX].
    - apply NoDup_length_incl; [apply (gb_nodup GB)|rewrite map_length; lia|]. intros x X. destruct (gb_eligible GB x X) as (st & r & S & _).
      apply in_map_iff. exists (x, st). auto.
    - intros x X. apply in_map_iff in X. destruct X as ((q & st) & <- & X). cbn [fst]. destruct st; try (eapply MX; [exact X|reflexivity]).
      exfalso. eapply U; eauto. }
  destruct (@C25_batch m' [] limit ND) as (m1 & m2 & out & E2 & N1 & S1 & GB2). exists m2. rewrite E2. f_equal. f_equal.
  destruct out as [|x out]; auto. exfalso. destruct (gb_eligible GB2 x (or_introl eq_refl)) as (st & r & S & RK). apply S1 in S. cbn in S.
  assert (X : In x v). { apply AL. rewrite <- (gb_same_peers GB). apply in_map_iff. exists (x, st). auto. }
  apply (gb_marked GB) in X. pose proof (@status_fun _ _ _ _ ND S X). subst st. discriminate.
Qed.
Theorem C80_lookup_harmless_refuted : exists info m0 t0 h s, gruns info m0 t0 h s /\ ~ C80_lookup_harmless_always s /\
  (exists p m, q_step (g_peers s) (QBatch [] 1) = Val (m, [p])) /\
  forall now pick from t s' o, gstep now pick s (GGetPeers info from t) = Val (s', o) -> exists m, q_step (g_peers s') (QBatch [] 1) = Val (m, []).
Proof.
  pose (s := mk_dmgr ih_own [(crowd_peer 1, Unknown)] [(ih_own, [])] nobody).
  assert (F : fair (fun k l => firstn k l)).
  { intros k l N. split; [|split].
    + rewrite <- (firstn_skipn k l) in N. eapply NoDup_app_l; eauto.
    + intros x X. rewrite <- (firstn_skipn k l). apply in_or_app. auto.
    + apply firstn_length. }
  assert (H : gruns ih_own [] nobody [(GNewPeer (crowd_peer 1) ih_own, [])] s).
  { eapply gr_step with (now := 0%N) (pick := fun k l => firstn k l); [apply gr_nil|exact F| |reflexivity]. split; reflexivity. }
  exists ih_own, [], nobody. do 2 eexists. split; [exact H|]. split; [|split].
  - intro A. specialize (A 0%N (fun k l => firstn k l) ih_own (crowd_peer 0) []). cbn [gstep] in A.
    assert (E : exists s' o, on_get_peers 0 (fun k l => firstn k l) s ih_own (crowd_peer 0) [] = Val (s', o) /\ g_peers s' = [(crowd_peer 1, Active)]).
    { do 2 eexists. split; reflexivity. }
    destruct E as (s' & o & E & P). specialize (A s' o F eq_refl E (crowd_peer 1) Active). rewrite P in A. destruct A as (A & _).
    specialize (A (or_introl eq_refl)). destruct A as [A|[]]. apply (f_equal snd) in A. cbn [snd] in A. discriminate A.
  - do 2 eexists. reflexivity.
  - intros now pick from t s' o E. apply (@C80_starvation ih_own [] nobody _ s now pick from t s' o 1 eq_refl (NoDup_nil _) nobody_reachable H); [cbn; lia| |exact E].
    intros p [P|[]]. discriminate.
Qed.

(** ** examples *)
(** Three announces for two hashes, a lookup of each, an answer that names two
    nodes. *)
Definition n1 : ID := repeat x11 20.
Definition n2 : ID := repeat x12 20.
Definition pick_first : picker := fun k l => firstn k l.
Definition after (s : dmgr) (i : gin) : dmgr := match gstep 5 pick_first s i with Val (s', _) => s' | _ => s end.
Definition ex_named : gin :=
  GResp (FNewNodes (Closest [mk_node n1 (crowd_peer 8) None; mk_node n2 (crowd_peer 9) None]) (crowd_peer 8) n1).
Definition ex_s1 : dmgr := after (g_start ih_own [] nobody) (GNewPeer (crowd_peer 1) ih_other).
Definition ex_s2 : dmgr := after ex_s1 (GNewPeer (crowd_peer 3) ih_own).
Definition ex_s3 : dmgr := after ex_s2 (GNewPeer (crowd_peer 2) ih_other).
Definition ex_s4 : dmgr := after ex_s3 (GGetPeers ih_other (crowd_peer 7) [x61]).
Definition ex_s5 : dmgr := after ex_s4 ex_named.
Example C50_example :
  gruns ih_own [] nobody
    [(ex_named, [CQuery (crowd_peer 9) QPing]);
     (GGetPeers ih_other (crowd_peer 7) [x61], [CReply (crowd_peer 7) [x61] (PGetPeers (VValues [crowd_peer 2; crowd_peer 1]))]);
     (GNewPeer (crowd_peer 2) ih_other, []); (GNewPeer (crowd_peer 3) ih_own, []); (GNewPeer (crowd_peer 1) ih_other, [])] ex_s5 /\
  map (fun n => (n_id n, n_addr n)) (t_nodes (g_table ex_s5)) = [(n1, crowd_peer 8)] /\
  map fst (g_peers ex_s5) = [crowd_peer 3].
Proof.
  assert (F : fair pick_first).
  { intros k l N. split; [|split].
    + rewrite <- (firstn_skipn k l) in N. eapply NoDup_app_l; eauto.
    + intros x X. rewrite <- (firstn_skipn k l). apply in_or_app. auto.
    + apply firstn_length. }
  split; [|split].
  - eapply (@gr_step _ _ _ _ ex_s4 5%N pick_first); [|exact F| |vm_compute; reflexivity].
    2: { split; [reflexivity|]. split; [reflexivity|]. repeat constructor. }
    eapply (@gr_step _ _ _ _ ex_s3 5%N pick_first); [|exact F|reflexivity|vm_compute; reflexivity].
    eapply (@gr_step _ _ _ _ ex_s2 5%N pick_first); [|exact F|split; reflexivity|vm_compute; reflexivity].
    eapply (@gr_step _ _ _ _ ex_s1 5%N pick_first); [|exact F|split; reflexivity|vm_compute; reflexivity].
    eapply (@gr_step _ _ _ _ (g_start ih_own [] nobody) 5%N pick_first); [|exact F|split; reflexivity|vm_compute; reflexivity].
    apply gr_nil.
  - vm_compute. reflexivity.
  - vm_compute. reflexivity.
Qed.
Print Assumptions C50_foreign_partial.
Print Assumptions C50_own_partial.
Print Assumptions C50_too_many_refuted.
Print Assumptions C50_unreachable_refuted.
Print Assumptions C79_only_answering_nodes.
Print Assumptions C79_named_nodes_pinged.
Print Assumptions C78_fits_partial.
Print Assumptions C78_fits_refuted.
Print Assumptions C80_lookup_harmless_partial.
Print Assumptions C80_starvation.
Print Assumptions C80_lookup_harmless_refuted.
