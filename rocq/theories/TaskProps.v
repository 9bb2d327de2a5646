(** C82, C83: answering lookups, refreshing, starting the search. *)
From Coq Require Import List NArith ZArith Lia Bool Arith Permutation Sorted.
From Coq Require Import Init.Byte.
From Verif Require Import Base Assoc BitSpec IdModel IdProofs IdProps WireModel TableModel TableSpec TableProofs TableProofs2 TableProps LookupProps
  PeersModel PeersSpec PeersProofs PeersProps BencodeModel KrpcModel DhtModel DhtMgrModel DhtMgrSpec DhtMgrProps FetchModel FetchSpec FetchProps TaskModel.
Import ListNotations.
Set Implicit Arguments.

Lemma bytes_dec : forall a b : bytes, {a = b} + {a <> b}.
Proof. intros a b. destruct (bytes_eqb a b) eqn:E; [left; apply bytes_eqb_eq; auto|right; intros ->; rewrite bytes_eqb_refl in E; discriminate]. Qed.
Lemma node_dec : forall a b : node, {a = b} + {a <> b}.
Proof.
  intros [i a s] [i' a' s']. destruct (bytes_dec i i') as [<-|N]; [|right; congruence]. destruct (addr_dec a a') as [<-|N]; [|right; congruence].
  destruct s as [s|], s' as [s'|]; try (right; discriminate); [|left; reflexivity]. destruct (N.eq_dec s s') as [<-|N]; [left; reflexivity|right; congruence].
Qed.
Section task.
Variables (info : ID) (m0 : peers) (t0 : table).
Hypothesis WI : wf_id info.
Hypothesis N0 : NoDup (map fst m0).
Hypothesis R0 : reachable t0.
Notation Runs := (gruns info m0 t0).

(** The nodes a lookup of [id] may be answered with. *)
Definition served (now : N) (t : table) (id : ID) (n : nodes) : Prop :=
  match n with
  | Exact x => In x (t_nodes t) /\ n_id x = id
  | Closest l => l <> [] /\ NoDup (map n_id l) /\ length l <= 15 /\ ~ TableSpec.known t id /\
      Nat.min 8 (count (fresh now) (t_nodes t)) <= length l /\
      (forall x, In x l -> In x (t_nodes t) /\ fresh now x = true) /\
      (forall x y, In x l -> In y (t_nodes t) -> fresh now y = true -> ~ In y l -> (dist id (n_id x) < 2 * dist id (n_id y))%N)
  end.
Lemma served_spec : forall now t id, reachable t -> wf_id id -> exists o, find_node now t id = Val o /\
  match o with
  | Some n => served now t id n
  | None => ~ TableSpec.known t id /\ forall x, In x (t_nodes t) -> fresh now x = false
  end.
Proof.
  intros now t id R W. destruct (in_dec bytes_dec id (map n_id (t_nodes t))) as [K|K].
  - destruct (@C47_exact now t id R W K) as (n & E & I & Q). exists (Some (Exact n)). split; auto. cbn. auto.
  - destruct (@C47_closest_partial now t id R W K) as (o & E & O). exists o. split; auto. destruct o as [[x|l]|].
    + destruct O.
    + destruct O as (A & B & C & D & F & G). cbn [served]. repeat split; auto; try lia.
      * intro Q. subst l. cbn in D. lia.
      * apply B. auto.
      * apply B. auto.
      * intros x y X Y Z1 Z2. apply (G x y X Y Z1 Z2).
    + split; [exact K|]. intros x X. destruct (fresh now x) eqn:F; auto. exfalso. unfold count in O. apply length_zero_iff_nil in O.
      assert (Q : In x (filter (fresh now) (t_nodes t))) by (apply filter_In; auto). rewrite O in Q. destruct Q.
Qed.
(** A find_node query is answered to its sender, with its transaction id, from
    the routing table; nothing changes. No answer only if nothing is known. *)
Theorem C82_find_node : forall h s now pick target from t, Runs h s -> wf_id target ->
  exists o, gstep now pick s (GFindNode target from t) = Val (s, o) /\
    ((exists n, o = [CReply from t (PFindNode n)] /\ served now (g_table s) target n) \/
     (o = [] /\ ~ TableSpec.known (g_table s) target /\ forall x, In x (t_nodes (g_table s)) -> fresh now x = false)).
Proof.
  intros h s now pick target from t H W. pose proof (runs_inv N0 R0 H) as G. cbn [gstep]. unfold on_find_node.
  destruct (@served_spec now (g_table s) target (gi_table G) W) as (o & E & O). rewrite E. cbn [rmap]. eexists. split; [reflexivity|].
  destruct o as [n|]; [left; eauto|right; tauto].
Qed.
(** A get_peers query is answered to its sender with its transaction id: with
    peers, or, if there are none, with nodes as for find_node. *)
Theorem C82_get_peers : forall h s now pick ih from t, Runs h s -> wf_id ih -> fair pick ->
  exists s' o, gstep now pick s (GGetPeers ih from t) = Val (s', o) /\
    ((exists l, o = [CReply from t (PGetPeers (VValues l))] /\ l <> []) \/
     (exists n, o = [CReply from t (PGetPeers (VNodes n))] /\ served now (g_table s) ih n) \/
     (o = [] /\ ~ TableSpec.known (g_table s) ih /\ forall x, In x (t_nodes (g_table s)) -> fresh now x = false)).
Proof.
  intros h s now pick ih from t H W F. pose proof (runs_inv N0 R0 H) as G. cbn [gstep]. unfold on_get_peers.
  assert (P : exists m v, find_peers pick s ih = Val (m, v) /\ match v with Some l => l <> [] | None => True end).
  { unfold find_peers. destruct (q_serve (g_info s) ih) eqn:Q.
    - destruct (@C25_good_peers (g_peers s) (DHT_MTU / COMPACT_PEER_LEN) (gi_nodup G)) as (m & v & -> & _). exists m. eexists. split; [reflexivity|]. destruct v; [exact I|discriminate].
    - do 2 eexists. split; [reflexivity|]. assert (NE : ih <> info).
      { intro X. subst ih. unfold q_serve in Q. rewrite (gi_info G), bytes_eqb_refl in Q. discriminate. }
      pose proof (gi_map G NE) as M. destruct (mget bytes_eqb ih (g_map s)) as [l|]; cbn [option_map]; [|exact I]. destruct M as (M1 & M2 & _).
      destruct (F (DHT_MTU / COMPACT_PEER_LEN) l M2) as (_ & _ & L). intro Q2. rewrite Q2 in L. cbn [length] in L.
      change (DHT_MTU / COMPACT_PEER_LEN) with 216 in L. destruct l; [congruence|]. cbn [length] in L. lia. }
  destruct P as (m & v & E & V). rewrite E. cbn [rbind fst snd]. destruct v as [l|].
  - do 2 eexists. split; [reflexivity|]. left. eauto.
  - destruct (@served_spec now (g_table s) ih (gi_table G) W) as (o & E2 & O). rewrite E2. cbn [rmap]. do 2 eexists. split; [reflexivity|].
    destruct o as [n|]; [right; left; eauto|right; right; tauto].
Qed.
(** ** refreshing *)
Lemma find_nodes_spec : forall now t ids, inv t -> Forall wf_id ids ->
  exists o, find_nodes_for now t ids = Val o /\
    (forall c, In c o -> exists n i, c = CQuery (n_addr n) (QFindNode i) /\ In i ids /\ In n (t_nodes t) /\ good now n = true /\
       (forall m, In m (t_nodes t) -> good now m = true -> cpl i (n_id m) <= cpl i (n_id n))) /\
    ((exists n, In n (t_nodes t) /\ good now n = true) -> flat_map (fun c => match c with CQuery _ (QFindNode i) => [i] | _ => [] end) o = ids).
Proof.
  intros now t ids I. induction ids as [|i ids IH]; intro F; cbn [find_nodes_for].
  - exists []. repeat split; auto. contradiction.
  - destruct (IH (Forall_inv_tail F)) as (o & E & A & B). destruct (@closest_spec now t i I (Forall_inv F)) as (c & C & D). rewrite C. cbn [rbind]. rewrite E. cbn [rmap].
    eexists. split; [reflexivity|]. destruct c as [[|n l]|].
    + destruct D as (D & _). congruence.
    + destruct D as (_ & D1 & D2 & D3 & D4 & D5). split.
      * intros c [<-|X].
        { exists n, i. destruct (D2 n (or_introl eq_refl)) as (K1 & K2). repeat split; auto; [left; auto|]. intros m M1 M2.
          destruct (in_dec node_dec m (n :: l)) as [ML|ML].
          - destruct ML as [->|ML]; [lia|]. inversion D3; subst. rewrite Forall_forall in H2. apply H2. exact ML.
          - apply D4; auto. left. auto. }
        { destruct (A c X) as (n' & i' & Q1 & Q2 & Q3). exists n', i'. split; auto. split; [right|]; auto. }
      * intro G. cbn [app flat_map]. rewrite (B G). reflexivity.
    + split.
      * intros c X. destruct (A c X) as (n' & i' & Q1 & Q2 & Q3). exists n', i'. split; auto. split; [right|]; auto.
      * intros (n & G1 & G2). rewrite (D n G1) in G2. discriminate.
Qed.

(** A refresh asks, for every target of [C49], the known good node closest to
    it (longest common prefix), as soon as there is any good node; it changes
    nothing. *)
Theorem C82_refresh : forall h s now pick draws, Runs h s -> wf_gin s (GRefresh draws) ->
  exists ids o, iter_over_ids now (g_table s) draws = Val ids /\ gstep now pick s (GRefresh draws) = Val (s, o) /\
    (forall c, In c o -> exists n i, c = CQuery (n_addr n) (QFindNode i) /\ In i ids /\ In n (t_nodes (g_table s)) /\ fresh now n = true /\
       (forall m, In m (t_nodes (g_table s)) -> fresh now m = true -> cpl i (n_id m) <= cpl i (n_id n))) /\
    ((exists n, In n (t_nodes (g_table s)) /\ fresh now n = true) ->
       flat_map (fun c => match c with CQuery _ (QFindNode i) => [i] | _ => [] end) o = ids).
Proof.
  intros h s now pick draws H (W1 & W2). pose proof (runs_inv N0 R0 H) as G. pose proof (reachable_inv (gi_table G)) as I.
  destruct (@C49_refresh_targets (g_table s) now draws (gi_table G)) as (l & E & F & _); [apply Forall_forall; exact W2|exact W1|].
  cbn [gstep]. unfold refresh_table. rewrite E. cbn [rbind].
  assert (WL : Forall wf_id (l ++ (if n_buckets (g_table s) <=? 160 then [t_own (g_table s)] else []))).
  { apply Forall_app. split.
    - clear - F. induction F as [|x y a b (A & _) F IH]; constructor; auto.
    - destruct (n_buckets (g_table s) <=? 160); repeat constructor. apply (i_own I). }
  destruct (@find_nodes_spec now (g_table s) _ I WL) as (o & E2 & A & B). rewrite E2. cbn [rmap].
  eexists _, o. split; [reflexivity|]. split; [reflexivity|]. split; [exact A|exact B].
Qed.
(** A peer with a DHT port is pinged there. *)
Theorem C82_port : forall s now pick a, gstep now pick s (GPort a) = Val (s, [CQuery a QPing]).
Proof. reflexivity. Qed.
(** ** C83: the start of the search *)
(** Histories of turns; [starts] are the searches started. *)
Inductive kruns (tcp_port : N) : ghist -> list fetcher -> task -> Prop :=
| kr_nil : kruns tcp_port [] [] (mk_task (g_start info m0 t0) true)
| kr_turn : forall h fs k now now2 now3 pick i k' o f, kruns tcp_port h fs k -> fair pick -> wf_gin (k_mgr k) i ->
    turn now now2 now3 pick tcp_port k i = Val (k', o, f) ->
    kruns tcp_port ((i, o) :: h) (match f with Some x => x :: fs | None => fs end) k'
| kr_reorder : forall h fs k m, kruns tcp_port h fs k -> Permutation (g_peers (k_mgr k)) m ->
    kruns tcp_port h fs (mk_task (mk_dmgr (g_info (k_mgr k)) m (g_map (k_mgr k)) (g_table (k_mgr k))) (k_wait k)).
Lemma kruns_gruns : forall p h fs k, kruns p h fs k -> Runs h (k_mgr k).
Proof.
  induction 1 as [|h fs k now now2 now3 pick i k' o f H IH F W E|h fs k m H IH P].
  - apply gr_nil.
  - unfold turn in E. destruct (gstep now pick (k_mgr k) i) as [[s o']| |] eqn:S; try discriminate. cbn [rbind] in E.
    assert (Q : k_mgr k' = s /\ o = o').
    { destruct (k_wait k && (0 <? count_good_nodes now2 (g_table s))).
      - destruct (spawn_fetcher now3 (g_info s) p (g_peers s) (g_table s)); try discriminate. cbn [rmap] in E. injection E as <- <- _. auto.
      - injection E as <- <- _. auto. }
    destruct Q as (-> & ->). eapply gr_step; eauto.
  - cbn [k_mgr]. apply gr_reorder; auto.
Qed.
(** A search is well started: for our hash and port, on the shared peers, with
    1 to 15 good nodes of the table, none much farther than a good node left
    out; this is what the theorems on the search (C51, C81) ask for. *)
Definition well_started (now : N) (tcp_port : N) (s : dmgr) (f : fetcher) : Prop :=
  exists start, f = f_start info tcp_port start (g_peers s) /\ NoDup (map fst (g_peers s)) /\
    Forall (fun n => wf_id (n_id n)) start /\ NoDup (map n_id start) /\ 0 < length start <= 15 /\
    (forall n, In n start -> In n (t_nodes (g_table s)) /\ fresh now n = true) /\
    (forall n m, In n start -> In m (t_nodes (g_table s)) -> fresh now m = true -> ~ In m start -> cpl info (n_id m) <= cpl info (n_id n)).
Lemma good_count : forall now t, (0 <? count_good_nodes now t) = true <-> exists n, In n (t_nodes t) /\ fresh now n = true.
Proof.
  intros now t. change fresh with good. unfold count_good_nodes. rewrite Nat.ltb_lt.
  assert (E : list_sum (map (fun b => length (iter_over_goods now b)) (t_data t)) = length (filter (good now) (t_nodes t))).
  { unfold t_nodes. rewrite <- goods_nodes. induction (t_data t) as [|b l IH]; [reflexivity|]. cbn [map list_sum fold_right flat_map]. rewrite app_length, <- IH. reflexivity. }
  rewrite E. split.
  - destruct (filter (good now) (t_nodes t)) as [|n l] eqn:F; cbn; [lia|]. intros _. exists n. apply filter_In. rewrite F. left. auto.
  - intros (n & A & B). assert (In n (filter (good now) (t_nodes t))) as X by (apply filter_In; auto). destruct (filter (good now) (t_nodes t)); [destruct X|cbn; lia].
Qed.
Lemma spawn_spec : forall h s now p, Runs h s -> exists f, spawn_fetcher now (g_info s) p (g_peers s) (g_table s) = Val f /\
  match f with
  | Some f => well_started now p s f
  | None => forall n, In n (t_nodes (g_table s)) -> fresh now n = false
  end.
Proof.
  intros h s now p H. pose proof (runs_inv N0 R0 H) as G. pose proof (reachable_inv (gi_table G)) as I. unfold spawn_fetcher. rewrite (gi_info G).
  destruct (@closest_spec now (g_table s) info I WI) as (o & E & O). rewrite E. cbn [rmap]. eexists. split; [reflexivity|].
  destruct o as [l|]; cbn [option_map]; [|exact O]. destruct O as (O1 & O2 & O3 & O4 & O5 & O6).
  exists l. split; [reflexivity|]. split; [apply (gi_nodup G)|]. split.
  { apply Forall_forall. intros n X. destruct (O3 n X) as (Y & _). apply (@in_home _ n I Y). }
  split; [exact O2|]. split; [destruct l; [congruence|cbn [length] in *; lia]|]. split; [exact O3|exact O5].
Qed.
(** The search is started at most once; whenever it starts it is well started;
    it is started by the first turn after which the table has a good node (the
    clock standing still within the turn); every turn succeeds. *)
Theorem C83_search_started : forall p h fs k now now2 now3 pick i, kruns p h fs k -> fair pick -> wf_gin (k_mgr k) i ->
  length fs = (if k_wait k then 0 else 1) /\
  exists k' o f, turn now now2 now3 pick p k i = Val (k', o, f) /\
    gstep now pick (k_mgr k) i = Val (k_mgr k', o) /\
    (forall x, f = Some x -> fs = [] /\ well_started now3 p (k_mgr k') x) /\
    (now2 = now3 -> (exists n, In n (t_nodes (g_table (k_mgr k'))) /\ fresh now2 n = true) -> fs = [] -> exists x, f = Some x).
Proof.
  intros p h fs k now now2 now3 pick i H F W.
  assert (L : length fs = (if k_wait k then 0 else 1)).
  { clear - H. induction H as [|h fs k now now2 now3 pick i k' o f H IH F W E|h fs k m H IH P]; auto.
    unfold turn in E. destruct (gstep now pick (k_mgr k) i) as [[s o']| |]; try discriminate. cbn [rbind] in E.
    destruct (k_wait k); cbn [andb] in E.
    - destruct (0 <? count_good_nodes now2 (g_table s)).
      + destruct (spawn_fetcher now3 (g_info s) p (g_peers s) (g_table s)) as [[x|]| |]; try discriminate; cbn [rmap] in E; injection E as <- <- <-; cbn; lia.
      + injection E as <- <- <-. cbn. lia.
    - injection E as <- <- <-. cbn. lia. }
  split; [exact L|]. pose proof (kruns_gruns H) as R. destruct (@C79_only_answering_nodes info m0 t0 N0 R0 h _ R) as (_ & _ & _ & T).
  destruct (T now pick i F W) as (s & o & S). unfold turn. rewrite S. cbn [rbind].
  assert (R' : Runs ((i, o) :: h) s) by (eapply gr_step; eauto).
  destruct (k_wait k) eqn:KW; cbn [andb].
  - destruct (0 <? count_good_nodes now2 (g_table s)) eqn:C.
    + destruct (@spawn_spec _ s now3 p R') as (f & E & X). rewrite E. cbn [rmap]. do 3 eexists. split; [reflexivity|]. cbn [k_mgr]. split; [reflexivity|]. split.
      * intros x ->. split; [destruct fs; [auto|discriminate]|exact X].
      * intros -> (n & A & B) _. destruct f as [x|]; eauto. rewrite (X n A) in B. discriminate.
    + do 3 eexists. split; [reflexivity|]. cbn [k_mgr]. split; [reflexivity|]. split; [discriminate|]. intros _ G. apply good_count in G. congruence.
  - do 3 eexists. split; [reflexivity|]. cbn [k_mgr]. split; [reflexivity|]. split; [discriminate|]. intros _ _ Q. subst fs. discriminate.
Qed.
End task.

(** A pong from a new node: the node is stored, the search starts with it. *)
Definition ex_node : node := mk_node (n_id (w_node 1)) (w_addr 1) (Some 5%N).
Definition ex_after (r : res (task * list to_con * option fetcher)) : option (fetcher * list to_con) :=
  match r with
  | Val (k', o, Some f) => match gstep 6 (fun n l => firstn n l) (k_mgr k') (GFindNode w_ih (w_addr 3) [x01]) with Val (_, o') => Some (f, o') | _ => None end
  | _ => None
  end.
Example C82_example : ex_after (turn 5 5 5 (fun n l => firstn n l) 6881 (mk_task (g_start w_ih [] (t_default (n_id (w_node 9)))) true)
    (GResp (FTouch (n_id (w_node 1)) (w_addr 1)))) =
  Some (f_start w_ih 6881 [ex_node] [], [CReply (w_addr 3) [x01] (PFindNode (Closest [ex_node]))]).
Proof. vm_compute. reflexivity. Qed.
Print Assumptions C82_find_node.
Print Assumptions C82_get_peers.
Print Assumptions C82_refresh.
Print Assumptions C82_port.
Print Assumptions C83_search_started.
