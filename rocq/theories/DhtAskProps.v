(** C105: whom the DHT asks, and what. *)
From Coq Require Import List NArith ZArith Lia Bool Arith Permutation.
From Coq Require Import Init.Byte.
From Verif Require Import Base Assoc IdModel WireModel TableModel PeersModel PeersSpec PeersProofs TableProofs LookupProps BencodeModel KrpcModel DhtModel DhtSpec DhtMgrModel FetchModel TaskModel DhtSysModel DhtSysSpec DhtSysProps DhtRouteProps DhtAskSpec.
Import ListNotations.
Set Implicit Arguments.

(** ** addresses in the table *)
Definition addrs (t : table) : list addr := map n_addr (t_nodes t).
Lemma in_addrs : forall t a, In a (addrs t) <-> exists b n, In b (t_data t) /\ In (Some n) (b_data b) /\ n_addr n = a.
Proof.
  intros t a. unfold addrs, t_nodes. rewrite in_map_iff. split.
  - intros (n & E & I). apply in_flat_map in I. destruct I as (b & B & I). unfold iter_nodes, flatten in I. apply in_flat_map in I. destruct I as ([m|] & M & I); [|destruct I]. destruct I as [->|[]]. eauto.
  - intros (b & n & B & I & E). exists n. split; [exact E|]. apply in_flat_map. exists b. split; [exact B|]. unfold iter_nodes, flatten. apply in_flat_map. exists (Some n). split; [exact I|left; reflexivity].
Qed.
Lemma in_upd : forall A (l : list A) i x y, In y (upd l i x) -> y = x \/ In y l.
Proof. intros A l. induction l as [|z l IH]; intros [|i] x y H; cbn in H; try tauto; destruct H as [->|H]; cbn; auto. destruct (IH _ _ _ H); auto. Qed.
Lemma touch_first_in : forall now id l n, In (Some n) (touch_first now id l) -> exists m, In (Some m) l /\ n_addr m = n_addr n.
Proof.
  intros now id l. induction l as [|s l IH]; intros n H; [destruct H|]. cbn [touch_first] in H. destruct (slot_has id s).
  - destruct H as [H|H]; [|exists n; split; [right; exact H|reflexivity]]. destruct s as [m|]; [|discriminate]. injection H as <-. exists m. split; [left; reflexivity|reflexivity].
  - destruct H as [->|H]; [exists n; split; [left; reflexivity|reflexivity]|]. destruct (IH _ H) as (m & M & E). exists m. split; [right; exact M|exact E].
Qed.
Lemma put_in : forall l i n r (x : option node), put l i (Some n) = Val r -> In x r -> x = Some n \/ In x l.
Proof. intros l i n r x H I. unfold put in H. destruct (_ <? _); [|discriminate]. injection H as <-. eapply in_upd; eauto. Qed.
Lemma split_loop_in : forall depth ns z o l r z' o' n, split_loop depth ns z o l r = Val (z', o') -> In (Some n) z' \/ In (Some n) o' -> In n ns \/ In (Some n) z \/ In (Some n) o.
Proof.
  intros depth ns. induction ns as [|m ns IH]; intros z o l r z' o' n H I; cbn [split_loop] in H; [injection H as <- <-; auto|].
  destruct (get_bit (n_id m) depth) as [[]| |]; try discriminate.
  - destruct (put o r (Some m)) as [o1| |] eqn:P; try discriminate. cbn [rbind] in H. destruct (IH _ _ _ _ _ _ _ H I) as [J|[J|J]]; [left; right; exact J|auto|]. destruct (@put_in _ _ _ _ _ P J) as [K|K]; [injection K as ->; left; left; reflexivity|auto].
  - destruct (put z l (Some m)) as [z1| |] eqn:P; try discriminate. cbn [rbind] in H. destruct (IH _ _ _ _ _ _ _ H I) as [J|[J|J]]; [left; right; exact J| |auto]. destruct (@put_in _ _ _ _ _ P J) as [K|K]; [injection K as ->; left; left; reflexivity|auto].
Qed.
Lemma no_some : forall k (n : node), ~ In (Some n) (repeat None k).
Proof. intros k n H. apply repeat_spec in H. discriminate. Qed.
Lemma split_addrs : forall t t' a, t_split t = Val t' -> In a (addrs t') -> In a (addrs t).
Proof.
  intros t t' a H I. unfold t_split in H. destruct (rev (t_data t)) as [|b l] eqn:R; [discriminate|]. destruct (b_split b) as [[z o]| |] eqn:S; try discriminate. cbn [rbind] in H.
  destruct (bit_based_order _ _ _ _) as [oo| |] eqn:BO; try discriminate. cbn [rbind] in H. injection H as <-. apply in_addrs in I. destruct I as (b' & n & B & I & E). cbn [t_data] in B. apply in_addrs.
  assert (BI : In b (t_data t)) by (apply in_rev; rewrite R; left; reflexivity).
  apply in_app_or in B. destruct B as [B|B].
  { exists b', n. split; [|auto]. clear - B. revert B. induction (t_data t) as [|x [|y q] IH]; intro B; [destruct B|destruct B|]. cbn [removelast] in B. destruct B as [->|B]; [left; reflexivity|right; apply IH; exact B]. }
  assert (X : b' = z \/ b' = o).
  { unfold bit_based_order in BO. destruct (get_bit _ _) as [[]| |]; try discriminate; cbn in BO; injection BO as <-; cbn in B; intuition. }
  unfold b_split in S. destruct (split_loop _ _ _ _ _ _) as [[zs os]| |] eqn:SL; try discriminate. cbn [rbind fst snd] in S. injection S as <- <-.
  assert (Y : In (Some n) zs \/ In (Some n) os) by (destruct X as [->| ->]; cbn in I; auto).
  destruct (@split_loop_in _ _ _ _ _ _ _ _ n SL Y) as [J|[J|J]]; [|destruct (no_some _ _ J)..].
  exists b, n. split; [exact BI|]. split; [|exact E]. unfold iter_nodes, flatten in J. apply in_flat_map in J. destruct J as ([m|] & M & J); [|destruct J]. destruct J as [->|[]]. exact M.
Qed.
Lemma nth_upd_addrs : forall t i b b' x, nth_error (t_data t) i = Some b ->
  (forall n, In (Some n) (b_data b') -> n_addr n = x \/ exists m, In (Some m) (b_data b) /\ n_addr m = n_addr n) ->
  forall a, In a (addrs (mk_table (t_own t) (upd (t_data t) i b'))) -> a = x \/ In a (addrs t).
Proof.
  intros t i b b' x N H a I. apply in_addrs in I. destruct I as (c & n & C & I & E). cbn [t_data] in C. apply in_upd in C. destruct C as [->|C].
  - destruct (H n I) as [J|(m & M & J)]; [left; congruence|]. right. apply in_addrs. exists b, m. split; [eapply nth_error_In; eauto|]. split; [exact M|congruence].
  - right. apply in_addrs. eauto.
Qed.
Lemma touch_addrs : forall now id x t t' a, touch_node now id x t = Val t' -> In a (addrs t') -> a = x \/ In a (addrs t).
Proof.
  intros now id x t t' a H I. unfold touch_node in H. destruct (find_bucket_idx t id) as [i| |]; try discriminate. cbn [rbind] in H. destruct (nth_error (t_data t) i) as [b|] eqn:N; [|discriminate].
  destruct (get_node b id) as [g|].
  { injection H as <-. eapply nth_upd_addrs; [exact N| |exact I]. intros n J. right. eapply touch_first_in; exact J. }
  clear N b i. revert t t' H I. generalize (S MAX_BUCKETS) as fuel. induction fuel as [|fuel IH]; intros t t' H I; cbn [insert_new_good] in H; [discriminate|].
  destruct (t_try_insert now id x t) as [t1| |] eqn:T; try discriminate.
  - injection H as <-. unfold t_try_insert in T. destruct (find_bucket_idx t id) as [i| |]; try discriminate. cbn [rbind] in T. destruct (nth_error (t_data t) i) as [b|] eqn:N; [|discriminate].
    destruct (b_try_insert now id x b) as [b'| |] eqn:B; try discriminate. cbn [rbind] in T. injection T as <-. eapply nth_upd_addrs; [exact N| |exact I]. intros n J. unfold b_try_insert in B. destruct (get_node b id).
    + injection B as <-. right. eapply touch_first_in; exact J.
    + destruct (replaceable_idx now b); [|discriminate]. injection B as <-. cbn [b_data] in J. apply in_upd in J. destruct J as [J|J]; [injection J as ->; left; reflexivity|right; eauto].
  - destruct (id_within_splittable t id) as [w| |]; try discriminate. cbn [rbind] in H. destruct (negb w); [injection H as <-; auto|]. destruct (max_depth_reached t); [injection H as <-; auto|].
    destruct (t_split t) as [t1| |] eqn:S; try discriminate. cbn [rbind] in H. destruct (IH _ _ H I) as [J|J]; [auto|]. right. eapply split_addrs; eauto.
Qed.
Lemma collect_in : forall now bs acc n, In n (collect now bs acc) -> In n acc \/ exists b, In b bs /\ In n (iter_nodes b).
Proof.
  intros now bs. induction bs as [|b bs IH]; intros acc n H; cbn [collect] in H; [auto|].
  assert (A : In n (acc ++ iter_over_goods now b) -> In n acc \/ exists b', In b' (b :: bs) /\ In n (iter_nodes b')).
  { intro I. apply in_app_or in I. destruct I as [I|I]; [auto|]. unfold iter_over_goods in I. apply filter_In in I. right. exists b. split; [left; reflexivity|tauto]. }
  destruct (_ <=? _); [auto|]. destruct (IH _ _ H) as [I|(b' & B & I)]; [auto|]. right. exists b'. split; [right; exact B|exact I].
Qed.
Lemma closest_in : forall now t id l n, get_closest_nodes now t id = Val (Some l) -> In n l -> In (n_addr n) (addrs t).
Proof.
  intros now t id l n H I. unfold get_closest_nodes in H. destruct (find_bucket_idx t id) as [i| |]; try discriminate. cbn [rbind] in H. injection H as H.
  set (ns := collect now _ []) in *. assert (J : In n ns). { destruct ns as [|y ys] eqn:E; [discriminate|]. injection H as <-. eapply Permutation_in; [apply sort_perm|]. exact I. }
  apply collect_in in J. destruct J as [[]|(b & B & J)]. unfold addrs. apply in_map. unfold t_nodes. apply in_flat_map. exists b. split; [|exact J].
  apply in_app_or in B. rewrite <- (firstn_skipn i (t_data t)). apply in_or_app. destruct B as [B|B]; [auto|]. left. apply in_rev. exact B.
Qed.
Lemma refresh_in : forall now t ids o c, find_nodes_for now t ids = Val o -> In c o -> exists a id, c = CQuery a (QFindNode id) /\ In a (addrs t).
Proof.
  intros now t ids. induction ids as [|i ids IH]; intros o c H I; cbn [find_nodes_for] in H; [injection H as <-; destruct I|].
  destruct (get_closest_nodes now t i) as [l| |] eqn:G; try discriminate. cbn [rbind] in H. destruct (find_nodes_for now t ids) as [o1| |] eqn:F; try discriminate. cbn [rmap] in H. injection H as <-.
  apply in_app_or in I. destruct I as [I|I]; [|eapply IH; eauto]. destruct l as [[|n l]|]; try destruct I as [I|[]]; try destruct I. exists (n_addr n), i. split; [congruence|]. eapply closest_in; [exact G|left; reflexivity].
Qed.
Lemma unknown_in : forall t l r a, unknown_addrs t l = Val r -> In a r -> In a (map n_addr l).
Proof.
  intros t l. induction l as [|n l IH]; intros r a H I; cbn [unknown_addrs] in H; [injection H as <-; destruct I|].
  destruct (contains_node t (n_id n)) as [b| |]; try discriminate. cbn [rbind] in H. destruct (unknown_addrs t l) as [q| |] eqn:U; try discriminate. cbn [rmap] in H. injection H as <-.
  destruct b; [right; eauto|]. destruct I as [<-|I]; [left; reflexivity|right; eauto].
Qed.

Section ask.
Variable sha : bytes -> bytes.
Variable usize_max : nat.
Variable cap : caps.
Variable tcp_port : N.
Variable own info : ID.
Notation ystep := (ystep sha usize_max cap tcp_port).
Notation yrun := (yrun sha usize_max cap tcp_port).

(** What may be asked, for known nodes [A] and given tokens [K]. *)
Section may.
Variable A : addr -> Prop.
Variable K : addr -> bytes -> Prop.
Definition may_query (a : addr) (q : to_query) : Prop :=
  A a /\ match q with QPing | QFindNode _ => True | QGetPeers ih => ih = info | QAnnounce ih p tok => ih = info /\ p = tcp_port /\ K a tok end.
Definition may_cmd (c : to_con) : Prop := match c with CQuery a q => may_query a q | CReply _ _ _ => True end.
Definition may_resp (r : from_resp) : Prop :=
  match r with
  | FTouch _ from => A from
  | FNewNodes n from _ => A from /\ forall x, In x (nodes_list n) -> A (n_addr x)
  | FGetPeers from tok v => K from tok /\ match v with VNodes n => forall x, In x (nodes_list n) -> A (n_addr x) | VValues _ => True end
  end.
Definition may_send (to : addr) (m : kmsg) : Prop := forall t y name a, m = MQuery t y name a -> exists q, m = query_message own t q /\ may_query to q.
Definition may_out (o : out) : Prop := match o with OSend to m => may_send to m | OResp _ r => may_resp r | _ => True end.
Definition may_in (i : gin) : Prop := match i with GResp r => may_resp r | GPort a => A a | _ => True end.
Definition knows (f : fetcher) : Prop := fs_info f = info /\ fs_port f = tcp_port /\ forall a n, In (a, n) (fs_nodes f) -> A a /\ forall tok, f_token n = Some tok -> K a tok.
Lemma gstep_may : forall now pick s i s' o, gstep now pick s i = Val (s', o) -> may_in i -> (forall a, In a (addrs (g_table s)) -> A a) ->
  (forall a, In a (addrs (g_table s')) -> A a) /\ g_info s' = g_info s /\ Forall may_cmd o.
Proof.
  intros now pick s i s' o H M T. destruct i as [tg fr t|ih fr t|p ih|r|dr|a|op]; cbn [gstep] in H.
  - unfold on_find_node in H. destruct (find_node _ _ _) as [[n|]| |]; try discriminate; injection H as <- <-; repeat split; auto; repeat constructor.
  - unfold on_get_peers in H. destruct (find_peers pick s ih) as [[m r]| |] eqn:F; try discriminate. cbn [rbind fst snd] in H.
    destruct r as [l|]; [injection H as <- <-; cbn; repeat split; auto; repeat constructor|]. destruct (find_node _ _ _) as [[n|]| |]; try discriminate; injection H as <- <-; cbn; repeat split; auto; repeat constructor.
  - injection H as <- <-. unfold store_new_peer. destruct (q_serve _ _); cbn; repeat split; auto.
  - unfold on_resp in H. destruct r as [id fr|n fr id|fr tok v]; cbn [may_in may_resp] in M.
    + destruct (touch_node _ _ _ _) as [t| |] eqn:TN; try discriminate. injection H as <- <-. cbn. split; [|repeat split; constructor]. intros a I. destruct (@touch_addrs _ _ _ _ _ _ TN I) as [->|J]; auto.
    + destruct M as (M1 & M2). destruct (touch_node _ _ _ _) as [t| |] eqn:TN; try discriminate. cbn [rbind] in H. destruct (unknown_addrs _ _) as [l| |] eqn:U; try discriminate. injection H as <- <-. cbn. split; [|split; [reflexivity|]].
      * intros a I. destruct (@touch_addrs _ _ _ _ _ _ TN I) as [->|J]; auto.
      * apply Forall_forall. intros c I. apply in_map_iff in I. destruct I as (a & <- & I). apply (@unknown_in _ _ _ _ U) in I. apply in_map_iff in I. destruct I as (x & <- & I). split; [auto|exact Logic.I].
    + injection H as <- <-. repeat split; auto.
  - unfold refresh_table in H. destruct (iter_over_ids _ _ _) as [ids| |]; try discriminate. cbn [rbind] in H. destruct (find_nodes_for _ _ _) as [l| |] eqn:F; try discriminate. injection H as <- <-. repeat split; auto.
    apply Forall_forall. intros c I. destruct (@refresh_in _ _ _ _ _ F I) as (a & id & -> & J). split; [auto|exact Logic.I].
  - injection H as <- <-. repeat split; auto; repeat constructor. exact M.
  - destruct (q_step _ _) as [r| |]; try discriminate. injection H as <- <-. cbn. repeat split; auto.
Qed.
Lemma announce_may : forall m, (forall a n, In (a, n) m -> A a /\ forall tok, f_token n = Some tok -> K a tok) -> Forall may_cmd (announce_peer tcp_port info m).
Proof.
  intros m M. apply Forall_forall. intros c I. unfold announce_peer in I. apply in_map_iff in I. destruct I as ((a & tok) & <- & I). 
  assert (J : In (a, tok) (flat_map (fun e => match f_token (snd e) with Some t => [(fst e, t)] | None => [] end) (get_sorted_nodes m info))).
  { rewrite <- (firstn_skipn ANNOUNCE_TO_N_TOP_NODES (flat_map _ _)). apply in_or_app. left. exact I. }
  apply in_flat_map in J. destruct J as ((b & n) & J & L). cbn [fst snd] in L. destruct (f_token n) as [tk|] eqn:TK; [|destruct L]. destruct L as [L|[]]. injection L as -> ->.
  unfold get_sorted_nodes in J. eapply Permutation_in in J; [|apply sort_perm]. destruct (M _ _ J) as (M1 & M2). cbn. split; [exact M1|]. repeat split. apply M2. exact TK.
Qed.
Lemma mset_in : forall V (k : addr) (v : V) m a x, In (a, x) (mset addr_eqb k v m) -> (a, x) = (k, v) \/ In (a, x) m.
Proof.
  intros V k v m. induction m as [|(k' & v') m IH]; intros a x H; cbn in H; [destruct H as [H|[]]; left; congruence|].
  destruct (addr_eqb k k') eqn:E; cbn in H; destruct H as [H|H]; [apply addr_eqb_spec in E; left; congruence|right; right; exact H|right; left; exact H|].
  destruct (IH _ _ H) as [J|J]; [left; exact J|right; right; exact J].
Qed.
Lemma new_nodes_may : forall l m m' q, new_nodes info l m = (m', q) -> (forall x, In x l -> A (n_addr x)) ->
  (forall a n, In (a, n) m -> A a /\ forall tok, f_token n = Some tok -> K a tok) ->
  (forall a n, In (a, n) m' -> A a /\ forall tok, f_token n = Some tok -> K a tok) /\ Forall may_cmd q.
Proof.
  induction l as [|x l IH]; intros m m' q H L M; cbn [new_nodes] in H; [injection H as <- <-; auto|].
  destruct (mhas addr_eqb (n_addr x) m); [eapply IH; eauto; intros; apply L; right; assumption|].
  destruct (new_nodes info l _) as [m1 q1] eqn:E. cbn [fst snd] in H. injection H as <- <-. destruct (IH _ _ _ E) as (P & Q); [intros; apply L; right; assumption| |].
  - intros a n I. apply mset_in in I. destruct I as [I|I]; [|auto]. injection I as -> ->. split; [apply L; left; reflexivity|discriminate].
  - split; [exact P|]. constructor; [|exact Q]. split; [apply L; left; reflexivity|reflexivity].
Qed.
Lemma fstep_may : forall f e f' o, fstep usize_max f e = Val (f', o) -> knows f -> (forall r, e = FResp r -> may_resp r) -> knows f' /\ Forall may_cmd o.
Proof.
  intros f e f' o H (F1 & F2 & F3) R. destruct e as [|r| |op]; cbn [fstep] in H.
  - destruct (fs_busy f); [discriminate|]. injection H as <- <-. split; [repeat split; auto; apply (F3 a n H)|]. apply Forall_forall. intros c I. apply in_map_iff in I. destruct I as (a & <- & I). unfold keys in I. apply in_map_iff in I. destruct I as ((b & n) & <- & I). split; [apply (F3 _ _ I)|exact F1].
  - destruct (fs_busy f); [|destruct r; discriminate]. specialize (R r eq_refl). destruct r as [id fr|n fr id|fr tok v]; try (injection H as <- <-; split; [split; [exact F1|split; [exact F2|exact F3]]|constructor]).
    destruct (mget addr_eqb fr (fs_nodes f)) as [old|] eqn:G; [|injection H as <- <-; split; [split; [exact F1|split; [exact F2|exact F3]]|constructor]].
    destruct (on_answer usize_max f old fr tok v) as [[[f1 go] q]| |] eqn:OA; try discriminate. cbn [rmap] in H. destruct R as (R1 & R2).
    assert (AF : A fr). { eapply F3. eapply mget_in; [exact addr_eqb_spec|exact G]. }
    assert (E : knows f1 /\ Forall may_cmd q).
    { unfold on_answer in OA. rewrite F1, F2 in OA. destruct v as [l|n].
      - assert (X : forall a n, In (a, n) (mset addr_eqb fr (FHasPeers (f_id old) tok) (fs_nodes f)) -> A a /\ forall tk, f_token n = Some tk -> K a tk).
        { intros a n I. apply mset_in in I. destruct I as [I|I]; [|auto]. injection I as -> ->. split; [exact AF|]. intros tk T. injection T as <-. exact R1. }
        destruct (_ <=? _); [destruct (q_enough _ _) as [[m' b]| |]; try discriminate; cbn [rmap fst] in OA|]; injection OA as <- _ <-; (split; [|constructor]); repeat split; cbn [fs_nodes]; try (eapply X; eassumption).
        + unfold forget_far_nodes in *. intros. apply (X a n). eapply Permutation_in; [apply sort_perm|]. rewrite <- (firstn_skipn ACTIVE_CLOSE_NODES_CAP_LOW (sort_by _ _)). apply in_or_app. left. exact H0.
        + unfold forget_far_nodes in *. eapply X. eapply Permutation_in; [apply sort_perm|]. rewrite <- (firstn_skipn ACTIVE_CLOSE_NODES_CAP_LOW (sort_by _ _)). apply in_or_app. left. exact H0.
      - destruct (new_nodes info _ _) as [m1 q1] eqn:NN. cbn [fst snd] in OA.
        destruct (@new_nodes_may _ _ _ _ NN R2) as (X & Y).
        { intros a x I. apply mset_in in I. destruct I as [I|I]; [|auto]. injection I as -> ->. split; [exact AF|]. intros tk T. injection T as <-. exact R1. }
        destruct (_ <=? _); [destruct (q_enough _ _) as [[m' b]| |]; try discriminate; cbn [rmap fst] in OA|]; injection OA as <- _ <-; (split; [|exact Y]); repeat split; cbn [fs_nodes]; try (eapply X; eassumption).
        + unfold forget_far_nodes in *. intros. apply (X a n0). eapply Permutation_in; [apply sort_perm|]. rewrite <- (firstn_skipn ACTIVE_CLOSE_NODES_CAP_LOW (sort_by _ _)). apply in_or_app. left. exact H0.
        + unfold forget_far_nodes in *. eapply X. eapply Permutation_in; [apply sort_perm|]. rewrite <- (firstn_skipn ACTIVE_CLOSE_NODES_CAP_LOW (sort_by _ _)). apply in_or_app. left. exact H0. }
    destruct E as (E1 & E2). destruct go; injection H as <- <-; [auto|]. destruct E1 as (G1 & G2 & G3). split; [split; [exact G1|split; [exact G2|exact G3]]|]. apply Forall_app. split; [exact E2|]. cbn [end_round snd]. rewrite G1, G2. apply announce_may. exact G3.
  - destruct (fs_busy f); [|discriminate]. injection H as <- <-. split; [split; [exact F1|split; [exact F2|exact F3]]|]. cbn [end_round snd]. rewrite F1, F2. apply announce_may. exact F3.
  - destruct (q_step _ _) as [r| |]; try discriminate. cbn [rmap] in H. injection H as <- <-. split; [split; [exact F1|split; [exact F2|exact F3]]|constructor].
Qed.
End may.

Section mono.
Variables A A' : addr -> Prop.
Variables K K' : addr -> bytes -> Prop.
Hypothesis HA : forall a, A a -> A' a.
Hypothesis HK : forall a t, K a t -> K' a t.
Lemma query_mono : forall a q, may_query A K a q -> may_query A' K' a q.
Proof. intros a q (X & Y). split; [auto|]. destruct q; auto. destruct Y as (Y1 & Y2 & Y3). auto. Qed.
Lemma cmd_mono : forall c, may_cmd A K c -> may_cmd A' K' c.
Proof. intros [a q|a t r]; cbn; [apply query_mono|auto]. Qed.
Lemma resp_mono : forall r, may_resp A K r -> may_resp A' K' r.
Proof. intros [id fr|n fr id|fr tok v]; cbn; [auto|intros (X & Y); auto|]. intros (X & Y). split; [auto|]. destruct v; auto. Qed.
Lemma send_mono : forall to m, may_send A K to m -> may_send A' K' to m.
Proof. intros to m H t y name a E. destruct (H _ _ _ _ E) as (q & Q & M). exists q. split; [exact Q|apply query_mono; exact M]. Qed.
Lemma out_mono : forall o, may_out A K o -> may_out A' K' o.
Proof. intros [to m|? ? ?|? ? ?|? ?|req r]; cbn; auto; [apply send_mono|apply resp_mono]. Qed.
Lemma knows_mono : forall f, knows A K f -> knows A' K' f.
Proof. intros f (X & Y & Z). split; [exact X|]. split; [exact Y|]. intros a n I. destruct (Z a n I) as (Z1 & Z2). auto. Qed.
End mono.

Definition phase_cmds (p : phase) : list to_con := match p with PStart l | PSend l => l | _ => [] end.
Definition from_socket (i : gin) : Prop := match i with GFindNode _ _ _ | GGetPeers _ _ _ | GNewPeer _ _ => True | _ => False end.
Definition to_go (y : sys) (t : bytes) (k : kind) : Prop := exists to v name a, In (OSend to (MQuery t v name a)) (y_outs y) /\ kind_queried a = k.
Record asks (A : addr -> Prop) (K : addr -> bytes -> Prop) (Q : bytes -> kind -> Prop) (y : sys) : Prop := mk_asks {
  as_own : forall d, y_sock y = Some d -> d_own d = own;
  as_pend : forall d t k req, y_sock y = Some d -> In (t, (k, req)) (d_pending d) -> Q t k \/ to_go y t k;
  as_info : g_info (k_mgr (y_dht y)) = info;
  as_table : forall a, In a (addrs (g_table (k_mgr (y_dht y)))) -> A a;
  as_cmd : Forall (fun c => may_cmd A K (snd c)) (y_cmd y);
  as_phase : Forall (may_cmd A K) (phase_cmds (y_phase y));
  as_fout : Forall (may_cmd A K) (y_fout y);
  as_outs : Forall (may_out A K) (y_outs y);
  as_rd : Forall (may_resp A K) (y_rd y);
  as_rf : Forall (may_resp A K) (y_rf y);
  as_port : Forall A (y_port y);
  as_fet : forall f, y_fet y = Some f -> knows A K f;
  as_qry : Forall from_socket (y_qry y)
}.
Lemma asks_mono : forall (A A' : addr -> Prop) (K K' : addr -> bytes -> Prop) (Q Q' : bytes -> kind -> Prop) y,
  (forall a, A a -> A' a) -> (forall a t, K a t -> K' a t) -> (forall t k, Q t k -> Q' t k) -> asks A K Q y -> asks A' K' Q' y.
Proof.
  intros A A' K K' Q Q' y HA HK HQ [B1 B2 B3 B4 B5 B6 B7 B8 B9 B10 B11 B12 B13].
  assert (FC : forall l, Forall (may_cmd A K) l -> Forall (may_cmd A' K') l) by (intro l; apply Forall_impl; intro; apply cmd_mono; auto).
  assert (FR : forall l, Forall (may_resp A K) l -> Forall (may_resp A' K') l) by (intro l; apply Forall_impl; intro; apply resp_mono; auto).
  split; auto.
  - intros d t k req S I. destruct (B2 _ _ _ _ S I); auto.
  - revert B5. apply Forall_impl. intro. apply cmd_mono; auto.
  - revert B8. apply Forall_impl. intro. apply out_mono; auto.
  - revert B11. apply Forall_impl. auto.
  - intros f F. eapply knows_mono; eauto.
Qed.
Lemma mset_in_b : forall V (k : bytes) (v : V) m a x, In (a, x) (mset bytes_eqb k v m) -> (a, x) = (k, v) \/ In (a, x) m.
Proof.
  intros V k v m. induction m as [|(k' & v') m IH]; intros a x H; cbn in H; [destruct H as [H|[]]; left; congruence|].
  destruct (bytes_eqb k k') eqn:E; cbn in H; destruct H as [H|H]; [apply bytes_eqb_eq in E; left; congruence|right; right; exact H|right; left; exact H|].
  destruct (IH _ _ H) as [J|J]; [left; exact J|right; right; exact J].
Qed.
Lemma listed_in : forall n x, In x (nodes_list n) -> In (n_addr x) (listed n).
Proof. intros [y|l] x H; cbn in *; [destruct H as [->|[]]; auto|apply in_map; exact H]. Qed.
Lemma query_tid : forall t q, exists v name a, query_message own t q = MQuery t v name a.
Proof. intros t []; do 3 eexists; reflexivity. Qed.
(** What the socket task makes of a message or a command. *)
Lemma dstep_in : forall (A : addr -> Prop) (K : addr -> bytes -> Prop) d from m d' os, DhtModel.dstep sha all_there d (EIn from m) = Val (d', os) -> d_own d = own ->
  (forall t v r req, m = MResp t v r -> In (t, (kind_answered r, req)) (d_pending d) -> may_resp A K (payload r from)) ->
  d_own d' = own /\ (forall x, In x (d_pending d') -> In x (d_pending d)) /\ Forall (may_out A K) os.
Proof.
  intros A K d from m d' os H O R. cbn [DhtModel.dstep] in H. destruct m as [t v ro a|t v r|t v er].
  - assert (RE : forall m', (forall t v name a, m' <> MQuery t v name a) -> may_out A K (OSend from m')) by (intros m' N ? ? ? ? E; destruct (N _ _ _ _ E)).
    destruct a; cbn [handle_query to_listener all_there e_listener] in H; unfold send_reply in H; try (injection H as <- <-; split; [exact O|]; split; [auto|]; constructor; [first [exact I|apply RE; discriminate]|constructor]).
    destruct (token_is_valid _ _ _ _); [|injection H as <- <-; auto]. cbn [rbind fst snd app] in H. injection H as <- <-. split; [exact O|]. split; [auto|]. constructor; [exact I|]. constructor; [apply RE; discriminate|constructor].
  - unfold handle_resp in H. destruct (pend_get (d_pending d) t (kind_of_resp r)) as [pd o] eqn:P. unfold pend_get in P. destruct (mget bytes_eqb t (d_pending d)) as [(k' & rq)|] eqn:G.
    + destruct (kind_eqb k' (kind_of_resp r)) eqn:KE; injection P as <- <-; cbn [all_there e_alive] in H; injection H as <- <-; cbn [d_own d_pending].
      * split; [exact O|]. split; [intros x X; eapply mdel_incl; exact X|]. constructor; [|constructor]. cbn [may_out]. apply (R t v r rq eq_refl).
        assert (KQ : k' = kind_answered r) by (destruct k', r; try discriminate; reflexivity). rewrite <- KQ. eapply mget_in; [exact bytes_eqb_eq|exact G].
      * split; [exact O|]. split; [auto|constructor].
    + injection P as <- <-. injection H as <- <-. split; [exact O|]. split; [auto|constructor].
  - injection H as <- <-. auto.
Qed.
Lemma dstep_cmd : forall (A : addr -> Prop) (K : addr -> bytes -> Prop) d req c t d' os,
  DhtModel.dstep sha all_there d (match c with CQuery target qu => EQuery req target qu t | CReply target t' r => EReply target t' r end) = Val (d', os) -> d_own d = own -> may_cmd A K c ->
  d_own d' = own /\ (forall t k rq, In (t, (k, rq)) (d_pending d') -> In (t, (k, rq)) (d_pending d) \/ exists to v name a, In (OSend to (MQuery t v name a)) os /\ kind_queried a = k) /\ Forall (may_out A K) os.
Proof.
  intros A K d req c t d' os H O M. destruct c as [a q|a t' r]; cbn [DhtModel.dstep] in H.
  - unfold send_query in H. rewrite O in H. destruct (query_tid t q) as (v & name & ar & E). rewrite E in H. cbn [kind_of_msg rbind tid] in H. injection H as <- <-. cbn [d_own d_pending]. split; [reflexivity|]. split.
    + intros t0 k rq I. unfold pend_insert in I. apply mset_in_b in I. destruct I as [I|I]; [|auto]. injection I as -> -> ->. right. exists a, v, name, ar. split; [left; reflexivity|]. destruct ar; reflexivity.
    + constructor; [|constructor]. cbn [may_out]. intros t0 v0 n0 a0 E0. injection E0 as <- <- <- <-. exists q. split; [symmetry; exact E|exact M].
  - unfold send_reply in H. injection H as <- <-. split; [exact O|]. split; [auto|]. constructor; [|constructor]. intros ? ? ? ? E. destruct r; discriminate E.
Qed.
Lemma ystep_asks : forall (A A' : addr -> Prop) (K K' : addr -> bytes -> Prop) (Q Q' : bytes -> kind -> Prop) y e y' o,
  (forall a, A a -> A' a) -> (forall a t, K a t -> K' a t) -> (forall t k, Q t k -> Q' t k) ->
  (forall from t v r, e = YIn from (MResp t v r) -> Q t (kind_answered r) -> (forall a, In a (makes_known from r) -> A' a) /\ forall id tok vn, r = RGetPeers id tok vn -> K' from tok) ->
  (forall a, e = YPort a -> A' a) ->
  (forall to t v name a, In (to, MQuery t v name a) o -> Q' t (kind_queried a)) ->
  asks A K Q y -> ystep y e = Some (y', o) -> asks A' K' Q' y' /\ forall to m, In (to, m) o -> may_send A K to m.
Proof.
  intros A A' K K' Q Q' y e y' o HA HK HQ HR HP HO S0 H. pose proof (@asks_mono _ _ _ _ _ _ _ HA HK HQ S0) as S. pose proof S as [B1 B2 B3 B4 B5 B6 B7 B8 B9 B10 B11 B12 B13].
  assert (TURN : forall z now pick i, asks A' K' Q' z -> may_in A' K' i -> asks A' K' Q' (dht_turn z now pick i)).
  { intros z now pick i SZ MI. pose proof SZ as [C1 C2 C3 C4 C5 C6 C7 C8 C9 C10 C11 C12 C13]. unfold dht_turn. destruct (gstep now pick (mgr_of z) i) as [[s os]| |] eqn:GS; try (split; cbn; auto; fail).
    destruct (@gstep_may A' K' _ _ _ _ _ _ GS MI C4) as (X & Y & Z). split; cbn; auto. rewrite Y. exact C3. }
  assert (NONE : forall z, asks A' K' Q' z -> asks A' K' Q' (with_sock z None [])).
  { intros z [C1 C2 C3 C4 C5 C6 C7 C8 C9 C10 C11 C12 C13]. split; cbn; auto; discriminate. }
  assert (GONE : forall z, asks A' K' Q' z -> asks A' K' Q' (with_phase z PGone)).
  { intros z [C1 C2 C3 C4 C5 C6 C7 C8 C9 C10 C11 C12 C13]. split; cbn; auto. }
  assert (IDLE : forall z, asks A' K' Q' z -> asks A' K' Q' (with_phase z PIdle)).
  { intros z [C1 C2 C3 C4 C5 C6 C7 C8 C9 C10 C11 C12 C13]. split; cbn; auto. }
  assert (FET : forall z ev f, asks A' K' Q' z -> y_fet z = Some f -> (forall r, ev = FResp r -> may_resp A' K' r) -> forall f' os, fstep usize_max (mk_fet (fs_info f) (fs_port f) (fs_nodes f) (y_peers z) (fs_busy f)) ev = Val (f', os) -> asks A' K' Q' (with_fet z (Some f') os (fs_peers f'))).
  { intros z ev f SZ EF RR f' os FS. pose proof SZ as [C1 C2 C3 C4 C5 C6 C7 C8 C9 C10 C11 C12 C13]. destruct (@fstep_may A' K' _ _ _ _ FS) as (X & Y); [exact (C12 _ EF)|exact RR|]. split; cbn; auto. intros f0 E0. injection E0 as <-. exact X. }
  assert (NOFET : forall z, asks A' K' Q' z -> asks A' K' Q' (with_fet z None [] (y_peers z))).
  { intros z [C1 C2 C3 C4 C5 C6 C7 C8 C9 C10 C11 C12 C13]. split; cbn; auto. discriminate. }
  assert (NIL : forall (P : Prop), P -> P /\ forall to m, In (to, m) [] -> may_send A K to m) by (intros P HH; split; [exact HH|intros ? ? []]).
  destruct e as [from m|t| | | |now pick s| |n2 n3| | | | |a|op]; cbn [DhtSysModel.ystep] in H.
  - destruct (y_sock y) as [d|] eqn:SK; [|discriminate]. destruct (y_outs y) eqn:OU; [|discriminate]. destruct (DhtModel.dstep sha all_there d (EIn from m)) as [[d' os]| |] eqn:DS; cbn [after_sock] in H; injection H as <- <-; apply NIL; [|apply NONE; exact S|apply NONE; exact S].
    destruct (@dstep_in A' K' _ _ _ _ _ DS) as (X & Y & Z); [auto| |].
    + intros t v r req -> IP. assert (QQ : Q t (kind_answered r)). { destruct (@as_pend _ _ _ _ S0 _ _ _ _ SK IP) as [J|(? & ? & ? & ? & J & _)]; [exact J|]. rewrite OU in J. destruct J. }
      destruct (HR _ _ _ _ eq_refl QQ) as (M1 & M2). destruct r as [id tok vn|id n|id|id]; cbn [payload may_resp makes_known] in *.
      * split; [eapply M2; reflexivity|]. destruct vn; [exact I|]. intros x IX. apply M1. apply listed_in. exact IX.
      * split; [apply M1; left; reflexivity|]. intros x IX. apply M1. right. apply listed_in. exact IX.
      * apply M1. left. reflexivity.
      * apply M1. left. reflexivity.
    + split; cbn; auto.
      * intros d0 E0. injection E0 as <-. exact X.
      * intros d0 t k req E0 IP. injection E0 as <-. apply Y in IP. destruct (B2 d t k req eq_refl IP) as [J|(? & ? & ? & ? & J & _)]; [left; exact J|]. rewrite OU in J. destruct J.
  - destruct (y_sock y) as [d|] eqn:SK; [|discriminate]. destruct (y_outs y) eqn:OU; [|discriminate]. destruct (y_cmd y) as [|[req c] q] eqn:CM; [discriminate|]. inversion B5 as [|? ? M1 M2]; subst. cbn [snd] in M1.
    assert (SQ : asks A' K' Q' (with_cmd y q)) by (split; cbn; rewrite ?SK, ?OU; auto).
    destruct (DhtModel.dstep _ _ _ _) as [[d' os]| |] eqn:DS; cbn [after_sock] in H; injection H as <- <-; apply NIL; [|apply NONE; exact SQ|apply NONE; exact SQ].
    destruct (@dstep_cmd A' K' _ _ _ _ _ _ DS (B1 _ eq_refl) M1) as (X & Y & Z). split; cbn; auto.
    + intros d0 E0. injection E0 as <-. exact X.
    + intros d0 t0 k rq E0 IP. injection E0 as <-. apply Y in IP. destruct IP as [IP|(to & v & name & ar & I1 & I2)]; [|right; exists to, v, name, ar; split; [exact I1|exact I2]].
      destruct (B2 d t0 k rq eq_refl IP) as [J|(? & ? & ? & ? & J & _)]; [left; exact J|]. rewrite OU in J. destruct J.
  - destruct (y_sock y) as [d|] eqn:SK; [|discriminate]. destruct (y_outs y) as [|x os] eqn:OU; [discriminate|]. inversion B8 as [|? ? M1 M2]; subst.
    assert (DROP : (forall to m, x <> OSend to m) -> asks A' K' Q' (with_sock y (Some d) os)).
    { intros NO. split; cbn; auto.
      intros d0 t k req E0 IP. injection E0 as <-. destruct (B2 d t k req eq_refl IP) as [J|(to & v & name & ar & J & JK)]; [left; exact J|]. rewrite OU in J. destruct J as [J|J]; [destruct (NO _ _ J)|]. right. exists to, v, name, ar. auto. }
    destruct x as [to m|tg fr t|ih fr t|p ih|req r]; cbn [sock_out] in H; unfold hand_over in H.
    + injection H as <- <-. split; [|intros to' m' [E|[]]; injection E as <- <-; pose proof (as_outs S0) as SO; rewrite OU in SO; inversion SO; assumption].
      split; cbn; auto.
      intros d0 t k req E0 IP. injection E0 as <-. destruct (B2 d t k req eq_refl IP) as [J|(to' & v & name & ar & J & JK)]; [left; exact J|]. rewrite OU in J. destruct J as [J|J]; [|right; exists to', v, name, ar; auto].
        injection J as -> ->. left. rewrite <- JK. eapply HO. left. reflexivity.
    + destruct (dht_alive y); [|injection H as <- <-; apply NIL; apply NONE; exact S]. destruct (_ <? _); [|discriminate]. injection H as <- <-. apply NIL. destruct DROP as [C1 C2 C3 C4 C5 C6 C7 C8 C9 C10 C11 C12 C13]; [discriminate|]. split; cbn; auto. apply Forall_app. split; [exact B13|constructor; [exact I|constructor]].
    + destruct (dht_alive y); [|injection H as <- <-; apply NIL; apply NONE; exact S]. destruct (_ <? _); [|discriminate]. injection H as <- <-. apply NIL. destruct DROP as [C1 C2 C3 C4 C5 C6 C7 C8 C9 C10 C11 C12 C13]; [discriminate|]. split; cbn; auto. apply Forall_app. split; [exact B13|constructor; [exact I|constructor]].
    + destruct (dht_alive y); [|injection H as <- <-; apply NIL; apply NONE; exact S]. destruct (_ <? _); [|discriminate]. injection H as <- <-. apply NIL. destruct DROP as [C1 C2 C3 C4 C5 C6 C7 C8 C9 C10 C11 C12 C13]; [discriminate|]. split; cbn; auto. apply Forall_app. split; [exact B13|constructor; [exact I|constructor]].
    + cbn [may_out] in M1. destruct (req =? DHT).
      * destruct (dht_alive y); [|injection H as <- <-; apply NIL; apply NONE; exact S]. destruct (_ <? _); [|discriminate]. injection H as <- <-. apply NIL. destruct DROP as [C1 C2 C3 C4 C5 C6 C7 C8 C9 C10 C11 C12 C13]; [discriminate|]. split; cbn; auto. apply Forall_app. split; [exact B9|constructor; [exact M1|constructor]].
      * destruct (match y_fet y with Some _ => true | None => false end); [|injection H as <- <-; apply NIL; apply NONE; exact S]. destruct (_ <? _); [|discriminate]. injection H as <- <-. apply NIL. destruct DROP as [C1 C2 C3 C4 C5 C6 C7 C8 C9 C10 C11 C12 C13]; [discriminate|]. split; cbn; auto. apply Forall_app. split; [exact B10|constructor; [exact M1|constructor]].
  - destruct (y_sock y); [|discriminate]. destruct (y_outs y); [|discriminate]. injection H as <- <-. apply NIL. apply NONE. exact S.
  - destruct (y_sock y); [|discriminate]. destruct (y_outs y); [|discriminate]. destruct (y_cmd y); [|discriminate]. destruct (y_fet y); [discriminate|]. destruct (dht_alive y); [discriminate|]. injection H as <- <-. apply NIL. apply NONE. exact S.
  - destruct (y_phase y) eqn:PH; try discriminate. destruct s.
    + destruct (y_rd y) as [|r q] eqn:RD; [discriminate|]. injection H as <- <-. apply NIL. inversion B9; subst. apply TURN; [split; cbn; rewrite ?PH; auto|assumption].
    + destruct (y_qry y) as [|i q] eqn:QR; [destruct (sock_alive y); [discriminate|]; injection H as <- <-; apply NIL; apply GONE; exact S|].
      injection H as <- <-. apply NIL. inversion B13 as [|? ? X1 X2]; subst. apply TURN; [split; cbn; rewrite ?PH; auto|]. destruct i; cbn in X1 |- *; tauto.
    + destruct (y_port y) as [|r q] eqn:PO; [discriminate|]. injection H as <- <-. apply NIL. inversion B11; subst. apply TURN; [split; cbn; rewrite ?PH; auto|assumption].
    + destruct (y_port y); [|discriminate]. injection H as <- <-. apply NIL. apply GONE. exact S.
    + injection H as <- <-. apply NIL. apply TURN; [exact S|exact I].
    + injection H as <- <-. apply NIL. split; cbn; auto.
  - destruct (y_phase y) as [l| |l|] eqn:PH; try discriminate; cbn [phase_cmds] in B6.
    + destruct l as [|c l]; [injection H as <- <-; apply NIL; apply IDLE; exact S|]. destruct (sock_alive y); [|injection H as <- <-; apply NIL; apply GONE; exact S]. unfold send_cmd in H. destruct (_ <? _); [|discriminate]. injection H as <- <-. apply NIL. inversion B6; subst. split; cbn; auto. apply Forall_app. split; [exact B5|constructor; [assumption|constructor]].
    + destruct l as [|c l]; [discriminate|]. destruct (sock_alive y); [|injection H as <- <-; apply NIL; apply GONE; exact S]. unfold send_cmd in H. destruct (_ <? _); [|discriminate]. injection H as <- <-. apply NIL. inversion B6; subst. split; cbn; auto. apply Forall_app. split; [exact B5|constructor; [assumption|constructor]].
  - destruct (y_phase y) as [l| |l|]; try discriminate. destruct l; [|discriminate]. destruct (_ && _); [|injection H as <- <-; apply NIL; apply IDLE; exact S].
    destruct (spawn_fetcher _ _ _ _ _) as [[f|]| |] eqn:SF; injection H as <- <-; apply NIL; [|apply IDLE; exact S|apply GONE; exact S|apply GONE; exact S].
    split; cbn; auto. intros f0 E0. injection E0 as <-. unfold spawn_fetcher in SF. destruct (get_closest_nodes _ _ _) as [[l|]| |] eqn:G; try discriminate. cbn in SF. injection SF as <-. split; [exact B3|]. split; [reflexivity|]. cbn [f_start fs_nodes].
    assert (X : forall l m, (forall x, In x l -> A' (n_addr x)) -> (forall a n, In (a, n) m -> A' a /\ f_token n = None) -> forall a n, In (a, n) (fold_left (fun a n => mset addr_eqb (n_addr n) (FUnknown (n_id n)) a) l m) -> A' a /\ f_token n = None).
    { clear. induction l as [|x l IH]; intros m L M a n IN; cbn [fold_left] in IN; [auto|]. eapply IH; [| |exact IN]; [intros; apply L; right; assumption|]. intros b k J. apply mset_in in J. destruct J as [J|J]; [|auto]. injection J as -> ->. split; [apply L; left; reflexivity|reflexivity]. }
    intros a n IN. destruct (X l [] ltac:(intros x IX; apply B4; eapply closest_in; eauto) ltac:(intros ? ? []) a n IN) as (X1 & X2). split; [exact X1|]. intros tok T. congruence.
  - destruct (y_fet y) as [f|] eqn:EF; [|discriminate]. destruct (y_fout y); [|discriminate]. destruct (fstep _ _ _) as [[f' os]| |] eqn:FS; try discriminate; injection H as <- <-; apply NIL; [|apply NOFET; exact S].
    refine (FET _ _ _ S EF _ _ _ FS). discriminate.
  - destruct (y_fet y) as [f|] eqn:EF; [|discriminate]. destruct (y_fout y) eqn:FO; [|discriminate]. destruct (y_rf y) as [|r q] eqn:RF; [discriminate|]. inversion B10; subst.
    assert (SR : asks A' K' Q' (with_rf y q)) by (split; cbn; rewrite ?EF, ?FO; auto).
    destruct (fstep _ _ _) as [[f' os]| |] eqn:FS; try discriminate; injection H as <- <-; apply NIL; [|exact (NOFET _ SR)].
    refine (FET _ _ _ SR EF _ _ _ FS). intros r0 E0. injection E0 as <-. assumption.
  - destruct (y_fet y) as [f|] eqn:EF; [|discriminate]. destruct (y_fout y); [|discriminate]. destruct (fstep _ _ _) as [[f' os]| |] eqn:FS; try discriminate; injection H as <- <-; apply NIL; [|apply NOFET; exact S].
    refine (FET _ _ _ S EF _ _ _ FS). discriminate.
  - destruct (y_fet y) as [f|] eqn:EF; [|discriminate]. destruct (y_fout y) as [|c l] eqn:FO; [discriminate|]. destruct (sock_alive y); [|injection H as <- <-; apply NIL; apply NOFET; exact S]. unfold send_cmd in H. destruct (_ <? _); [|discriminate]. injection H as <- <-. apply NIL. inversion B7; subst. split; cbn; auto. apply Forall_app. split; [exact B5|constructor; [assumption|constructor]].
  - destruct (_ && _); [|discriminate]. injection H as <- <-. apply NIL. split; cbn; auto. apply Forall_app. split; [exact B11|constructor; [apply HP; reflexivity|constructor]].
  - destruct (q_step _ _) as [[m ot]| |]; try discriminate. injection H as <- <-. apply NIL. split; cbn; auto.
Qed.

(** ** the theorem *)
Variable secret : ID.
Variable m0 : peers.
Variable t0 : table.
Lemma asks_start : asks (known_node t0 []) (gave_token []) (queried []) (DhtSysModel.sys_start own secret info m0 t0).
Proof.
  split; cbn; auto; try discriminate.
  - intros d E. injection E as <-. reflexivity.
  - intros d t k req E. injection E as <-. intros [].
  - intros a I. left. exact I.
  - unfold start_pings. apply Forall_forall. intros c I. apply in_map_iff in I. destruct I as (n & <- & I). split; [left; apply in_map; exact I|exact Logic.I].
Qed.
Lemma sent_app : forall a b : yhist, sent (a ++ b) = sent a ++ sent b.
Proof. intros. apply flat_map_app. Qed.
Lemma queried_app : forall h x t k, queried h t k -> queried (h ++ x) t k.
Proof. intros h x t k (to & v & name & a & I & E). exists to, v, name, a. split; [|exact E]. rewrite sent_app. apply in_or_app. auto. Qed.
Lemma answer_app : forall h x from r, answer h from r -> answer (h ++ x) from r.
Proof. intros h x from r (h1 & h2 & t & v & o & -> & Q). exists h1, (h2 ++ x), t, v, o. split; [rewrite <- app_assoc; reflexivity|exact Q]. Qed.
Lemma known_app : forall h x a, known_node t0 h a -> known_node t0 (h ++ x) a.
Proof. intros h x a [H|[(from & r & H & I)|H]]; [left; exact H|right; left; exists from, r; split; [apply answer_app; exact H|exact I]|right; right; rewrite map_app; apply in_or_app; auto]. Qed.
Lemma gave_app : forall h x a t, gave_token h a t -> gave_token (h ++ x) a t.
Proof. intros h x a t (id & v & H). exists id, v. apply answer_app. exact H. Qed.
Lemma run_asks : forall es h y y' h', asks (known_node t0 h) (gave_token h) (queried h) y -> yrun y es = Some (y', h') ->
  forall h1 e o h2 to m, h' = h1 ++ (e, o) :: h2 -> In (to, m) o -> may_send (known_node t0 (h ++ h1)) (gave_token (h ++ h1)) to m.
Proof.
  induction es as [|e es IH]; intros h y y' h' S H h1 e1 o1 h2 to m EQ I; cbn [DhtSysModel.yrun] in H; [injection H as <- <-; destruct h1; discriminate|].
  destruct (ystep y e) as [[y1 o]|] eqn:ST; [|discriminate]. destruct (yrun y1 es) as [[y2 hh]|] eqn:RR; [|discriminate]. injection H as <- <-.
  destruct (@ystep_asks (known_node t0 h) (known_node t0 (h ++ [(e, o)])) (gave_token h) (gave_token (h ++ [(e, o)])) (queried h) (queried (h ++ [(e, o)])) y e y1 o) as (X & Y); auto using known_app, gave_app, queried_app.
  - intros from t v r -> Q. assert (AN : answer (h ++ [(YIn from (MResp t v r), o)]) from r) by (exists h, [], t, v, o; split; [reflexivity|exact Q]). split.
    + intros a J. right. left. exists from, r. auto.
    + intros id tok vn ->. exists id, vn. exact AN.
  - intros a ->. right. right. rewrite map_app. apply in_or_app. right. left. reflexivity.
  - intros to' t v name a J. exists to', v, name, a. split; [|reflexivity]. rewrite sent_app. apply in_or_app. right. cbn. rewrite app_nil_r. exact J.
  - destruct h1 as [|p h1]; cbn in EQ; [injection EQ as <- <- _; rewrite app_nil_r; auto|injection EQ as <- E2].
    replace (h ++ (e, o) :: h1) with ((h ++ [(e, o)]) ++ h1) by (rewrite <- app_assoc; reflexivity). eapply IH; eauto.
Qed.
End ask.

(** Every query the DHT sends, in any run: it carries our id, it goes to a known
    node, get_peers and announce_peer are about our torrent, and what is announced
    is our TCP port with a token which that very node gave us. *)
Theorem C105_queries : forall sha usize_max cap tcp_port own secret info m t es y h h1 e o h2 to tid v name a,
  yrun sha usize_max cap tcp_port (sys_start own secret info m t) es = Some (y, h) -> h = h1 ++ (e, o) :: h2 -> In (to, MQuery tid v name a) o ->
  known_node t h1 to /\
  match a with
  | APing id | AFindNode id _ => id = own
  | AGetPeers id ih => id = own /\ ih = info
  | AAnnounce id ih p tok => id = own /\ ih = info /\ p = tcp_port /\ gave_token h1 to tok
  end.
Proof.
  intros sha um cap tp own secret info m t es y h h1 e o h2 to tid v name a R E I.
  destruct (@run_asks sha um cap tp own info t es [] _ _ _ (asks_start tp own info secret m t) R _ _ _ _ _ _ E I _ _ _ _ eq_refl) as (q & Q & (M1 & M2)). cbn [app] in *.
  split; [exact M1|]. destruct q as [|tg|ih|ih p tok]; cbn in Q; injection Q as -> -> ->; auto.
Qed.
(** The other way round: who only sends queries, or responses nobody asked for,
    is never asked anything. *)
Theorem C105_strangers : forall sha usize_max cap tcp_port own secret info m t es y h to,
  yrun sha usize_max cap tcp_port (sys_start own secret info m t) es = Some (y, h) -> ~ known_node t h to ->
  forall tid v name a, ~ In (to, MQuery tid v name a) (sent h).
Proof.
  intros sha um cap tp own secret info m t es y h to R N tid v name a I. unfold sent in I. apply in_flat_map in I. destruct I as ((e & o) & I & J). cbn [snd] in J. apply in_split in I. destruct I as (h1 & h2 & E).
  destruct (@C105_queries sha um cap tp own secret info m t es y h h1 e o h2 to tid v name a R E J) as (K & _). apply N. rewrite E. apply known_app. exact K.
Qed.
(** The run of [C92_example] goes on: silence, an announce; a second round which
    the node does not answer, and the announce again. *)
Definition ask_announce : list yev := [YQuiet; YFetSend; YCmd [x63; x63]; YOut].
Definition ask_again : list yev := [YTick; YFetSend; YCmd [x64; x64]; YOut] ++ ask_announce.
Definition ask_es : list yev := rt_pong ++ YCheck 6 6 :: rt_search ++ ask_announce.
Definition no_shas (x : bytes) : bytes := x.
Example C105_example : exists y h h1, yrun no_shas 100 CAPS 6881%N rt_start ask_es = Some (y, h) /\
  h = h1 ++ [(YOut, [(rt_addr, announce_peer_query rt_own rt_info 6881 [x01] [x63; x63])])] /\ gave_token h1 rt_addr [x01] /\ known_node (t_default rt_own) h1 rt_addr.
Proof.
  destruct (yrun no_shas 100 CAPS 6881%N rt_start ask_es) as [[y h]|] eqn:E; [|vm_compute in E; discriminate].
  assert (X : exists h1, h = h1 ++ [(YOut, [(rt_addr, announce_peer_query rt_own rt_info 6881 [x01] [x63; x63])])]).
  { vm_compute in E. injection E as <- <-. exists (firstn 21 (snd (match yrun no_shas 100 CAPS 6881%N rt_start ask_es with Some r => r | None => (rt_start, []) end))). vm_compute. reflexivity. }
  destruct X as (h1 & EH). exists y, h, h1. split; [reflexivity|]. split; [exact EH|].
  unfold announce_peer_query in EH. pose proof (@C105_queries _ _ _ _ _ _ _ _ _ _ _ _ _ _ _ _ _ _ _ _ _ E EH (or_introl eq_refl)) as (A & _ & _ & _ & B). split; assumption.
Qed.
(** ** C106 *)
(** Wanted: a token that the node gave since it was last asked. *)
Definition C106_fresh_always (sha : bytes -> bytes) (usize_max : nat) (cap : caps) (tcp_port : N) (own secret info : ID) (m : peers) (t : table) : Prop :=
  forall es y h h1 e o h2 to tid v name id ih p tok, yrun sha usize_max cap tcp_port (sys_start own secret info m t) es = Some (y, h) -> h = h1 ++ (e, o) :: h2 ->
    In (to, MQuery tid v name (AAnnounce id ih p tok)) o -> fresh_token h1 to tok.
(** It is not so: a node that answered once and then no more is announced to with
    its old token, round after round. *)
Theorem C106_fresh_refuted : ~ C106_fresh_always no_shas 100 CAPS 6881%N rt_own rt_own rt_info [] (t_default rt_own).
Proof.
  intro H. destruct (yrun no_shas 100 CAPS 6881%N rt_start (ask_es ++ ask_again)) as [[y h]|] eqn:E; [|vm_compute in E; discriminate].
  assert (X : exists h1, h = h1 ++ [(YOut, [(rt_addr, announce_peer_query rt_own rt_info 6881 [x01] [x63; x63])])] /\ existsb (fun e => match e with YIn _ _ => true | _ => false end) (map fst (since_asked rt_addr h1)) = false).
  { vm_compute in E. injection E as <- <-. exists (firstn 29 (snd (match yrun no_shas 100 CAPS 6881%N rt_start (ask_es ++ ask_again) with Some r => r | None => (rt_start, []) end))). split; vm_compute; reflexivity. }
  destruct X as (h1 & EH & N). unfold announce_peer_query in EH. pose proof (H _ _ _ _ _ _ _ _ _ _ _ _ _ _ _ E EH (or_introl eq_refl)) as (t & v & id & vn & I).
  assert (X : existsb (fun e => match e with YIn _ _ => true | _ => false end) (map fst (since_asked rt_addr h1)) = true) by (apply existsb_exists; eexists; split; [exact I|reflexivity]). congruence.
Qed.
(** What holds: see [C105_queries]; the node gave the token at some time. *)
Theorem C106_given_partial : forall sha usize_max cap tcp_port own secret info m t es y h h1 e o h2 to tid v name id ih p tok,
  yrun sha usize_max cap tcp_port (sys_start own secret info m t) es = Some (y, h) -> h = h1 ++ (e, o) :: h2 ->
  In (to, MQuery tid v name (AAnnounce id ih p tok)) o -> gave_token h1 to tok.
Proof. intros sha um cap tp own secret info m t es y h h1 e o h2 to tid v name id ih p tok R E I. apply (@C105_queries _ _ _ _ _ _ _ _ _ _ _ _ _ _ _ _ _ _ _ _ _ R E I). Qed.
Print Assumptions C105_queries.
Print Assumptions C105_strangers.
Print Assumptions C105_example.
Print Assumptions C106_fresh_refuted.
Print Assumptions C106_given_partial.
