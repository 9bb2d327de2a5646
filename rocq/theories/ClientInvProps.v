(** C96, C97 and the part of C94 that holds: how the client as a whole treats
    peers. *)
From Coq Require Import List NArith ZArith Lia Bool Arith Permutation.
From Coq Require Import Init.Byte.
From Verif Require Import Base Assoc BitmapModel BitmapProofs IdModel WireModel TableModel PeersModel PeersSpec PeersProofs PeersProps BencodeModel TrackerModel ManagerModel ManagerSpec ManagerProofs ManagerProofs2 ManagerProps
  KrpcModel DhtModel DhtSpec DhtMgrModel FetchModel TaskModel DhtSysModel DhtSysSpec DhtSysProps ClientModel ClientSpec ClientProps.
Import ListNotations.
Set Implicit Arguments.

(** ** the peer table under the DHT *)
Inductive tsteps : peers -> peers -> Prop :=
| ts_nil : forall t, tsteps t t
| ts_cons : forall t o t1 out t2, q_step t o = Val (t1, out) -> tsteps t1 t2 -> tsteps t t2.
Lemma ts_one : forall t o t1 out, q_step t o = Val (t1, out) -> tsteps t t1.
Proof. intros. econstructor; [eauto|constructor]. Qed.
Lemma ts_two : forall t o1 t1 out1 o2 t2 out2, q_step t o1 = Val (t1, out1) -> q_step t1 o2 = Val (t2, out2) -> tsteps t t2.
Proof. intros. econstructor; [eauto|]. econstructor; [eauto|constructor]. Qed.
Lemma gstep_peers : forall now pick s i s' o, gstep now pick s i = Val (s', o) -> g_peers s' = g_peers s \/ exists op out, q_step (g_peers s) op = Val (g_peers s', out).
Proof.
  intros now pick s i s' o H. destruct i as [tg fr t|ih fr t|p ih|r|dr|a|op]; cbn [gstep] in H.
  - unfold on_find_node in H. destruct (find_node _ _ _); try discriminate. injection H as <- <-. auto.
  - unfold on_get_peers in H. destruct (find_peers pick s ih) as [[m r]| |] eqn:F; try discriminate. cbn [rbind fst snd] in H.
    assert (A : m = g_peers s \/ exists op out, q_step (g_peers s) op = Val (m, out)).
    { unfold find_peers in F. destruct (q_serve _ _); [|injection F as <- _; auto]. right. exists (QGood (DHT_MTU / COMPACT_PEER_LEN)). cbn [q_step]. rewrite F. cbn. eauto. }
    destruct r as [l|]; [injection H as <- <-; exact A|]. destruct (find_node _ _ _); try discriminate. injection H as <- <-. exact A.
  - injection H as <- <-. unfold store_new_peer. destruct (q_serve _ _); [|auto]. right. exists (QInsert p). cbn. eauto.
  - unfold on_resp in H. destruct r.
    + destruct (touch_node _ _ _ _); try discriminate. injection H as <- <-. auto.
    + destruct (touch_node _ _ _ _); try discriminate. cbn [rbind] in H. destruct (unknown_addrs _ _); try discriminate. injection H as <- <-. auto.
    + injection H as <- <-. auto.
  - unfold refresh_table in H. destruct (iter_over_ids _ _ _); try discriminate. cbn [rbind] in H. destruct (find_nodes_for _ _ _); try discriminate. injection H as <- <-. auto.
  - injection H as <- <-. auto.
  - destruct (q_step (g_peers s) op) as [[m out]| |] eqn:Q; try discriminate. injection H as <- <-. right. eauto.
Qed.
Lemma fstep_peers : forall um f e f' o, fstep um f e = Val (f', o) -> tsteps (fs_peers f) (fs_peers f').
Proof.
  intros um f e f' o H. destruct e as [|r| |op]; cbn [fstep] in H.
  - destruct (fs_busy f); [discriminate|]. injection H as <- <-. constructor.
  - destruct (fs_busy f); [|destruct r; discriminate]. destruct r as [id fr|n fr id|fr tok v]; try (injection H as <- <-; constructor).
    destruct (mget addr_eqb fr (fs_nodes f)) as [old|]; [|injection H as <- <-; constructor].
    destruct (on_answer um f old fr tok v) as [[[f1 go] q]| |] eqn:A; try discriminate. cbn [rmap] in H.
    assert (T : tsteps (fs_peers f) (fs_peers f1)).
    { unfold on_answer in A. destruct v as [l|n].
      - destruct (_ <=? _).
        + destruct (q_enough um (q_extend (fs_peers f) l)) as [[m b]| |] eqn:E; try discriminate. injection A as <- _ _. cbn [fs_peers fst].
          eapply (@ts_two _ (QExtend l) _ _ (QEnough um)); [reflexivity|]. cbn [q_step]. rewrite E. reflexivity.
        + injection A as <- _ _. eapply (@ts_one _ (QExtend l)). reflexivity.
      - destruct (_ <=? _).
        + destruct (q_enough um (fs_peers f)) as [[m b]| |] eqn:E; try discriminate. injection A as <- _ _. cbn [fs_peers fst].
          eapply (@ts_one _ (QEnough um)). cbn [q_step]. rewrite E. reflexivity.
        + injection A as <- _ _. constructor. }
    destruct go; injection H as <- <-; exact T.
  - destruct (fs_busy f); [|discriminate]. injection H as <- <-. constructor.
  - destruct (q_step (fs_peers f) op) as [[m out]| |] eqn:Q; try discriminate. injection H as <- <-. eapply ts_one; eauto.
Qed.
Section sys.
Variable sha : bytes -> bytes.
Variable usize_max : nat.
Variable cap : caps.
Variable tcp_port : N.
Notation dstep := (ystep sha usize_max cap tcp_port).
Lemma turn_peers : forall y now pick i, tsteps (y_peers y) (y_peers (dht_turn y now pick i)).
Proof.
  intros y now pick i. unfold dht_turn. destruct (gstep now pick (mgr_of y) i) as [[s o]| |] eqn:G; [|constructor|constructor].
  destruct (@gstep_peers _ _ _ _ _ _ G) as [A|(op & out & A)]; cbn [mgr_of g_peers with_dht y_peers] in *; [rewrite A; constructor|eapply ts_one; eauto].
Qed.
Lemma after_peers : forall y r, y_peers (after_sock y r) = y_peers y.
Proof. intros y [[? ?]| |]; reflexivity. Qed.
Lemma ystep_peers : forall y e y' o, dstep y e = Some (y', o) -> tsteps (y_peers y) (y_peers y').
Proof.
  intros y e y' o H. destruct e as [from m|t'| | | |now pick sr| |now2 now3| | | | |ad|q]; cbn [ystep] in H.
  - inv_step H. rewrite after_peers. constructor.
  - inv_step H. rewrite after_peers. constructor.
  - destruct (y_sock y) as [d|]; [|discriminate]. destruct (y_outs y) as [|x os]; [discriminate|].
    unfold sock_out, hand_over in H. destruct x as [to m|tg fr tt|ih fr tt|p ih|req r]; [| | | |destruct (req =? DHT)];
    repeat match type of H with context [if ?b then _ else _] => destruct b end; try discriminate; injection H as <- <-; constructor.
  - inv_step H. constructor.
  - inv_step H. constructor.
  - destruct (y_phase y); try discriminate. destruct sr; inv_step H; try constructor; match goal with |- tsteps _ (y_peers (dht_turn ?z _ _ _)) => change (y_peers y) with (y_peers z) end; apply turn_peers.
  - inv_step H; try match goal with E : send_cmd _ _ _ _ = Some _ |- _ => apply send_frame in E; destruct E as (-> & _) end; constructor.
  - inv_step H; constructor.
  - inv_step H; try constructor. match goal with E : fstep _ _ _ = Val _ |- _ => apply fstep_peers in E; exact E end.
  - inv_step H; try constructor. match goal with E : fstep _ _ _ = Val _ |- _ => apply fstep_peers in E; exact E end.
  - inv_step H; try constructor. match goal with E : fstep _ _ _ = Val _ |- _ => apply fstep_peers in E; exact E end.
  - inv_step H; try match goal with E : send_cmd _ _ _ _ = Some _ |- _ => apply send_frame in E; destruct E as (-> & _) end; constructor.
  - inv_step H; constructor.
  - inv_step H. eapply ts_one; eauto.
Qed.
End sys.

Lemma sys_run_app : forall s h s' h' s'', sys_run s h s' -> sys_run s' h' s'' -> sys_run s (h ++ h') s''.
Proof. induction 1; intros; [auto|]. econstructor; eauto. Qed.
Lemma sys_run_one : forall s e s' out, sys_step s e = Val (s', out) -> sys_run s [(e, out)] s'.
Proof. intros. econstructor; [apply sys_perm_refl|eauto|constructor]. Qed.
Lemma ts_run : forall t t', tsteps t t' -> forall m, exists h, sys_run (m, t) h (m, t') /\ forall e o, In (e, o) h -> o = [].
Proof.
  induction 1 as [t|t o t1 out t2 Q _ IH]; intro m; [exists []; split; [constructor|intros ? ? []]|].
  destruct (IH m) as (h & R & O). exists ((ETable o, []) :: h). split.
  - econstructor; [apply sys_perm_refl| |exact R]. cbn. rewrite Q. reflexivity.
  - intros e x [E|E]; [injection E as _ <-; reflexivity|eauto].
Qed.

(** ** connections and the manager *)
Lemma add_peers_conn : forall ps m m' out, add_peers m ps = Val (m', out) ->
  m_conn m' = rev (map pc_peer (flat_map spawn out)) ++ m_conn m /\ (NoDup (m_conn m) -> NoDup (m_conn m')) /\
  flat_map told out = map CConnect (map pc_peer (flat_map spawn out)) /\ (forall x, In x (flat_map spawn out) -> In (pc_peer x) ps).
Proof.
  induction ps as [|p ps IH]; intros m m' out H; cbn [add_peers] in H.
  - injection H as <- <-. cbn. auto.
  - destruct (pi_new _) as [i| |]; try discriminate. cbn [rbind] in H.
    destruct (add_peers _ ps) as [[m1 o1]| |] eqn:A; try discriminate. cbn [rmap fst snd] in H. injection H as <- <-.
    destruct (IH _ _ _ A) as (B & C & D & E). cbn [with_active with_conn m_conn] in B, C. unfold c_connect in *. destruct (existsb (addr_eqb p) (m_conn m)) eqn:X; cbn [fst snd app] in *.
    + split; [exact B|]. split; [exact C|]. split; [exact D|]. intros x I. right. auto.
    + cbn [flat_map spawn told app map rev]. split; [rewrite B, <- app_assoc; reflexivity|]. split; [|split; [f_equal; exact D|]].
      * intro ND. apply C. constructor; [|exact ND]. intro I. apply existsb_addr in I. congruence.
      * intros x [<-|I]; [left; reflexivity|right; auto].
Qed.
Lemma refresh_conn : forall m t m' t' out, m_refresh m t = Val (m', t', out) ->
  m_conn m' = rev (map pc_peer (flat_map spawn out)) ++ m_conn m /\ (NoDup (m_conn m) -> NoDup (m_conn m')) /\
  flat_map told out = map CConnect (map pc_peer (flat_map spawn out)).
Proof.
  intros m t m' t' out H. unfold m_refresh in H. destruct (_ <? _); [discriminate|]. destruct (_ =? _).
  - injection H as <- <- <-. cbn. auto.
  - destruct (q_batch _ _ _) as [[t1 ps]| |]; try discriminate. cbn [rbind fst snd] in H. destruct (add_peers _ ps) as [[m1 o1]| |] eqn:A; try discriminate. cbn [rmap fst snd] in H. injection H as <- <- <-.
    destruct (@add_peers_conn _ _ _ _ A) as (B & C & D & _). auto.
Qed.
Lemma spawn_new : forall o x, In x (flat_map spawn o) -> In (OSpawn (pc_peer x)) o.
Proof. intros o x I. apply in_flat_map in I. destruct I as (y & Y & I). destruct y; [destruct I as [<-|[]]; exact Y|destruct I]. Qed.

(** Connections that stay the same but for ending. *)
Definition wane (x x' : pcon) : Prop := pc_peer x' = pc_peer x /\ (pc_con x' = true -> pc_con x = true).
Lemma wane_refl : forall l, Forall2 wane l l.
Proof. induction l; constructor; auto. split; auto. Qed.
Lemma wane_upd : forall l i x x', nth_error l i = Some x -> wane x x' -> Forall2 wane l (upd l i x').
Proof.
  induction l as [|y l IH]; intros [|i] x x' N W; cbn in *; try discriminate.
  - injection N as ->. constructor; [exact W|apply wane_refl].
  - constructor; [split; auto|eauto].
Qed.
Lemma wane_peers : forall l l', Forall2 wane l l' -> map pc_peer l' = map pc_peer l.
Proof. induction 1 as [|x x' l l' (A & _) _ IH]; cbn; [reflexivity|congruence]. Qed.
Lemma wane_live : forall l l', Forall2 wane l l' -> length (filter pc_con l') <= length (filter pc_con l).
Proof. induction 1 as [|x x' l l' (_ & A) _ IH]; cbn; [lia|]. destruct (pc_con x'); [rewrite A by reflexivity; cbn; lia|destruct (pc_con x); cbn; lia]. Qed.
Lemma wane_to : forall l l' x, Forall2 wane l l' -> In x l -> exists x', In x' l' /\ wane x x'.
Proof. induction 1 as [|y y' l l' A _ IH]; cbn; [tauto|]. intros [<-|I]; [eauto|]. destruct (IH I) as (z & B & C). eauto. Qed.
Lemma wane_in : forall l l' x', Forall2 wane l l' -> In x' l' -> exists x, In x l /\ wane x x'.
Proof. induction 1 as [|y y' l l' A _ IH]; cbn; [tauto|]. intros [<-|I]; [eauto|]. destruct (IH I) as (x & B & C). eauto. Qed.

Lemma freq_dec_le : forall f hs f', freq_dec f hs = Val f' -> forall j, (fr f' j <= fr f j)%N.
Proof.
  induction f as [|x f IH]; intros hs f' H j; cbn [freq_dec] in H; [destruct hs; injection H as <-; lia|]. destruct hs as [|b hs]; [injection H as <-; lia|]. destruct b.
  - destruct (x =? 0)%N eqn:Z; [discriminate|]. destruct (freq_dec f hs) as [g| |] eqn:E; try discriminate. cbn [rmap] in H. injection H as <-. unfold fr. destruct j; cbn [nth]; [lia|apply (IH _ _ E)].
  - destruct (freq_dec f hs) as [g| |] eqn:E; try discriminate. cbn [rmap] in H. injection H as <-. unfold fr. destruct j; cbn [nth]; [lia|apply (IH _ _ E)].
Qed.
Section client.
Variable sha : bytes -> bytes.
Variable usize_max : nat.
Variable cap : caps.
Variable tcp_port : N.
Variable cfgs : list tracker_cfg.
Variable hashes : list ID.
Notation step := (cstep sha usize_max cap tcp_port cfgs).
Notation run := (crun sha usize_max cap tcp_port cfgs).

Record cinv (h : list (cev * list cout)) (s : client) : Prop := mk_cinv {
  ci_reach : forall m, q_mgr s = Some m -> sys_reach hashes (m, y_peers (q_dht s));
  ci_conn : forall m, q_mgr s = Some m -> map pc_peer (q_cons s) = rev (m_conn m);
  ci_nodup : NoDup (map pc_peer (q_cons s));
  ci_hist : connects h = map pc_peer (q_cons s);
  ci_act : forall m x, q_mgr s = Some m -> In x (q_cons s) -> pc_con x = true -> In (pc_peer x) (map fst (m_active m));
  ci_live : length (live s) <= 10;
  ci_rec : forall p c, In (p, c) (q_rec s) -> peer_gone c = true -> exists x, In x (q_cons s) /\ pc_peer x = p /\ pc_con x = false
}.
Lemma connects_app : forall h e o, connects (h ++ [(e, o)]) = connects h ++ flat_map (fun o => match o with CConnect p => [p] | _ => [] end) o.
Proof. intros. unfold connects, seen. rewrite !flat_map_app. cbn. rewrite app_nil_r. reflexivity. Qed.
Lemma connects_told : forall l, flat_map (fun o => match o with CConnect p => [p] | _ => [] end) (map CConnect l) = l.
Proof. induction l; cbn; congruence. Qed.
Lemma reach_step : forall s e s' out, sys_reach hashes s -> sys_step s e = Val (s', out) -> sys_reach hashes s'.
Proof. intros s e s' out (s0 & h & A & B) E. exists s0, (h ++ [(e, out)]). split; [exact A|]. eapply sys_run_app; [exact B|]. apply sys_run_one. exact E. Qed.
Lemma reach_ts : forall m t t', sys_reach hashes (m, t) -> tsteps t t' -> sys_reach hashes (m, t').
Proof. intros m t t' (s0 & h & A & B) T. destruct (ts_run T m) as (h' & R & _). exists s0, (h ++ h'). split; [exact A|]. eapply sys_run_app; eauto. Qed.

Lemma reorder_perm : forall A ks (l : list A), Permutation l (reorder ks l).
Proof.
  induction ks as [|k ks IH]; intro l; cbn [reorder]; [apply Permutation_refl|]. destruct (nth_error l k) as [x|] eqn:E; [|apply IH].
  destruct (nth_error_split l k E) as (a & b & -> & <-). rewrite firstn_app, firstn_all, Nat.sub_diag. cbn [firstn]. rewrite app_nil_r.
  replace (skipn (S (length a)) (a ++ x :: b)) with b; [|rewrite skipn_app, skipn_all2, Nat.sub_succ_l, Nat.sub_diag by lia; reflexivity].
  apply Permutation_sym. apply Permutation_cons_app. apply Permutation_sym. apply IH.
Qed.
Lemma reach_perm : forall m t a t', sys_reach hashes (m, t) -> Permutation (m_active m) a -> Permutation t t' -> sys_reach hashes (with_active m a, t').
Proof.
  intros m t a t' (s0 & h & A & B) P Q. exists s0, (h ++ [(ETable (QExtend []), [])]). split; [exact A|]. eapply sys_run_app; [exact B|].
  econstructor; [exists a, t'; auto|reflexivity|constructor].
Qed.

(** What a step that does not touch the manager does. *)
Lemma quiet_inv : forall h s e s' o, cinv h s -> q_mgr s' = q_mgr s -> tsteps (y_peers (q_dht s)) (y_peers (q_dht s')) -> Forall2 wane (q_cons s) (q_cons s') ->
  (forall p c, In (p, c) (q_rec s') -> In (p, c) (q_rec s) \/ peer_gone c = false \/ exists x, In x (q_cons s') /\ pc_peer x = p /\ pc_con x = false) ->
  (forall p, ~ In (CConnect p) o) -> cinv (h ++ [(e, o)]) s'.
Proof.
  intros h s e s' o I M T W R O.
  assert (NC : connects (h ++ [(e, o)]) = connects h).
  { rewrite connects_app. rewrite <- (app_nil_r (connects h)) at 2. f_equal. clear - O. induction o as [|x o IH]; [reflexivity|]. cbn. rewrite IH; [|intros p X; apply (O p); right; exact X].
    destruct x; auto. exfalso. apply (O p). left. reflexivity. }
  split.
  - intros m E. rewrite M in E. eapply reach_ts; [apply (ci_reach I E)|exact T].
  - intros m E. rewrite M in E. rewrite (wane_peers W). apply (ci_conn I E).
  - rewrite (wane_peers W). apply (ci_nodup I).
  - rewrite NC, (wane_peers W). apply (ci_hist I).
  - intros m x E X C. rewrite M in E. destruct (wane_in _ W X) as (y & Y & A & B). rewrite A. apply (ci_act I _ E Y). auto.
  - unfold live. pose proof (wane_live W). pose proof (ci_live I). unfold live in *. lia.
  - intros p c IN G. destruct (R _ _ IN) as [A|[A|A]]; [|congruence|auto].
    destruct (ci_rec I _ _ A G) as (x & X & P & C). destruct (wane_to _ W X) as (y & Y & B & D). exists y. split; [exact Y|]. split; [congruence|]. destruct (pc_con y); [rewrite D in C by reflexivity; discriminate|reflexivity].
Qed.
Lemma tell_rec : forall s p c s', tell_mgr s p c = Some s' -> q_mgr s' = q_mgr s /\ q_cons s' = q_cons s /\ q_dht s' = q_dht s /\ (q_rec s' = q_rec s \/ q_rec s' = q_rec s ++ [(p, c)]).
Proof.
  intros s p c s' H. unfold tell_mgr in H. destruct (q_mgr s) eqn:M; [|injection H as <-; auto]. destruct (_ <? _); [|discriminate]. injection H as <-. cbn. auto.
Qed.
Lemma deliver_frame : forall p m s s', deliver_all sha usize_max cap tcp_port s (WireModel.handle_message p m) = Some s' ->
  q_mgr s' = q_mgr s /\ q_cons s' = q_cons s /\ tsteps (y_peers (q_dht s)) (y_peers (q_dht s')) /\ (q_rec s' = q_rec s \/ exists c, q_rec s' = q_rec s ++ [(p, c)] /\ peer_gone c = false /\ con_of_message m = Val c).
Proof.
  intros p m s s' H. destruct m; cbn [WireModel.handle_message con_of_message deliver_all deliver] in H;
  try (destruct (tell_mgr s p _) as [s1|] eqn:T; [|discriminate]; injection H as <-; destruct (@tell_rec _ _ _ _ T) as (A & B & C & D); rewrite A, B, C; repeat (split; [auto; constructor|]); destruct D as [D|D]; rewrite D; eauto).
  - injection H as <-. repeat (split; [auto; constructor|]). auto.
  - destruct (dht_alive (q_dht s)); [|injection H as <-; repeat (split; [auto; constructor|]); auto].
    destruct (ystep _ _ _ _ _ _) as [[y o]|] eqn:Y; [|discriminate]. cbn [option_map fst] in H. injection H as <-. apply ystep_peers in Y. cbn. auto.
Qed.
Lemma same_peer : forall l i x y, NoDup (map pc_peer l) -> nth_error l i = Some x -> In y l -> pc_peer y = pc_peer x -> y = x.
Proof.
  intros l i x y ND N I E. apply In_nth_error in I. destruct I as (j & J).
  assert (i = j); [|subst; congruence]. eapply (proj1 (NoDup_nth_error (map pc_peer l)) ND).
  - rewrite map_length. apply nth_error_Some. congruence.
  - rewrite !nth_error_map, N, J. cbn. congruence.
Qed.
Lemma live_bound : forall m l, NoDup (map pc_peer l) -> inv (length hashes) m -> (forall x, In x l -> pc_con x = true -> In (pc_peer x) (map fst (m_active m))) -> length (filter pc_con l) <= 10.
Proof.
  intros m l ND I A. rewrite <- (map_length pc_peer). transitivity (length (map fst (m_active m))); [|rewrite map_length; apply (i_size I)].
  apply NoDup_incl_length.
  - clear - ND. induction l as [|x l IH]; cbn in *; [constructor|]. inversion ND; subst. destruct (pc_con x); cbn; [constructor; [|auto]|auto].
    intro X. apply in_map_iff in X. destruct X as (y & E & Y). apply filter_In in Y. apply H1. rewrite <- E. apply in_map. apply Y.
  - intros p X. apply in_map_iff in X. destruct X as (y & <- & Y). apply filter_In in Y. apply A; apply Y.
Qed.
Lemma found_ts : forall l t, tsteps t (fold_left trk_found l t).
Proof. induction l as [|o l IH]; intro t; cbn [fold_left]; [constructor|]. destruct o as [a|ps]; cbn [trk_found]; [apply IH|]. econstructor; [|apply IH]. instantiate (2 := QExtend ps). reflexivity. Qed.
Lemma cinv_step : forall h s e s' o, cinv h s -> step s e = Some (s', o) -> cinv (h ++ [(e, o)]) s'.
Proof.
  intros h s e s' o I H. unfold cstep in H. destruct (q_exit s); [discriminate|].
  destruct e as [sent| |i ok|i m|i|i|i|i ix bs|i|e|i now e| | |ks ks'].
  - destruct (q_mgr s) as [m|] eqn:M; [|discriminate]. pose proof (reach_inv_m (ci_reach I M)) as [INV ND]. cbn [fst snd] in INV, ND.
    destruct (@refresh_spec _ m _ INV ND) as (m1 & tab & o1 & RF & INV1 & ND1 & _ & SP). rewrite RF in H.
    destruct (@m_assign_spec _ m1 sent INV1) as (m2 & o2 & AS & INV2 & _ & KA & _ & CA & _). rewrite AS in H. injection H as <- <-.
    destruct (@refresh_conn _ _ _ _ _ RF) as (C1 & C2 & C3).
    assert (R1 : sys_reach hashes (m1, tab)). { eapply reach_step; [apply (ci_reach I M)|]. cbn [sys_step fst snd]. instantiate (1 := o1). instantiate (1 := ERefresh). cbn [sys_step fst snd]. rewrite RF. reflexivity. }
    assert (R2 : sys_reach hashes (m2, tab)). { eapply reach_step; [exact R1|]. instantiate (1 := o2). instantiate (1 := EAssign sent). cbn [sys_step fst snd]. rewrite AS. reflexivity. }
    assert (PE : map pc_peer (q_cons s ++ flat_map spawn o1) = rev (m_conn m1)). { rewrite map_app, C1, rev_app_distr, rev_involutive. f_equal. apply (ci_conn I M). }
    assert (NDP : NoDup (map pc_peer (q_cons s ++ flat_map spawn o1))). { rewrite PE. apply NoDup_rev. apply C2. pose proof (ci_nodup I) as Z. rewrite (ci_conn I M) in Z. rewrite <- (rev_involutive (m_conn m)). apply NoDup_rev. exact Z. }
    assert (AC : forall x, In x (q_cons s ++ flat_map spawn o1) -> pc_con x = true -> In (pc_peer x) (map fst (m_active m2))).
    { intros x X C. rewrite KA. apply in_app_or in X. destruct SP as [SP|(ps & _ & _ & _ & K & _ & _ & S)].
      - injection SP as -> -> ->. destruct X as [X|[]]. apply (ci_act I _ M X C).
      - apply K. destruct X as [X|X]; [right; apply (ci_act I _ M X C)|left]. apply spawn_new in X. destruct (S _ X) as (q & E & Q & _). injection E as <-. exact Q. }
    split; cbn [with_mgr with_sys with_cons with_peers q_mgr q_cons q_dht q_rec y_peers].
    + intros m' E. destruct (_ && _); [discriminate|]. injection E as <-. exact R2.
    + intros m' E. destruct (_ && _); [discriminate|]. injection E as <-. rewrite PE, CA. reflexivity.
    + exact NDP.
    + rewrite connects_app, C3, connects_told, map_app. f_equal. apply (ci_hist I).
    + intros m' x E. destruct (_ && _); [discriminate|]. injection E as <-. apply AC.
    + apply (@live_bound m2); auto.
    + intros p c IN G. destruct (ci_rec I _ _ IN G) as (x & X & P). exists x. split; [apply in_or_app; auto|exact P].
  - destruct (q_mgr s) as [m|] eqn:M; [|discriminate]. destruct (q_rec s) as [|[p c] q] eqn:Q; [discriminate|]. injection H as <- <-.
    pose proof (ci_reach I M) as RC. pose proof (reach_inv_m RC) as [INV ND]. cbn [fst snd] in INV, ND.
    assert (NC : connects (h ++ [(CTake, [])]) = connects h) by (rewrite connects_app; cbn; apply app_nil_r).
    split; cbn [with_mgr with_rec q_mgr q_cons q_dht q_rec].
    + intros m' E. destruct (ManagerModel.handle_message m p c) as [m1| |] eqn:HM; try discriminate. injection E as ->. eapply reach_step; [exact RC|]. instantiate (1 := []). instantiate (1 := EMsg p c). cbn [sys_step fst snd]. rewrite HM. reflexivity.
    + intros m' E. destruct (ManagerModel.handle_message m p c) as [m1| |] eqn:HM; try discriminate. injection E as ->. rewrite (ci_conn I M). f_equal. symmetry. apply (@message_inv _ _ _ _ _ INV HM).
    + apply (ci_nodup I).
    + rewrite NC. apply (ci_hist I).
    + intros m' x E X C. destruct (ManagerModel.handle_message m p c) as [m1| |] eqn:HM; try discriminate. injection E as ->. destruct (@message_inv _ _ _ _ _ INV HM) as (_ & _ & _ & K).
      pose proof (ci_act I _ M X C) as A. destruct (peer_gone c) eqn:G; [|destruct K as (K & _); rewrite K; exact A].
      destruct K as (K & _). rewrite K. apply (@adel_keys _ _ _ (i_nodup INV)). split; [|exact A]. intro EP. destruct (ci_rec I p c) as (y & Y & P & F); [rewrite Q; left; reflexivity|exact G|].
      apply In_nth_error in Y. destruct Y as (j & Y). rewrite (@same_peer _ _ _ _ (ci_nodup I) Y X (eq_trans EP (eq_sym P))) in C. congruence.
    + apply (ci_live I).
    + intros p' c' IN G. apply (ci_rec I p' c'); [rewrite Q; right; exact IN|exact G].
  - destruct (nth_error (q_cons s) i) as [x|] eqn:N; [|discriminate]. destruct (pc_con x && pc_shaking x) eqn:CS; [|discriminate]. apply andb_true_iff in CS. destruct CS as (C & _). destruct ok.
    + injection H as <- <-. apply (@quiet_inv h s); cbn [with_cons q_mgr q_cons q_dht q_rec]; auto; try constructor. eapply wane_upd; [exact N|]. split; cbn; auto.
    + destruct (tell_mgr s (pc_peer x) CUnreachable) as [s1|] eqn:T; [|discriminate]. cbn [option_map] in H. injection H as <- <-. destruct (@tell_rec _ _ _ _ T) as (A & B & D & E).
      apply (@quiet_inv h s); cbn [with_cons q_mgr q_cons q_dht q_rec]; auto; [rewrite D; constructor|eapply wane_upd; [exact N|]; split; cbn; [auto|discriminate]|].
      intros p c IN. destruct E as [E|E]; rewrite E in IN; [auto|]. apply in_app_or in IN. destruct IN as [IN|[IN|[]]]; [auto|]. injection IN as <- <-. right. right.
      exists (mk_pcon (pc_peer x) true false (pc_dl x)). split; [|cbn; auto]. eapply nth_error_In. apply nth_error_upd_same. apply nth_error_Some. congruence.
  - destruct (nth_error (q_cons s) i) as [x|] eqn:N; [|discriminate]. destruct (_ && _); [|discriminate]. destruct (deliver_all _ _ _ _ _ _) as [s1|] eqn:D; [|discriminate]. cbn [option_map] in H. injection H as <- <-.
    destruct (@deliver_frame _ _ _ _ D) as (A & B & T & R). apply (@quiet_inv h s); auto; [rewrite B; apply wane_refl|].
    intros p c IN. destruct R as [R|(c' & R & G & _)]; rewrite R in IN; [auto|]. apply in_app_or in IN. destruct IN as [IN|[IN|[]]]; [auto|]. injection IN as <- <-. auto.
  - destruct (nth_error (q_cons s) i) as [x|] eqn:N; [|discriminate]. destruct (_ && _); [|discriminate]. injection H as <- <-.
    apply (@quiet_inv h s); cbn [with_cons q_mgr q_cons q_dht q_rec]; auto; try constructor. eapply wane_upd; [exact N|]. split; cbn; [auto|discriminate].
  - destruct (nth_error (q_cons s) i) as [x|] eqn:N; [|discriminate]. destruct (_ && _); [|discriminate]. injection H as <- <-.
    apply (@quiet_inv h s); cbn [with_cons q_mgr q_cons q_dht q_rec]; auto; try constructor. eapply wane_upd; [exact N|]. split; cbn; auto.
  - destruct (nth_error (q_cons s) i) as [x|] eqn:N; [|discriminate]. destruct (pc_dl x); [|discriminate]. injection H as <- <-.
    apply (@quiet_inv h s); cbn [with_poison with_cons q_mgr q_cons q_dht q_rec]; auto; try constructor. eapply wane_upd; [exact N|]. split; cbn; auto.
  - destruct (nth_error (q_cons s) i) as [x|] eqn:N; [|discriminate]. destruct (pc_dl x); [|discriminate]. destruct (tell_mgr s _ _) as [s1|] eqn:T; [|discriminate]. cbn [option_map] in H. injection H as <- <-.
    destruct (@tell_rec _ _ _ _ T) as (A & B & D & E). apply (@quiet_inv h s); auto; [rewrite D; constructor|rewrite B; apply wane_refl|].
    intros p c IN. destruct E as [E|E]; rewrite E in IN; [auto|]. apply in_app_or in IN. destruct IN as [IN|[IN|[]]]; [auto|]. injection IN as <- <-. auto.
  - destruct (nth_error (q_cons s) i) as [x|] eqn:N; [|discriminate]. destruct (q_mgr s) eqn:M; [discriminate|]. destruct (_ && _); [|discriminate]. injection H as <- <-.
    apply (@quiet_inv h s); cbn [with_cons q_mgr q_cons q_dht q_rec]; auto; try constructor. eapply wane_upd; [exact N|]. split; cbn; [auto|discriminate].
  - destruct (dht_ok s e); [|discriminate]. destruct (ystep _ _ _ _ _ _) as [[y o']|] eqn:Y; [|discriminate]. cbn [option_map fst snd] in H. injection H as <- <-.
    apply (@quiet_inv h s); cbn [with_sys q_mgr q_cons q_dht q_rec]; auto; [eapply ystep_peers; exact Y|apply wane_refl|]. intros p IN. apply in_map_iff in IN. destruct IN as (? & ? & _). discriminate.
  - destruct (nth_error cfgs i) as [c|]; [|discriminate]. destruct (nth_error (q_trk s) i) as [t|]; [|discriminate]. destruct (trk_ok s e); [|discriminate]. destruct (session_step _ _ _ _ _) as [[t' o']|]; [|discriminate]. cbn [option_map fst snd] in H. injection H as <- <-.
    apply (@quiet_inv h s); cbn [with_sys with_trk with_peers q_mgr q_cons q_dht q_rec y_peers]; auto; [apply found_ts|apply wane_refl|]. intros p IN. apply in_flat_map in IN. destruct IN as (? & _ & IN). destruct x; cbn in IN; [destruct IN as [IN|[]]; discriminate|destruct IN].
  - destruct (q_sig s); [discriminate|]. injection H as <- <-. apply (@quiet_inv h s); cbn [q_mgr q_cons q_dht q_rec]; auto; [constructor|apply wane_refl].
  - destruct (_ && _); [|discriminate]. injection H as <- <-. apply (@quiet_inv h s); cbn [q_mgr q_cons q_dht q_rec]; auto; [constructor|apply wane_refl].
  - injection H as <- <-. split; cbn [with_mgr with_sys with_peers q_mgr q_cons q_dht q_rec y_peers]; try apply I.
    + intros m' E. destruct (q_mgr s) as [m|] eqn:M; [|discriminate]. injection E as <-. eapply reach_perm; [apply (ci_reach I M)|apply reorder_perm|apply reorder_perm].
    + intros m' E. destruct (q_mgr s) as [m|] eqn:M; [|discriminate]. injection E as <-. apply (ci_conn I M).
    + rewrite connects_app. cbn. rewrite app_nil_r. apply (ci_hist I).
    + intros m' x E X C. destruct (q_mgr s) as [m|] eqn:M; [|discriminate]. injection E as <-. cbn [with_active m_active]. eapply Permutation_in; [apply Permutation_map; apply reorder_perm|]. apply (ci_act I _ M X C).
Qed.
Lemma cinv_start : forall own secret info fs_ok t now, cinv [] (client_start cfgs own secret info hashes fs_ok t now).
Proof.
  intros own secret info fs_ok t now.
  assert (A : forall m, q_mgr (client_start cfgs own secret info hashes fs_ok t now) = Some m -> m_init hashes = Val m /\ m_conn m = []).
  { intros m E. cbn in E. destruct fs_ok; [|discriminate]. destruct (m_init hashes) as [m0| |] eqn:MI; try discriminate. injection E as <-. split; [auto|]. unfold m_init in MI.
    destruct (bm_new (length hashes)); try discriminate; cbn [rbind] in MI; injection MI as <-; reflexivity. }
  split; cbn [client_start q_cons q_rec live filter length map]; try (intros; contradiction); try constructor; try lia.
  - intros m E. destruct (A m E) as (B & _). exists (m, []), []. split; [exists m; auto|constructor].
  - intros m E. destruct (A m E) as (_ & ->). reflexivity.
Qed.
Lemma cinv_run : forall own secret info fs_ok t now es s h, run (client_start cfgs own secret info hashes fs_ok t now) es = Some (s, h) -> cinv h s.
Proof. intros own secret info fs_ok t now es s h R. eapply (@crun_inv sha usize_max cap tcp_port cfgs cinv); [apply cinv_start|intros; eapply cinv_step; eauto|exact R]. Qed.

(** ** C96, C97 *)
(** Nobody is connected to twice. *)
Theorem C96_once : forall own secret info fs_ok t now es s h, run (client_start cfgs own secret info hashes fs_ok t now) es = Some (s, h) -> NoDup (connects h).
Proof. intros. erewrite (ci_hist (cinv_run _ _ _ _ _ _ _ H)). apply (ci_nodup (cinv_run _ _ _ _ _ _ _ H)). Qed.
(** No more than ten connections at a time. *)
Theorem C97_at_most_ten : forall own secret info fs_ok t now es s h, run (client_start cfgs own secret info hashes fs_ok t now) es = Some (s, h) -> length (live s) <= 10.
Proof. intros. apply (ci_live (cinv_run _ _ _ _ _ _ _ H)). Qed.

(** ** C94, what holds *)
Lemma message_freq : forall n m p c m' j, inv n m -> ManagerModel.handle_message m p c = Val m' ->
  (fr (m_freq m') j <= fr (m_freq m) j + match c with CHave _ | CBitfield _ => 1 | _ => 0 end)%N.
Proof.
  intros n m p c m' j I H. destruct c; cbv iota; cbn [ManagerModel.handle_message] in H; try discriminate; try (injection H as <-; try (unfold modify; destruct (aget _ _)); cbn [with_active m_freq]; lia).
  - unfold mark_inactive in H. destruct (aget p (m_active m)) as [o|] eqn:G; [|injection H as <-; lia]. destruct (bm_bits _) as [hs| |]; try discriminate. cbn [rbind] in H.
    destruct (freq_dec _ _) as [f| |] eqn:F; try discriminate. cbn [rbind] in H. injection H as <-. cbn [with_freq m_freq]. rewrite N.add_0_r. eapply freq_dec_le; eauto.
  - unfold mark_inactive in H. destruct (aget p (m_active m)) as [o|] eqn:G; [|injection H as <-; lia]. destruct (bm_bits _) as [hs| |]; try discriminate. cbn [rbind] in H.
    destruct (freq_dec _ _) as [f| |] eqn:F; try discriminate. cbn [rbind] in H. injection H as <-. cbn [with_freq m_freq]. rewrite N.add_0_r. eapply freq_dec_le; eauto.
  - unfold handle_have in H. destruct (aget p (m_active m)) as [o|]; [|injection H as <-; lia]. destruct (bm_change _ _ _) as [[b old]| |]; try discriminate. cbn [rbind fst snd] in H. destruct old; [injection H as <-; cbn [with_active m_freq]; lia|].
    destruct (freq_inc _ _) as [f| |] eqn:F; try discriminate. cbn [rmap] in H. injection H as <-. cbn [with_freq m_freq]. destruct (@freq_inc_val _ _ _ F) as (_ & _ & _ & E). rewrite E. destruct (Nat.eqb _ _); lia.
  - unfold accept_bitfield in H. destruct (aget p (m_active m)) as [o|]; [|injection H as <-; lia]. destruct (_ <? _)%N; [injection H as <-; lia|]. destruct (bm_replace_data _ _) as [d'| |]; try discriminate; [|injection H as <-; lia].
    destruct (bm_bits _) as [hs| |]; try discriminate. cbn [rbind] in H. destruct (freq_add _ _ _) as [f| |] eqn:F; try discriminate. cbn [rbind] in H. injection H as <-. cbn [with_freq m_freq]. destruct (@freq_add_val _ _ _ _ F) as (_ & E). rewrite E. destruct (_ && _); lia.
Qed.
Lemma add_peers_freq : forall ps m m' out, add_peers m ps = Val (m', out) -> m_freq m' = m_freq m.
Proof.
  induction ps as [|p ps IH]; intros m m' out H; cbn [add_peers] in H; [injection H as <- <-; reflexivity|].
  destruct (pi_new _) as [i| |]; try discriminate. cbn [rbind] in H. destruct (add_peers _ ps) as [[m1 o1]| |] eqn:A; try discriminate. cbn [rmap fst snd] in H. injection H as <- _. apply (IH _ _ _ A).
Qed.
Lemma refresh_freq : forall m t m' t' out, m_refresh m t = Val (m', t', out) -> m_freq m' = m_freq m.
Proof.
  intros m t m' t' out H. unfold m_refresh in H. destruct (_ <? _); [discriminate|]. destruct (_ =? _); [injection H as <- _ _; reflexivity|].
  destruct (q_batch _ _ _) as [[t1 ps]| |]; try discriminate. cbn [rbind fst snd] in H. destruct (add_peers _ ps) as [[m1 o1]| |] eqn:A; try discriminate. cbn [rmap fst snd] in H. injection H as <- _ _. apply (add_peers_freq _ _ A).
Qed.
Definition cpieces (c : con_message) : bool := match c with CHave _ | CBitfield _ => true | _ => false end.
Definition mild (c : con_message) : Prop := ~ is_todo c /\ forall i, c = CHave i -> (i < N.of_nat (length hashes))%N.
Definition pend (q : list (addr * con_message)) : nat := length (filter (fun x => cpieces (snd x)) q).
Definition tellers (h : list (cev * list cout)) : nat := length (filter tells_pieces (map fst h)).
Definition fit (h : list (cev * list cout)) (s : client) : Prop :=
  q_poison s = false /\ exists m, q_mgr s = Some m /\ (forall p c, In (p, c) (q_rec s) -> mild c) /\ forall j, (fr (m_freq m) j + N.of_nat (pend (q_rec s)) <= N.of_nat (tellers h))%N.
Lemma tellers_app : forall h e o, tellers (h ++ [(e, o)]) = tellers h + if tells_pieces e then 1 else 0.
Proof. intros. unfold tellers. rewrite map_app, filter_app, app_length. cbn. destruct (tells_pieces e); reflexivity. Qed.
Lemma pend_app : forall q x, pend (q ++ [x]) = pend q + if cpieces (snd x) then 1 else 0.
Proof. intros. unfold pend. rewrite filter_app, app_length. cbn. destruct (cpieces (snd x)); reflexivity. Qed.
Lemma fit_step : forall h s e s' o, cinv h s -> fit h s -> step s e = Some (s', o) -> harmless (length hashes) e = true -> (N.of_nat (tellers (h ++ [(e, o)])) < 65535)%N -> fit (h ++ [(e, o)]) s'.
Proof.
  intros h s e s' o I (PO & m & M & MI & FR) H HA TE. rewrite tellers_app in TE.
  assert (G : forall z, q_poison z = false -> q_mgr z = Some m -> q_rec z = q_rec s -> fit (h ++ [(e, o)]) z).
  { intros z A B C. split; [exact A|]. exists m. split; [exact B|]. rewrite C. split; [exact MI|]. intro j. specialize (FR j). rewrite tellers_app. lia. }
  assert (GT : forall z p c z', q_poison z = q_poison s -> q_mgr z = q_mgr s -> q_rec z = q_rec s -> tell_mgr z p c = Some z' -> mild c -> (cpieces c = true -> tells_pieces e = true) -> forall w, q_poison w = q_poison z' -> q_mgr w = q_mgr z' -> q_rec w = q_rec z' -> fit (h ++ [(e, o)]) w).
  { intros z p c z' A B C T W Y w D E F. unfold tell_mgr in T. rewrite B, M in T. destruct (_ <? _); [|discriminate]. injection T as <-. cbn in D, E, F. split; [congruence|]. exists m. split; [congruence|]. rewrite F, C. split.
    - intros p' c' IN. apply in_app_or in IN. destruct IN as [IN|[IN|[]]]; [eauto|]. injection IN as <- <-. exact W.
    - intro j. rewrite pend_app, tellers_app. cbn [snd]. specialize (FR j). destruct (cpieces c); [rewrite Y by reflexivity|]; lia. }
  unfold cstep in H. destruct (q_exit s); [discriminate|].
  destruct e as [sent| |i ok|i w|i|i|i lk|i ix bs|i|e|i now e| | |ks ks'].
  - rewrite M in H. pose proof (reach_inv_m (ci_reach I M)) as [INV ND]. cbn [fst snd] in INV, ND.
    destruct (@refresh_spec _ m _ INV ND) as (m1 & tab & o1 & RF & INV1 & _). rewrite RF in H.
    destruct (@m_assign_spec _ m1 sent INV1) as (m2 & o2 & AS & INV2 & _ & _ & _ & _ & _ & FQ & _). rewrite AS, PO in H. cbn [andb] in H. injection H as <- <-.
    split; [exact PO|]. exists m2. split; [reflexivity|]. split; [exact MI|]. intro j. rewrite FQ, (refresh_freq _ _ RF). specialize (FR j). cbn [with_mgr with_sys with_cons q_rec]. rewrite tellers_app. lia.
  - rewrite M in H. destruct (q_rec s) as [|[p c] q] eqn:Q; [discriminate|]. injection H as <- <-.
    destruct (MI p c (or_introl eq_refl)) as (T & V). assert (FB : forall j, (fr (m_freq m) j < 65535)%N). { intro j. specialize (FR j). lia. }
    destruct (@C33_survives_partial hashes (m, y_peers (q_dht s)) p c (ci_reach I M) FB T (fun i E _ => V i E)) as (m' & HM). cbn [fst] in HM. rewrite HM.
    split; [exact PO|]. exists m'. split; [reflexivity|]. cbn [with_mgr with_rec q_rec]. split; [intros; eapply MI; right; eauto|]. intro j. specialize (FR j).
    pose proof (reach_inv_m (ci_reach I M)) as [INV _]. cbn [fst] in INV. pose proof (message_freq _ _ j INV HM) as L. rewrite tellers_app. unfold pend in *. cbn [filter snd] in FR. destruct c; cbn [cpieces length] in *; lia.
  - destruct (nth_error (q_cons s) i) as [x|]; [|discriminate]. destruct (_ && _); [|discriminate]. destruct ok; [injection H as <- <-; apply G; auto|].
    destruct (tell_mgr s _ _) as [s1|] eqn:T; [|discriminate]. cbn [option_map] in H. injection H as <- <-. eapply (GT s _ _ s1); eauto; try discriminate; split; [intros []|discriminate].
  - destruct (nth_error (q_cons s) i) as [x|]; [|discriminate]. destruct (_ && _); [|discriminate]. destruct (deliver_all _ _ _ _ _ _) as [s1|] eqn:D; [|discriminate]. cbn [option_map] in H. injection H as <- <-.
    cbn [harmless] in HA. destruct w; cbn [WireModel.handle_message con_of_message deliver_all deliver fatal negb] in D, HA; try discriminate;
    try (destruct (tell_mgr s _ _) as [s2|] eqn:T; [|discriminate]; injection D as <-; eapply (GT s _ _ s2); eauto; try discriminate; split; [intros []|discriminate]; fail).
    + destruct (tell_mgr s _ _) as [s2|] eqn:T; [|discriminate]. injection D as <-. eapply (GT s _ _ s2); eauto. split; [intros []|]. intros k E. injection E as ->. apply negb_true_iff, N.leb_gt in HA. exact HA.
    + injection D as <-. apply G; auto.
    + destruct (dht_alive _); [|injection D as <-; apply G; auto]. destruct (ystep _ _ _ _ _ _) as [[y o']|]; [|discriminate]. cbn [option_map fst] in D. injection D as <-. apply G; auto.
  - destruct (nth_error (q_cons s) i) as [x|]; [|discriminate]. destruct (_ && _); [|discriminate]. injection H as <- <-. apply G; auto.
  - destruct (nth_error (q_cons s) i) as [x|]; [|discriminate]. destruct (_ && _); [|discriminate]. injection H as <- <-. apply G; auto.
  - destruct (nth_error (q_cons s) i) as [x|]; [|discriminate]. destruct (pc_dl x); [|discriminate]. injection H as <- <-. cbn [harmless] in HA. destruct lk; [discriminate|]. apply G; auto. cbn. rewrite PO. reflexivity.
  - discriminate.
  - destruct (nth_error (q_cons s) i) as [x|]; [|discriminate]. rewrite M in H. discriminate.
  - destruct (dht_ok s e); [|discriminate]. destruct (ystep _ _ _ _ _ _) as [[y o']|]; [|discriminate]. cbn [option_map fst snd] in H. injection H as <- <-. apply G; auto.
  - destruct (nth_error cfgs i) as [c|]; [|discriminate]. destruct (nth_error (q_trk s) i) as [t|]; [|discriminate]. destruct (trk_ok s e); [|discriminate]. destruct (session_step _ _ _ _ _) as [[t' o']|]; [|discriminate]. cbn [option_map fst snd] in H. injection H as <- <-. apply G; auto.
  - destruct (q_sig s); [discriminate|]. injection H as <- <-. apply G; auto.
  - destruct (_ && _); [|discriminate]. injection H as <- <-. apply G; auto.
  - injection H as <- <-. split; [exact PO|]. cbn [with_mgr with_sys q_mgr q_rec]. rewrite M. eexists. split; [reflexivity|]. split; [exact MI|]. intro j. specialize (FR j). rewrite tellers_app. cbn [with_active m_freq tells_pieces]. lia.
Qed.
Lemma crun_events : forall es s s' h, run s es = Some (s', h) -> map fst h = es.
Proof.
  induction es as [|e es IH]; cbn [crun]; intros s s' h R; [injection R as <- <-; reflexivity|]. destruct (step s e) as [[s1 o]|]; [|discriminate]. destruct (run s1 es) as [[s2 h']|] eqn:E; [|discriminate]. injection R as <- <-. cbn. f_equal. eapply IH; eauto.
Qed.
(** Part of C94: the manager outlives every run in which no peer sends a request,
    a cancel or a piece number out of range, no downloader finishes a piece or
    panics inside the mutex (C87), and what peers have is told fewer than 65535
    times. *)
Theorem C94_survives_partial : forall own secret info fs_ok t now es s h, let s0 := client_start cfgs own secret info hashes fs_ok t now in
  q_mgr s0 <> None -> run s0 es = Some (s, h) -> forallb (harmless (length hashes)) es = true -> (N.of_nat (length (filter tells_pieces es)) < 65535)%N ->
  q_mgr s <> None /\ ~ downloading_over s.
Proof.
  intros own secret info fs_ok t now es s h s0 M0 R HA TE. rewrite <- (crun_events _ _ R) in HA, TE.
  assert (F : cinv h s /\ (forallb (harmless (length hashes)) (map fst h) = true -> (N.of_nat (tellers h) < 65535)%N -> fit h s)).
  { eapply (@crun_inv sha usize_max cap tcp_port cfgs (fun h s => cinv h s /\ (forallb (harmless (length hashes)) (map fst h) = true -> (N.of_nat (tellers h) < 65535)%N -> fit h s))); [|clear es s h R HA TE|exact R].
    - split; [apply cinv_start|]. intros _ _. split; [reflexivity|]. destruct (q_mgr s0) as [m|] eqn:E; [|congruence]. exists m. split; [reflexivity|]. split; [intros p c []|]. intro j. cbn.
      subst s0. cbn in E. destruct fs_ok; [|discriminate]. destruct (m_init hashes) as [m0| |] eqn:MI; try discriminate. injection E as ->. unfold m_init in MI.
      destruct (bm_new (length hashes)); try discriminate; cbn [rbind] in MI; injection MI as <-. cbn. unfold fr. rewrite nth_repeat. reflexivity.
    - intros h s e s' o (I & F) H. split; [eapply cinv_step; eauto|]. intros HA TE. rewrite map_app, forallb_app in HA. apply andb_true_iff in HA. destruct HA as (HA & HE). cbn in HE. rewrite andb_true_r in HE.
      apply (@fit_step h s); auto. apply F; auto. rewrite tellers_app in TE. lia. }
  destruct F as (_ & F). destruct (F HA TE) as (_ & m & E & _). split; [congruence|]. intros (A & _). congruence.
Qed.
End client.

(** ** examples *)
Definition ex_peer_n (n : N) : addr := mk_addr x01 x02 x03 x04 n.
Definition ex_ports : list N := [1; 2; 3; 4; 5; 6; 7; 8; 9; 10; 11]%N.
(** A tracker names eleven peers; the client connects to ten of them. *)
Definition ex_many : list cev := [CTrk 0 1 (Answer (mk_response None 1800 None None 1 0 (map ex_peer_n ex_ports))); CTick (fun _ => true)].
Example C97_example : exists s h, crun (fun x => x) 100 CAPS 6881 [ex_cfg] (ex_client ex_own) ex_many = Some (s, h) /\ length (live s) = 10 /\ length (y_peers (q_dht s)) = 11.
Proof. eexists _, _. split; [vm_compute; reflexivity|]. split; reflexivity. Qed.
(** A second answer with the same peer leads to no second connection, even after
    the first attempt failed. *)
Example C96_example : exists s h, crun (fun x => x) 100 CAPS 6881 [ex_cfg] (ex_client ex_own)
    [CTrk 0 1 (Answer (mk_response None 1800 None None 1 0 [ex_peer])); CTick (fun _ => true); CShake 0 false; CTake; CTick (fun _ => true)] = Some (s, h)
  /\ connects h = [ex_peer] /\ q_mgr s <> None.
Proof. eexists _, _. split; [vm_compute; reflexivity|]. split; [reflexivity|discriminate]. Qed.
Example C94_example : exists s h, crun (fun x => x) 100 CAPS 6881 [ex_cfg] (ex_client ex_own) (ex_meet ++ [CRecv 0 Unchoke; CRecv 0 (Have 0); CTake; CTake; CLost 0]) = Some (s, h)
  /\ forallb (harmless 1) (map fst h) = true /\ length (filter tells_pieces (map fst h)) = 1 /\ q_mgr (ex_client ex_own) <> None /\ q_mgr s <> None.
Proof. eexists _, _. split; [vm_compute; reflexivity|]. sp; try reflexivity; discriminate. Qed.

Print Assumptions C96_once.
Print Assumptions C97_at_most_ten.
Print Assumptions C94_survives_partial.
