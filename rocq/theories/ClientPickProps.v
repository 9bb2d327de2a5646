(** C99 exactly: which peers the manager connects to when it looks. *)
From Coq Require Import List NArith ZArith Lia Bool Arith Permutation.
From Coq Require Import Init.Byte.
From Verif Require Import Base Assoc BitmapModel BitmapProofs IdModel WireModel TableModel PeersModel PeersSpec PeersProofs PeersProps BencodeModel TrackerModel ManagerModel ManagerSpec ManagerProofs ManagerProofs2 ManagerProps
  KrpcModel DhtModel DhtSpec DhtMgrModel FetchModel TaskModel DhtSysModel DhtSysSpec DhtSysProps ClientModel ClientSpec ClientProps ClientInvProps ClientSlotProps ClientOriginProps ClientEndProps.
Import ListNotations.
Set Implicit Arguments.

(** ** the table between the manager's looks *)
(** Peers that were given back by the manager are among [N]. *)
Definition mild (N : addr -> Prop) (t : peers) : Prop := forall p st, status_of t p st -> st = Unknown \/ st = Active \/ N p.
Definition tame_op (o : qop) : Prop := match o with QBatch _ _ => False | _ => True end.
Inductive tame : peers -> peers -> Prop :=
| tm_nil : forall t, tame t t
| tm_cons : forall t o t1 out t2, tame_op o -> q_step t o = Val (t1, out) -> tame t1 t2 -> tame t t2.
Lemma tm_one : forall t o t1 out, tame_op o -> q_step t o = Val (t1, out) -> tame t t1.
Proof. intros. econstructor; [eauto|eauto|constructor]. Qed.
Lemma one_status : forall (t : peers) p st st', NoDup (map fst t) -> status_of t p st -> status_of t p st' -> st = st'.
Proof.
  intros t p st st' ND A B. unfold status_of in *. induction t as [|[q x] t IH]; [destruct A|]. cbn in ND. inversion ND; subst.
  destruct A as [A|A], B as [B|B]; [congruence| | |auto]; [injection A as <- <-; apply (in_map fst) in B; contradiction|injection B as <- <-; apply (in_map fst) in A; contradiction].
Qed.
Lemma batch_mild : forall (N : addr -> Prop) rk l t t' out, NoDup (map fst t) -> good_batch rk l t t' out -> mild N t -> mild N t'.
Proof.
  intros N rk l t t' out ND G M p st H. destruct (in_dec addr_dec p out) as [I|I].
  - assert (ND' : NoDup (map fst t')) by (rewrite (gb_same_peers G); exact ND). rewrite (@one_status t' p st Active ND' H (gb_marked G p I)). auto.
  - apply M. apply (gb_frame G p st I). exact H.
Qed.
Lemma tame_mild : forall N t t', tame t t' -> NoDup (map fst t) -> mild N t -> NoDup (map fst t') /\ mild N t'.
Proof.
  intros N t t' T. induction T as [t|t o t1 out t2 TO Q _ IH]; intros ND M; [auto|]. destruct (@step_keys t o ND) as (m' & out' & Q' & ND' & _). rewrite Q in Q'. injection Q' as <- <-. apply IH; [exact ND'|].
  destruct o as [p|ps|bad l|l|u]; try destruct TO.
  - cbn [q_step] in Q. injection Q as <- <-. destruct (@C25_learnt_available t [p] ND) as (m' & Q & ST). cbn [q_step] in Q. injection Q as <-. intros q st H. destruct (addr_dec q p) as [->|NE].
    + left. apply (proj1 (ST p st) (or_introl eq_refl)). exact H.
    + apply M. apply (proj2 (ST q st)); [|exact H]. intros [E|[]]. congruence.
  - destruct (@C25_learnt_available t ps ND) as (m' & Q' & ST). rewrite Q in Q'. injection Q' as <- _. intros q st H. destruct (in_dec addr_dec q ps) as [I|I].
    + left. apply (proj1 (ST q st) I). exact H.
    + apply M. apply (proj2 (ST q st) I). exact H.
  - destruct (@C25_good_peers t l ND) as (m' & o' & E & G). cbn [q_step] in Q. rewrite E in Q. cbn [rmap fst] in Q. injection Q as <- _. exact (@batch_mild N _ _ _ _ _ ND G M).
  - destruct (@C25_good_peers t u ND) as (m' & o' & E & G). cbn [q_step] in Q. unfold q_enough in Q. rewrite E in Q. cbn [rmap fst] in Q. injection Q as <- _. exact (@batch_mild N _ _ _ _ _ ND G M).
Qed.
Lemma gstep_tame : forall now pick s i s' o, gstep now pick s i = Val (s', o) -> (forall op, i <> GShared op) -> tame (g_peers s) (g_peers s').
Proof.
  intros now pick s i s' o H NS. destruct i as [tg fr t|ih fr t|p ih|r|dr|a|op]; cbn [gstep] in H.
  - unfold on_find_node in H. destruct (find_node _ _ _); try discriminate. injection H as <- <-. constructor.
  - unfold on_get_peers in H. destruct (find_peers pick s ih) as [[m r]| |] eqn:F; try discriminate. cbn [rbind fst snd] in H.
    assert (A : tame (g_peers s) m).
    { unfold find_peers in F. destruct (q_serve _ _); [|injection F as <- _; constructor]. eapply (@tm_one _ (QGood (DHT_MTU / COMPACT_PEER_LEN))); [exact I|]. cbn [q_step]. rewrite F. reflexivity. }
    destruct r as [l|]; [injection H as <- <-; exact A|]. destruct (find_node _ _ _); try discriminate. injection H as <- <-. exact A.
  - injection H as <- <-. unfold store_new_peer. destruct (q_serve _ _); [|constructor]. eapply (@tm_one _ (QInsert p)); [exact I|reflexivity].
  - unfold on_resp in H. destruct r.
    + destruct (touch_node _ _ _ _); try discriminate. injection H as <- <-. constructor.
    + destruct (touch_node _ _ _ _); try discriminate. cbn [rbind] in H. destruct (unknown_addrs _ _); try discriminate. injection H as <- <-. constructor.
    + injection H as <- <-. constructor.
  - unfold refresh_table in H. destruct (iter_over_ids _ _ _); try discriminate. cbn [rbind] in H. destruct (find_nodes_for _ _ _); try discriminate. injection H as <- <-. constructor.
  - injection H as <- <-. constructor.
  - destruct (NS op eq_refl).
Qed.
Lemma fstep_tame : forall um f e f' o, fstep um f e = Val (f', o) -> (forall op, e <> FShared op) -> tame (fs_peers f) (fs_peers f').
Proof.
  intros um f e f' o H NS. destruct e as [|r| |op]; cbn [fstep] in H.
  - destruct (fs_busy f); [discriminate|]. injection H as <- <-. constructor.
  - destruct (fs_busy f); [|destruct r; discriminate]. destruct r as [id fr|n fr id|fr tok v]; try (injection H as <- <-; constructor).
    destruct (mget addr_eqb fr (fs_nodes f)) as [old|]; [|injection H as <- <-; constructor].
    destruct (on_answer um f old fr tok v) as [[[f1 go] q]| |] eqn:A; try discriminate. cbn [rmap] in H.
    assert (T : tame (fs_peers f) (fs_peers f1)).
    { unfold on_answer in A. destruct v as [l|n].
      - destruct (_ <=? _).
        + destruct (q_enough um (q_extend (fs_peers f) l)) as [[m b]| |] eqn:E; try discriminate. injection A as <- _ _. cbn [fs_peers fst].
          eapply (@tm_cons _ (QExtend l)); [exact I|reflexivity|]. eapply (@tm_one _ (QEnough um)); [exact I|]. cbn [q_step]. rewrite E. reflexivity.
        + injection A as <- _ _. eapply (@tm_one _ (QExtend l)); [exact I|reflexivity].
      - destruct (_ <=? _).
        + destruct (q_enough um (fs_peers f)) as [[m b]| |] eqn:E; try discriminate. injection A as <- _ _. cbn [fs_peers fst].
          eapply (@tm_one _ (QEnough um)); [exact I|]. cbn [q_step]. rewrite E. reflexivity.
        + injection A as <- _ _. constructor. }
    destruct go; injection H as <- <-; exact T.
  - destruct (fs_busy f); [|discriminate]. injection H as <- <-. constructor.
  - destruct (NS op eq_refl).
Qed.
Section sys.
Variable sha : bytes -> bytes.
Variable usize_max : nat.
Variable cap : caps.
Variable tcp_port : N.
Lemma turn_tame : forall y now pick i, (forall op, i <> GShared op) -> tame (y_peers y) (y_peers (dht_turn y now pick i)).
Proof.
  intros y now pick i NS. unfold dht_turn. destruct (gstep now pick (mgr_of y) i) as [[s o]| |] eqn:G; [|constructor|constructor]. exact (@gstep_tame _ _ _ _ _ _ G NS).
Qed.
Lemma ystep_tame : forall y e y' o, ystep sha usize_max cap tcp_port y e = Some (y', o) -> (forall op, ~ In (GShared op) (y_qry y)) -> (forall op, e <> YShared op) -> tame (y_peers y) (y_peers y').
Proof.
  intros y e y' o H NQ NS. destruct e as [from m|t'| | | |now pick sr| |now2 now3| | | | |ad|q]; cbn [ystep] in H.
  - inv_step H. rewrite after_peers. constructor.
  - inv_step H. rewrite after_peers. constructor.
  - destruct (y_sock y) as [d|]; [|discriminate]. destruct (y_outs y) as [|x os]; [discriminate|].
    unfold sock_out, hand_over in H. destruct x as [to m|tg fr tt|ih fr tt|p ih|req r]; [| | | |destruct (req =? DHT)];
    repeat match type of H with context [if ?b then _ else _] => destruct b end; try discriminate; injection H as <- <-; constructor.
  - inv_step H. constructor.
  - inv_step H. constructor.
  - destruct (y_phase y); try discriminate. destruct sr.
    + destruct (y_rd y) as [|r q]; [discriminate|]. injection H as <- <-. match goal with |- tame _ (y_peers (dht_turn ?z _ _ _)) => change (y_peers y) with (y_peers z) end. apply turn_tame. discriminate.
    + destruct (y_qry y) as [|i q]; [destruct (sock_alive y); [discriminate|]; injection H as <- <-; constructor|]. injection H as <- <-. match goal with |- tame _ (y_peers (dht_turn ?z _ _ _)) => change (y_peers y) with (y_peers z) end.
      apply turn_tame. intros op ->. apply (NQ op). left. reflexivity.
    + destruct (y_port y) as [|r q]; [discriminate|]. injection H as <- <-. match goal with |- tame _ (y_peers (dht_turn ?z _ _ _)) => change (y_peers y) with (y_peers z) end. apply turn_tame. discriminate.
    + destruct (y_port y); [|discriminate]. injection H as <- <-. constructor.
    + injection H as <- <-. match goal with |- tame _ (y_peers (dht_turn ?z _ _ _)) => change (y_peers y) with (y_peers z) end. apply turn_tame. discriminate.
    + injection H as <- <-. constructor.
  - inv_step H; try match goal with E : send_cmd _ _ _ _ = Some _ |- _ => apply send_frame in E; destruct E as (-> & _) end; constructor.
  - inv_step H; constructor.
  - inv_step H; try constructor. match goal with E : fstep _ _ _ = Val _ |- _ => apply fstep_tame in E; [exact E|discriminate] end.
  - inv_step H; try constructor. match goal with E : fstep _ _ _ = Val _ |- _ => apply fstep_tame in E; [exact E|discriminate] end.
  - inv_step H; try constructor. match goal with E : fstep _ _ _ = Val _ |- _ => apply fstep_tame in E; [exact E|discriminate] end.
  - inv_step H; try match goal with E : send_cmd _ _ _ _ = Some _ |- _ => apply send_frame in E; destruct E as (-> & _) end; constructor.
  - inv_step H; constructor.
  - destruct (NS q eq_refl).
Qed.
End sys.

Section client.
Variable sha : bytes -> bytes.
Variable usize_max : nat.
Variable cap : caps.
Variable tcp_port : N.
Variable cfgs : list tracker_cfg.
Variable hashes : list ID.
Variable secret info : ID.
Notation step := (cstep sha usize_max cap tcp_port cfgs).
Notation run := (crun sha usize_max cap tcp_port cfgs).
Notation oinv := (oinv sha secret info).

Lemma found_tame : forall l t, tame t (fold_left trk_found l t).
Proof. induction l as [|o l IH]; intro t; cbn [fold_left]; [constructor|]. destruct o as [a|ps]; cbn [trk_found]; [apply IH|]. eapply (@tm_cons _ (QExtend ps)); [exact I|reflexivity|apply IH]. Qed.
Definition known_ok (h : list (cev * list cout)) (s : client) : Prop := q_mgr s <> None -> NoDup (map fst (y_peers (q_dht s))) /\ mild (fun p => In p (connects h)) (y_peers (q_dht s)).
Lemma mild_more : forall (N N' : addr -> Prop) t, (forall p, N p -> N' p) -> mild N t -> mild N' t.
Proof. intros N N' t M H p st S. destruct (H p st S) as [X|[X|X]]; auto. Qed.
Lemma known_step : forall h s e s' o, cinv hashes h s -> jinv h s -> oinv h s -> known_ok h s -> step s e = Some (s', o) -> known_ok (h ++ [(e, o)]) s'.
Proof.
  intros h s e s' o CI J OI K H.
  assert (QT : (q_mgr s' <> None -> q_mgr s <> None) -> tame (y_peers (q_dht s)) (y_peers (q_dht s')) -> known_ok (h ++ [(e, o)]) s').
  { intros M T X. destruct (K (M X)) as (A & B). destruct (tame_mild T A B) as (C & D). split; [exact C|]. eapply mild_more; [|exact D]. intros p P. cbv beta in P |- *. rewrite connects_app. apply in_or_app. auto. }
  unfold cstep in H. destruct (q_exit s); [discriminate|].
  destruct e as [sent| |i ok|i m|i|i|i lk|i ix bs|i|e|i now e| | |ks ks'].
  - destruct (q_mgr s) as [m|] eqn:M; [|discriminate]. pose proof (reach_inv_m (ci_reach CI M)) as [INV ND]. cbn [fst snd] in INV, ND.
    destruct (@refresh_spec _ m _ INV ND) as (m1 & tab & o1 & RF & INV1 & ND1 & _ & SP). rewrite RF in H.
    destruct (@m_assign_spec _ m1 sent INV1) as (m2 & o2 & AS & _). rewrite AS in H. injection H as <- <-. clear QT. intros _.
    cbn [with_mgr with_sys with_cons with_peers q_dht y_peers]. assert (NN : q_mgr s <> None) by congruence. destruct (K NN) as (_ & B). split; [exact ND1|].
    eapply mild_more; [intros p P; rewrite connects_app; apply in_or_app; left; exact P|].
    destruct SP as [SP|(ps & Q & _)].
    + injection SP as -> -> ->. exact B.
    + destruct (@C25_batch (y_peers (q_dht s)) (m_inactive m) (10 - length (m_active m)) ND) as (t1 & t' & ps' & B' & N1 & ST & G). rewrite Q in B'. injection B' as <- <-. eapply batch_mild; [exact N1|exact G|].
      intros p st S. apply ST in S. destruct (last_returned (m_inactive m) p) as [st'|] eqn:LR; [|exact (B p st S)]. right. right. apply last_returned_in in LR. apply (j_sub J p M). right. apply in_map_iff. exists (p, st'). auto.
  - destruct (q_mgr s) as [m|] eqn:M; [|discriminate]. destruct (q_rec s) as [|[p c] q]; [discriminate|]. injection H as <- <-. apply QT; [intros; congruence|constructor].
  - destruct (nth_error (q_cons s) i) as [x|]; [|discriminate]. destruct (_ && _); [|discriminate]. destruct ok; [injection H as <- <-; apply QT; [auto|constructor]|].
    destruct (tell_mgr s _ _) as [s1|] eqn:T; [|discriminate]. cbn [option_map] in H. injection H as <- <-. destruct (@tell_rec _ _ _ _ T) as (A & _ & B & _). apply QT; cbn [with_cons q_mgr q_dht]; [rewrite A; auto|rewrite B; constructor].
  - destruct (nth_error (q_cons s) i) as [x|]; [|discriminate]. destruct (_ && _); [|discriminate]. destruct (deliver_all _ _ _ _ _ _) as [s1|] eqn:D; [|discriminate]. cbn [option_map] in H. injection H as <- <-.
    destruct (@deliver_frame _ _ _ _ _ _ _ _ D) as (A & _). apply QT; [rewrite A; auto|]. clear QT A.
    destruct m; cbn [WireModel.handle_message con_of_message deliver_all deliver] in D;
    try (destruct (tell_mgr s (pc_peer x) _) as [s2|] eqn:T; [|discriminate]; injection D as <-; destruct (@tell_rec _ _ _ _ T) as (_ & _ & E & _); rewrite E; constructor).
    + injection D as <-. constructor.
    + destruct (dht_alive (q_dht s)); [|injection D as <-; constructor]. destruct (ystep _ _ _ _ _ _) as [[y o]|] eqn:Y; [|discriminate]. cbn [option_map fst] in D. injection D as <-.
      cbn [with_sys q_dht]. eapply ystep_tame; [exact Y|apply (sr_own (oi_src OI))|discriminate].
  - destruct (nth_error (q_cons s) i) as [x|]; [|discriminate]. destruct (_ && _); [|discriminate]. injection H as <- <-. apply QT; [auto|constructor].
  - destruct (nth_error (q_cons s) i) as [x|]; [|discriminate]. destruct (_ && _); [|discriminate]. injection H as <- <-. apply QT; [auto|constructor].
  - destruct (nth_error (q_cons s) i) as [x|]; [|discriminate]. destruct (pc_dl x); [|discriminate]. injection H as <- <-. apply QT; [auto|constructor].
  - destruct (nth_error (q_cons s) i) as [x|]; [|discriminate]. destruct (pc_dl x); [|discriminate]. destruct (tell_mgr s _ _) as [s1|] eqn:T; [|discriminate]. cbn [option_map] in H. injection H as <- <-. destruct (@tell_rec _ _ _ _ T) as (A & _ & B & _). apply QT; [rewrite A; auto|rewrite B; constructor].
  - destruct (nth_error (q_cons s) i) as [x|]; [|discriminate]. destruct (q_mgr s) eqn:M; [discriminate|]. destruct (_ && _); [|discriminate]. injection H as <- <-. apply QT; [cbn; rewrite M; auto|constructor].
  - destruct (dht_ok s e) eqn:OK; [|discriminate]. destruct (ystep _ _ _ _ _ _) as [[y o']|] eqn:Y; [|discriminate]. cbn [option_map fst snd] in H. injection H as <- <-.
    apply QT; [auto|]. cbn [with_sys q_dht]. eapply ystep_tame; [exact Y|apply (sr_own (oi_src OI))|intros op ->; discriminate OK].
  - destruct (nth_error cfgs i) as [c|]; [|discriminate]. destruct (nth_error (q_trk s) i) as [t|]; [|discriminate]. destruct (trk_ok s e); [|discriminate]. destruct (session_step _ _ _ _ _) as [[t' o']|] eqn:SS; [|discriminate]. cbn [option_map fst snd] in H. injection H as <- <-.
    apply QT; [auto|]. apply found_tame.
  - destruct (q_sig s); [discriminate|]. injection H as <- <-. apply QT; [auto|constructor].
  - destruct (_ && _); [|discriminate]. injection H as <- <-. apply QT; [auto|constructor].
  - injection H as <- <-. clear QT. intro X. assert (NN : q_mgr s <> None) by (intro E; apply X; cbn [with_mgr with_sys q_mgr]; rewrite E; reflexivity). destruct (K NN) as (A & B). cbn [with_mgr with_sys with_peers q_dht y_peers]. split.
    + eapply Permutation_NoDup; [apply Permutation_map; apply reorder_perm|exact A].
    + intros p st S. rewrite connects_app. cbn. rewrite app_nil_r. apply B. unfold status_of in *. eapply Permutation_in; [|exact S]. apply Permutation_sym. apply reorder_perm.
Qed.
Lemma known_run : forall own fs_ok t now es s h, run (client_start cfgs own secret info hashes fs_ok t now) es = Some (s, h) -> known_ok h s.
Proof.
  intros own fs_ok t now es s h R. enough (X : (cinv hashes h s /\ jinv h s /\ oinv h s) /\ known_ok h s) by apply X.
  apply (@crun_inv sha usize_max cap tcp_port cfgs (fun h s => (cinv hashes h s /\ jinv h s /\ oinv h s) /\ known_ok h s) (client_start cfgs own secret info hashes fs_ok t now)) with (es := es); [|clear es s h R|exact R].
  - cbv beta. assert (R0 : run (client_start cfgs own secret info hashes fs_ok t now) [] = Some (client_start cfgs own secret info hashes fs_ok t now, [])) by reflexivity.
    destruct (@jinv_run sha usize_max cap tcp_port cfgs hashes own secret info fs_ok t now [] _ [] R0) as (A & B). split; [split; [exact A|split; [exact B|]]|].
    + eapply oinv_run. exact R0.
    + intros _. cbn. split; [constructor|intros p st []].
  - intros h s e s' o ((A & B & C) & D) H. split; [split; [eapply cinv_step; eauto|split; [eapply jinv_step; eauto|eapply oinv_step; eauto]]|eapply known_step; eauto].
Qed.
(** ** C99 *)
(** Whom the manager connects to when it looks: only peers that wait and were
    never tried; and if there are places for all that wait, exactly those. *)
Theorem C99_exact : forall own fs_ok t now es s h m sent s' o, run (client_start cfgs own secret info hashes fs_ok t now) es = Some (s, h) ->
  q_mgr s = Some m -> step s (CTick sent) = Some (s', o) ->
  (forall q, In (CConnect q) o -> In q (waiting (y_peers (q_dht s))) /\ ~ In q (connects h)) /\
  (length (waiting (y_peers (q_dht s))) + length (m_active m) <= 10 ->
   forall q, In (CConnect q) o <-> In q (waiting (y_peers (q_dht s))) /\ ~ In q (connects h)).
Proof.
  intros own fs_ok t now es s h m sent s' o R M H.
  assert (X : q_exit s = false) by (unfold cstep in H; destruct (q_exit s); [discriminate|reflexivity]).
  assert (ON : forall q, In (CConnect q) o -> In q (waiting (y_peers (q_dht s))) /\ ~ In q (connects h)).
  { intros q Q. assert (NF : ~ In q (connects h)).
    { assert (R1 : run (client_start cfgs own secret info hashes fs_ok t now) (es ++ [CTick sent]) = Some (s', h ++ [(CTick sent, o)])).
      { eapply crun_app; [exact R|]. cbn [crun]. rewrite H. reflexivity. }
      pose proof (@C96_once sha usize_max cap tcp_port cfgs hashes own secret info fs_ok t now _ _ _ R1) as ND. rewrite connects_app in ND. intro I.
      assert (J : In q (flat_map (fun o : cout => match o with CConnect p => [p] | _ => [] end) o)) by (apply in_flat_map; exists (CConnect q); split; [exact Q|left; reflexivity]).
      apply in_split in I. destruct I as (a & b & E). rewrite E in ND. rewrite <- app_assoc in ND. cbn [app] in ND. apply NoDup_remove_2 in ND. apply ND. apply in_or_app. right. apply in_or_app. right. exact J. }
    split; [|exact NF]. destruct (@jinv_run sha usize_max cap tcp_port cfgs hashes own secret info fs_ok t now es s h R) as (CI & J). assert (NN : q_mgr s <> None) by congruence. destruct (known_run _ _ _ _ _ R NN) as (ND & ML).
    pose proof (reach_inv_m (ci_reach CI M)) as [INV _]. cbn [fst snd] in INV.
    unfold cstep in H. rewrite X, M in H. destruct (@refresh_spec _ m _ INV ND) as (m1 & tab & o1 & RF & INV1 & _ & _ & SP). rewrite RF in H.
    destruct (@m_assign_spec _ m1 sent INV1) as (m2 & o2 & AS & _). rewrite AS in H. injection H as _ <-.
    assert (SW : In (OSpawn q) o1). { apply in_flat_map in Q. destruct Q as (x & XI & P). destruct x; cbn in P; [destruct P as [P|[]]; injection P as ->; exact XI|destruct P]. }
    destruct SP as [SP|(ps & Q' & _ & _ & K & IE & _ & SWP)]; [injection SP as _ _ ->; destruct SW|]. destruct (SWP _ SW) as (q' & EQ & IQ & _). injection EQ as <-.
    destruct (@C25_batch (y_peers (q_dht s)) (m_inactive m) (10 - length (m_active m)) ND) as (t1 & t' & ps' & B' & N1 & ST & G). rewrite Q' in B'. injection B' as <- <-.
    destruct (gb_eligible G _ IQ) as (st & r & S1 & S2). apply ST in S1. destruct (last_returned (m_inactive m) q) as [st'|] eqn:LR.
    - exfalso. apply NF. apply last_returned_in in LR. apply (j_sub J q M). right. apply in_map_iff. exists (q, st'). auto.
    - destruct (ML q st S1) as [->|[->|Z]]; [|discriminate|contradiction]. unfold waiting. apply in_map_iff. exists (q, Unknown). split; [reflexivity|]. apply filter_In. auto. }
  split; [exact ON|]. intros L q. split; [apply ON|]. intros (W & F).
  destruct (@C99_waiting_connected_partial sha usize_max cap tcp_port cfgs hashes own secret info fs_ok t now es s h m q sent R X M W F L) as (s2 & o2 & H2 & I2). rewrite H in H2. injection H2 as _ <-. exact I2.
Qed.
End client.
(** Three peers named by the tracker, connected to at the first look, and none of
    them at the second. *)
Example C99_exact_example : exists r s1 h1 m1 s2 o1 m2 s3 o2, crun (fun x => x) 100 CAPS 6881 [ex_cfg] (ex_client ex_own) [CTrk 0 1 (Answer r)] = Some (s1, h1) /\ q_mgr s1 = Some m1 /\
  length (waiting (y_peers (q_dht s1))) + length (m_active m1) = 3 /\
  cstep (fun x => x) 100 CAPS 6881 [ex_cfg] s1 (CTick (fun _ => true)) = Some (s2, o1) /\ o1 = map CConnect (map ex_peer_n [1; 2; 3]%N) /\
  q_mgr s2 = Some m2 /\ cstep (fun x => x) 100 CAPS 6881 [ex_cfg] s2 (CTick (fun _ => true)) = Some (s3, o2) /\ o2 = [].
Proof. eexists (mk_response None 1800 None None 1 0 (map ex_peer_n [1; 2; 3]%N)), _, _, _, _, _, _, _, _. split; [vm_compute; reflexivity|]. split; [reflexivity|]. split; [reflexivity|]. split; [vm_compute; reflexivity|]. split; [reflexivity|]. split; [reflexivity|]. split; [vm_compute; reflexivity|reflexivity]. Qed.

Print Assumptions C99_exact.
